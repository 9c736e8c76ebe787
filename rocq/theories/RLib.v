(** Generic facts about real numbers, finite sums and maxima. Nothing here is
    specific to decomon: it is the vocabulary in which the tensor operations of
    the code (K.sum, K.maximum, K.sign, K.clip, ...) are written. *)
From Coq Require Import Reals Lra Lia Psatz Arith List Bool.
Import ListNotations.
Local Open Scope R_scope.

(** A vector / matrix / tensor seen through its index function. *)
Definition vec := nat -> R.
Definition mat := nat -> nat -> R.

(** K.sum over an axis of length [n]. *)
Fixpoint rsum (n : nat) (f : nat -> R) : R :=
  match n with
  | O => 0
  | S k => rsum k f + f k
  end.

(** K.max over an axis of indices [0..k] (length k+1). *)
Fixpoint rmax_to (k : nat) (f : nat -> R) : R :=
  match k with
  | O => f O
  | S k' => Rmax (rmax_to k' f) (f k)
  end.

(** K.max over an axis of length [n] (n >= 1). *)
Definition rmax (n : nat) (f : nat -> R) : R := rmax_to (pred n) f.

(** K.min over an axis. *)
Fixpoint rmin_to (k : nat) (f : nat -> R) : R :=
  match k with
  | O => f O
  | S k' => Rmin (rmin_to k' f) (f k)
  end.
Definition rmin (n : nat) (f : nat -> R) : R := rmin_to (pred n) f.

(** K.sign *)
Definition Rsgn (x : R) : R :=
  if Rlt_dec 0 x then 1 else if Rlt_dec x 0 then -1 else 0.

(** K.clip(x, lo, hi) = minimum(maximum(x, lo), hi) *)
Definition Rclip (x lo hi : R) : R := Rmin (Rmax x lo) hi.

(** K.relu *)
Definition Rrelu (x : R) : R := Rmax x 0.

(** positive and negative parts: K.maximum(w, 0.), K.minimum(w, 0.) *)
Definition Rpos (x : R) : R := Rmax x 0.
Definition Rneg (x : R) : R := Rmin x 0.

(** inner product of weights with a point *)
Definition dot (n : nat) (w : nat -> R) (z : nat -> R) : R :=
  rsum n (fun i => w i * z i).

(** Exceptions as values. *)
Inductive err :=
| ValueError | NotImplementedError | KeyError | TypeError | IndexError | AttributeError
| UserWarning | AssertionError.

Inductive result (A : Type) :=
| Ok (a : A)
| Err (e : err).
Arguments Ok {A} _.
Arguments Err {A} _.

Definition bind {A B} (r : result A) (k : A -> result B) : result B :=
  match r with Ok a => k a | Err e => Err e end.

Notation "x <- r ; k" := (bind r (fun x => k)) (at level 61, r at next level, right associativity).

(** mapM in the result monad *)
Fixpoint mapR {A B} (f : A -> result B) (l : list A) : result (list B) :=
  match l with
  | [] => Ok []
  | a :: q => b <- f a ; r <- mapR f q ; Ok (b :: r)
  end.

(** case analysis on min, max and absolute values in the goal *)
Ltac rcases :=
  unfold Rmax, Rmin, Rabs;
  repeat match goal with
         | |- context [Rle_dec ?a ?b] => destruct (Rle_dec a b)
         | |- context [Rcase_abs ?a] => destruct (Rcase_abs a)
         | H : context [Rle_dec ?a ?b] |- _ => destruct (Rle_dec a b)
         | H : context [Rcase_abs ?a] |- _ => destruct (Rcase_abs a)
         end; try lra.

(** ** Elementary facts *)

Lemma Rmax_case_lra : forall x y, (x <= y /\ Rmax x y = y) \/ (y <= x /\ Rmax x y = x).
Proof. intros; unfold Rmax; destruct (Rle_dec x y); lra. Qed.

Lemma Rmin_case_lra : forall x y, (x <= y /\ Rmin x y = x) \/ (y <= x /\ Rmin x y = y).
Proof. intros; unfold Rmin; destruct (Rle_dec x y); lra. Qed.

Lemma Rpos_ge0 : forall x, 0 <= Rpos x.
Proof. intro; unfold Rpos; apply Rmax_r. Qed.

Lemma Rneg_le0 : forall x, Rneg x <= 0.
Proof. intro; unfold Rneg; apply Rmin_r. Qed.

Lemma Rpos_neg : forall x, Rpos x + Rneg x = x.
Proof. intro; unfold Rpos, Rneg, Rmax, Rmin; repeat destruct Rle_dec; lra. Qed.

Lemma Rpos_opp : forall x, Rpos (- x) = - Rneg x.
Proof. intro; unfold Rpos, Rneg, Rmax, Rmin; repeat destruct Rle_dec; lra. Qed.

Lemma Rneg_opp : forall x, Rneg (- x) = - Rpos x.
Proof. intro; unfold Rpos, Rneg, Rmax, Rmin; repeat destruct Rle_dec; lra. Qed.

Lemma Rpos_of_pos : forall x, 0 <= x -> Rpos x = x.
Proof. intros; unfold Rpos, Rmax; destruct Rle_dec; lra. Qed.
Lemma Rpos_of_neg : forall x, x <= 0 -> Rpos x = 0.
Proof. intros; unfold Rpos, Rmax; destruct Rle_dec; lra. Qed.
Lemma Rneg_of_pos : forall x, 0 <= x -> Rneg x = 0.
Proof. intros; unfold Rneg, Rmin; destruct Rle_dec; lra. Qed.
Lemma Rneg_of_neg : forall x, x <= 0 -> Rneg x = x.
Proof. intros; unfold Rneg, Rmin; destruct Rle_dec; lra. Qed.

Lemma Rabs_pos_neg : forall x, Rabs x = Rpos x - Rneg x.
Proof. intro; unfold Rabs, Rpos, Rneg, Rmax, Rmin; destruct Rcase_abs; repeat destruct Rle_dec; lra. Qed.

Lemma Rsgn_pos : forall x, 0 < x -> Rsgn x = 1.
Proof. intros; unfold Rsgn; destruct (Rlt_dec 0 x); lra. Qed.
Lemma Rsgn_neg : forall x, x < 0 -> Rsgn x = -1.
Proof. intros; unfold Rsgn; destruct (Rlt_dec 0 x); [lra|]; destruct (Rlt_dec x 0); lra. Qed.
Lemma Rsgn_0 : Rsgn 0 = 0.
Proof. unfold Rsgn; destruct (Rlt_dec 0 0); lra. Qed.

Lemma Rsgn_range : forall x, -1 <= Rsgn x <= 1.
Proof. intro; unfold Rsgn; destruct (Rlt_dec 0 x); [lra|]; destruct (Rlt_dec x 0); lra. Qed.

Lemma Rsgn_cases : forall x,
  (0 < x /\ Rsgn x = 1) \/ (x = 0 /\ Rsgn x = 0) \/ (x < 0 /\ Rsgn x = -1).
Proof.
  intro; unfold Rsgn; destruct (Rlt_dec 0 x); [lra|]; destruct (Rlt_dec x 0); lra.
Qed.

Lemma Rsgn_mult_abs : forall x, x * Rsgn x = Rabs x.
Proof.
  intro x; unfold Rsgn, Rabs; destruct (Rlt_dec 0 x); destruct (Rcase_abs x); try lra;
  destruct (Rlt_dec x 0); lra.
Qed.

Lemma Rclip_id : forall x lo hi, lo <= x <= hi -> Rclip x lo hi = x.
Proof. intros; unfold Rclip, Rmin, Rmax; repeat destruct Rle_dec; lra. Qed.

Lemma Rclip_range : forall x lo hi, lo <= hi -> lo <= Rclip x lo hi <= hi.
Proof. intros; unfold Rclip, Rmin, Rmax; repeat destruct Rle_dec; lra. Qed.

Lemma Rrelu_le : forall x y, x <= y -> Rrelu x <= Rrelu y.
Proof. intros; unfold Rrelu, Rmax; repeat destruct Rle_dec; lra. Qed.

Lemma Rrelu_cases : forall x, (0 <= x /\ Rrelu x = x) \/ (x <= 0 /\ Rrelu x = 0).
Proof. intros; unfold Rrelu, Rmax; destruct Rle_dec; lra. Qed.

(** ** Sums *)

Lemma rsum_ext : forall n f g, (forall i, (i < n)%nat -> f i = g i) -> rsum n f = rsum n g.
Proof.
  induction n; intros f g H; simpl; auto.
  rewrite (IHn f g) by (intros; apply H; lia). rewrite (H n) by lia. reflexivity.
Qed.

Lemma rsum_plus : forall n f g, rsum n (fun i => f i + g i) = rsum n f + rsum n g.
Proof. induction n; intros; simpl; [lra|]. rewrite IHn; lra. Qed.

Lemma rsum_minus : forall n f g, rsum n (fun i => f i - g i) = rsum n f - rsum n g.
Proof. induction n; intros; simpl; [lra|]. rewrite IHn; lra. Qed.

Lemma rsum_opp : forall n f, rsum n (fun i => - f i) = - rsum n f.
Proof. induction n; intros; simpl; [lra|]. rewrite IHn; lra. Qed.

Lemma rsum_scal : forall n c f, rsum n (fun i => c * f i) = c * rsum n f.
Proof. induction n; intros; simpl; [lra|]. rewrite IHn; lra. Qed.

Lemma rsum_scal_r : forall n c f, rsum n (fun i => f i * c) = rsum n f * c.
Proof. induction n; intros; simpl; [lra|]. rewrite IHn; lra. Qed.

Lemma rsum_0 : forall n, rsum n (fun _ => 0) = 0.
Proof. induction n; simpl; lra. Qed.

Lemma rsum_const : forall n c, rsum n (fun _ => c) = INR n * c.
Proof. induction n; intros; [simpl; lra|]. rewrite S_INR; simpl. rewrite IHn. lra. Qed.

Lemma rsum_le : forall n f g, (forall i, (i < n)%nat -> f i <= g i) -> rsum n f <= rsum n g.
Proof.
  induction n; intros f g H; simpl; [lra|].
  apply Rplus_le_compat; [apply IHn; intros; apply H; lia | apply H; lia].
Qed.

Lemma rsum_lt : forall n f g,
  (0 < n)%nat -> (forall i, (i < n)%nat -> f i < g i) -> rsum n f < rsum n g.
Proof.
  induction n; intros f g Hn H; [lia|].
  destruct n; simpl.
  - specialize (H 0%nat ltac:(lia)); lra.
  - assert (rsum (S n) f < rsum (S n) g) by (apply IHn; [lia | intros; apply H; lia]).
    specialize (H (S n) ltac:(lia)). simpl in *. lra.
Qed.

Lemma rsum_ge0 : forall n f, (forall i, (i < n)%nat -> 0 <= f i) -> 0 <= rsum n f.
Proof.
  intros n f H. rewrite <- (rsum_0 n). apply rsum_le; auto.
Qed.

Lemma rsum_eq0 : forall n f, (forall i, (i < n)%nat -> f i = 0) -> rsum n f = 0.
Proof. intros. rewrite <- (rsum_0 n). apply rsum_ext; auto. Qed.

Lemma rsum_swap : forall n m (f : nat -> nat -> R),
  rsum n (fun i => rsum m (fun j => f i j)) = rsum m (fun j => rsum n (fun i => f i j)).
Proof.
  induction n; intros; simpl.
  - rewrite rsum_0; reflexivity.
  - rewrite IHn, <- rsum_plus. apply rsum_ext; intros; reflexivity.
Qed.

Lemma rsum_delta : forall n k f, (k < n)%nat ->
  rsum n (fun i => if Nat.eqb i k then f i else 0) = f k.
Proof.
  induction n; intros k f H; [lia|]. simpl.
  destruct (Nat.eq_dec k n) as [->|Hne].
  - rewrite Nat.eqb_refl. rewrite rsum_eq0; [lra|].
    intros i Hi. destruct (Nat.eqb_spec i n); [lia|reflexivity].
  - rewrite IHn by lia. destruct (Nat.eqb_spec n k); [lia|lra].
Qed.

Lemma rsum_delta_out : forall n k f, (n <= k)%nat ->
  rsum n (fun i => if Nat.eqb i k then f i else 0) = 0.
Proof.
  intros. apply rsum_eq0. intros i Hi. destruct (Nat.eqb_spec i k); [lia|reflexivity].
Qed.

Lemma rsum_ge_term : forall n f k,
  (forall i, (i < n)%nat -> 0 <= f i) -> (k < n)%nat -> f k <= rsum n f.
Proof.
  intros n f k H Hk.
  rewrite <- (rsum_delta n k f Hk). apply rsum_le. intros i Hi.
  destruct (Nat.eqb_spec i k); [lra| apply H; auto].
Qed.

Lemma rsum_app : forall n m f, rsum (n + m) f = rsum n f + rsum m (fun i => f (n + i)%nat).
Proof.
  intros n m f; induction m; simpl.
  - rewrite Nat.add_0_r; lra.
  - rewrite Nat.add_succ_r; simpl. rewrite IHm. lra.
Qed.

Lemma rsum_Rabs : forall n f, Rabs (rsum n f) <= rsum n (fun i => Rabs (f i)).
Proof.
  induction n; intros; simpl; [rewrite Rabs_R0; lra|].
  eapply Rle_trans; [apply Rabs_triang|]. specialize (IHn f). lra.
Qed.

Lemma dot_ext : forall n w w' z z',
  (forall i, (i < n)%nat -> w i = w' i) -> (forall i, (i < n)%nat -> z i = z' i) ->
  dot n w z = dot n w' z'.
Proof. intros; unfold dot; apply rsum_ext; intros; rewrite H, H0; auto. Qed.

Lemma dot_plus_l : forall n w w' z, dot n (fun i => w i + w' i) z = dot n w z + dot n w' z.
Proof. intros; unfold dot; rewrite <- rsum_plus; apply rsum_ext; intros; lra. Qed.
Lemma dot_opp_l : forall n w z, dot n (fun i => - w i) z = - dot n w z.
Proof. intros; unfold dot; rewrite <- rsum_opp; apply rsum_ext; intros; lra. Qed.
Lemma dot_scal_l : forall n c w z, dot n (fun i => c * w i) z = c * dot n w z.
Proof. intros; unfold dot; rewrite <- rsum_scal; apply rsum_ext; intros; lra. Qed.
Lemma dot_scal_l_r : forall n c w z, dot n (fun i => w i * c) z = dot n w z * c.
Proof. intros; unfold dot; rewrite <- rsum_scal_r; apply rsum_ext; intros; lra. Qed.
Lemma dot_0_l : forall n z, dot n (fun _ => 0) z = 0.
Proof. intros; unfold dot; apply rsum_eq0; intros; lra. Qed.
Lemma dot_plus_r : forall n w z z', dot n w (fun i => z i + z' i) = dot n w z + dot n w z'.
Proof. intros; unfold dot; rewrite <- rsum_plus; apply rsum_ext; intros; lra. Qed.
Lemma dot_minus_r : forall n w z z', dot n w (fun i => z i - z' i) = dot n w z - dot n w z'.
Proof. intros; unfold dot; rewrite <- rsum_minus; apply rsum_ext; intros; lra. Qed.
Lemma dot_scal_r : forall n c w z, dot n w (fun i => c * z i) = c * dot n w z.
Proof. intros; unfold dot; rewrite <- rsum_scal; apply rsum_ext; intros; lra. Qed.
Lemma dot_sum_l : forall n m (w : nat -> nat -> R) z,
  dot n (fun i => rsum m (fun k => w i k)) z = rsum m (fun k => dot n (fun i => w i k) z).
Proof.
  intros; unfold dot.
  rewrite rsum_swap. apply rsum_ext; intros i _. rewrite <- rsum_scal_r. reflexivity.
Qed.
Lemma dot_delta : forall n k z, (k < n)%nat ->
  dot n (fun i => if Nat.eqb i k then 1 else 0) z = z k.
Proof.
  intros; unfold dot. rewrite <- (rsum_delta n k z) by auto.
  apply rsum_ext; intros. destruct (Nat.eqb i k); lra.
Qed.

(** ** Maxima *)

Lemma rmax_to_ge : forall k f i, (i <= k)%nat -> f i <= rmax_to k f.
Proof.
  induction k; intros f i H; simpl.
  - replace i with 0%nat by lia; lra.
  - destruct (Nat.eq_dec i (S k)) as [->|]; [apply Rmax_r|].
    eapply Rle_trans; [apply IHk; lia | apply Rmax_l].
Qed.

Lemma rmax_to_attained : forall k f, exists i, (i <= k)%nat /\ rmax_to k f = f i.
Proof.
  induction k; intros f; simpl.
  - exists 0%nat; auto.
  - destruct (IHk f) as (i & Hi & E).
    destruct (Rmax_case_lra (rmax_to k f) (f (S k))) as [[_ E']|[_ E']]; rewrite E'.
    + exists (S k); auto.
    + exists i; auto.
Qed.

Lemma rmax_ge : forall n f i, (i < n)%nat -> f i <= rmax n f.
Proof. intros; unfold rmax; apply rmax_to_ge; lia. Qed.

Lemma rmax_attained : forall n f, (0 < n)%nat -> exists i, (i < n)%nat /\ rmax n f = f i.
Proof.
  intros n f H. destruct (rmax_to_attained (pred n) f) as (i & Hi & E).
  exists i; split; [lia | exact E].
Qed.

Lemma rmax_lub : forall n f c, (0 < n)%nat -> (forall i, (i < n)%nat -> f i <= c) -> rmax n f <= c.
Proof.
  intros n f c Hn H. destruct (rmax_attained n f Hn) as (i & Hi & ->). auto.
Qed.

Lemma rmax_le : forall n f g, (0 < n)%nat -> (forall i, (i < n)%nat -> f i <= g i) -> rmax n f <= rmax n g.
Proof.
  intros n f g Hn H. apply rmax_lub; auto. intros i Hi.
  eapply Rle_trans; [apply H; auto | apply rmax_ge; auto].
Qed.

Lemma rmax_ext : forall n f g, (0 < n)%nat -> (forall i, (i < n)%nat -> f i = g i) -> rmax n f = rmax n g.
Proof.
  intros. apply Rle_antisym; apply rmax_le; auto; intros i Hi; rewrite H0; auto; lra.
Qed.

Lemma rmin_to_opp : forall k f, rmin_to k f = - rmax_to k (fun i => - f i).
Proof.
  induction k; intros; simpl; [lra|]. rewrite IHk.
  unfold Rmin, Rmax; repeat destruct Rle_dec; lra.
Qed.

Lemma rmin_opp : forall n f, rmin n f = - rmax n (fun i => - f i).
Proof. intros; apply rmin_to_opp. Qed.

Lemma rmin_le : forall n f i, (i < n)%nat -> rmin n f <= f i.
Proof.
  intros. rewrite rmin_opp. pose proof (rmax_ge n (fun i => - f i) i H). simpl in H0. lra.
Qed.

Lemma rmin_attained : forall n f, (0 < n)%nat -> exists i, (i < n)%nat /\ rmin n f = f i.
Proof.
  intros. rewrite rmin_opp. destruct (rmax_attained n (fun i => - f i) H) as (i & Hi & ->).
  exists i; split; auto; lra.
Qed.

Lemma rmin_glb : forall n f c, (0 < n)%nat -> (forall i, (i < n)%nat -> c <= f i) -> c <= rmin n f.
Proof.
  intros n f c Hn H. destruct (rmin_attained n f Hn) as (i & Hi & ->). auto.
Qed.

(** ** Cauchy-Schwarz *)

Lemma rsum_sq_ge0 : forall n f, 0 <= rsum n (fun i => f i * f i).
Proof. intros; apply rsum_ge0; intros; nra. Qed.

Lemma cauchy_schwarz_sq : forall n f g,
  (dot n f g) * (dot n f g) <= (dot n f f) * (dot n g g).
Proof.
  intros n f g.
  pose proof (rsum_sq_ge0 n g) as HB. fold (dot n g g) in HB.
  assert (H : forall t, 0 <= dot n f f - 2 * t * dot n f g + t * t * dot n g g).
  { intro t. pose proof (rsum_sq_ge0 n (fun i => f i - t * g i)) as H.
    cbv beta in H. replace (rsum n (fun i => (f i - t * g i) * (f i - t * g i)))
      with (dot n f f - 2 * t * dot n f g + t * t * dot n g g) in H; auto.
    unfold dot. rewrite <- !rsum_scal, <- rsum_minus, <- rsum_plus.
    apply rsum_ext; intros; ring. }
  destruct (Req_dec (dot n g g) 0) as [E|E].
  - (* g = 0 in the quadratic sense: dot f g must be 0 *)
    pose proof (H (dot n f f + 1)) as H1. pose proof (H (- (dot n f f + 1))) as H2.
    pose proof (rsum_sq_ge0 n f) as HA. fold (dot n f f) in HA.
    rewrite E in *.
    destruct (Req_dec (dot n f g) 0) as [E0|E0]; [rewrite E0; lra|].
    exfalso. pose proof (H ((dot n f f + 1) / (2 * dot n f g))) as H3.
    replace (2 * ((dot n f f + 1) / (2 * dot n f g)) * dot n f g) with (dot n f f + 1) in H3 by (field; lra).
    lra.
  - pose proof (H (dot n f g / dot n g g)) as H1.
    assert (0 < dot n g g) by lra.
    replace (dot n f f - 2 * (dot n f g / dot n g g) * dot n f g +
             dot n f g / dot n g g * (dot n f g / dot n g g) * dot n g g)
      with (dot n f f - dot n f g * dot n f g / dot n g g) in H1 by (field; lra).
    assert (H2 : dot n f g * dot n f g / dot n g g * dot n g g <= dot n f f * dot n g g) by nra.
    replace (dot n f g * dot n f g / dot n g g * dot n g g) with (dot n f g * dot n f g) in H2 by (field; lra).
    exact H2.
Qed.

Lemma cauchy_schwarz : forall n f g,
  dot n f g <= sqrt (dot n f f) * sqrt (dot n g g).
Proof.
  intros n f g.
  pose proof (rsum_sq_ge0 n f) as HA. fold (dot n f f) in HA.
  pose proof (rsum_sq_ge0 n g) as HB. fold (dot n g g) in HB.
  rewrite <- sqrt_mult by auto.
  destruct (Rle_dec (dot n f g) 0) as [H|H].
  - eapply Rle_trans; [exact H| apply sqrt_pos].
  - rewrite <- (sqrt_square (dot n f g)) by lra.
    apply sqrt_le_1; [nra | nra | apply cauchy_schwarz_sq].
Qed.
