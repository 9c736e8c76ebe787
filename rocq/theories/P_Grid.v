(** Proofs on the bounds on a grid. *)
From Coq Require Import Reals Lra Lia Psatz List Arith Permutation.
From Verif Require Import RLib Spec Spec_Grid M_Core M_Grid P_Core.
Import ListNotations.
Local Open Scope R_scope.

Lemma rinsert_perm : forall a l, Permutation (a :: l) (rinsert a l).
Proof.
  intros a l. induction l as [|b q IH]; cbn; [apply Permutation_refl|]. destruct (Rle_dec a b); [apply Permutation_refl|].
  eapply perm_trans; [apply perm_swap|]. constructor. exact IH.
Qed.
Lemma rsort_perm : forall l, Permutation l (rsort l).
Proof. intros l. induction l as [|a q IH]; cbn; [constructor|]. eapply perm_trans; [apply perm_skip, IH|apply rinsert_perm]. Qed.

Lemma sum_list_app : forall a b, sum_list (a ++ b) = sum_list a + sum_list b.
Proof. intros a b. induction a as [|x q IH]; cbn; [unfold sum_list; ring|]. unfold sum_list in *. rewrite IH. ring. Qed.
Lemma sum_list_perm : forall a b, Permutation a b -> sum_list a = sum_list b.
Proof. intros a b H. unfold sum_list. induction H; cbn; lra. Qed.
Lemma sum_list_seq : forall d f, sum_list (map f (seq 0 d)) = rsum d f.
Proof. intros d f. induction d as [|d IH]; [reflexivity|]. rewrite seq_S, map_app, sum_list_app, IH. cbn. ring. Qed.
Lemma sum_repeat : forall a k, sum_list (repeat a k) = INR k * a.
Proof. intros a k. induction k as [|k IH]; [cbn; ring|]. change (repeat a (S k)) with (a :: repeat a k). cbn [sum_list fold_right]. fold (sum_list (repeat a k)). rewrite IH, S_INR. ring. Qed.

(** the selection: the elements whose running sum is at most T *)
Definition take_mask (T acc : R) (c : list R) : list R := map (fun s => Rmin (Rsgn (T - s) + 1) 1) (cumsum acc c).
Definition taken (T acc : R) (c : list R) : R := sum_list (map (fun p => fst p * snd p) (combine (take_mask T acc c) c)).

Lemma mask_in : forall T s, s <= T -> Rmin (Rsgn (T - s) + 1) 1 = 1.
Proof. intros T s H. unfold Rsgn. destruct (Rlt_dec 0 (T - s)); [rewrite Rmin_right; lra|]. destruct (Rlt_dec (T - s) 0); [lra|]. rewrite Rmin_right; lra. Qed.
Lemma mask_out : forall T s, T < s -> Rmin (Rsgn (T - s) + 1) 1 = 0.
Proof. intros T s H. unfold Rsgn. destruct (Rlt_dec 0 (T - s)); [lra|]. destruct (Rlt_dec (T - s) 0); [|lra]. rewrite Rmin_left; lra. Qed.

Lemma taken_cons : forall T acc a c, taken T acc (a :: c) = Rmin (Rsgn (T - (acc + a)) + 1) 1 * a + taken T (acc + a) c.
Proof. reflexivity. Qed.

Lemma taken_none : forall c T acc, Forall (Rle 0) c -> T < acc -> taken T acc c = 0.
Proof.
  induction c as [|a c IH]; intros T acc F H; [reflexivity|]. inversion F; subst. rewrite taken_cons, mask_out by lra. rewrite IH by (auto; lra). ring.
Qed.

Lemma taken_le : forall c T acc, Forall (Rle 0) c -> acc <= T -> acc + taken T acc c <= T.
Proof.
  induction c as [|a c IH]; intros T acc F H; [cbn; unfold taken; cbn; lra|]. inversion F; subst. rewrite taken_cons.
  destruct (Rle_dec (acc + a) T).
  - rewrite mask_in by exact r. specialize (IH T (acc + a) H3 r). lra.
  - rewrite mask_out by lra. rewrite taken_none by (auto; lra). lra.
Qed.

(** all is taken, or one more element would exceed T *)
Lemma taken_gap : forall c T acc, Forall (Rle 0) c -> acc <= T ->
  taken T acc c = sum_list c \/ exists a, In a c /\ T < acc + taken T acc c + a.
Proof.
  induction c as [|a c IH]; intros T acc F H; [left; reflexivity|]. inversion F; subst. rewrite taken_cons.
  destruct (Rle_dec (acc + a) T).
  - rewrite mask_in by exact r. destruct (IH T (acc + a) H3 r) as [E|(x & I & E)].
    + left. cbn. fold (sum_list c). lra.
    + right. exists x. split; [right; exact I|lra].
  - right. exists a. split; [left; reflexivity|]. rewrite mask_out by lra. rewrite taken_none by (auto; lra). lra.
Qed.

Lemma mask_01 : forall T s, Rmin (Rsgn (T - s) + 1) 1 = 0 \/ Rmin (Rsgn (T - s) + 1) 1 = 1.
Proof. intros T s. destruct (Rle_dec s T); [right; apply mask_in; assumption|left; apply mask_out; lra]. Qed.

(** what is taken is a number of copies of each weight *)
Lemma taken_app : forall c1 c2 T acc, taken T acc (c1 ++ c2) = taken T acc c1 + taken T (acc + sum_list c1) c2.
Proof.
  induction c1 as [|a c1 IH]; intros c2 T acc; cbn [app]; [cbn; unfold taken; cbn; rewrite Rplus_0_r; ring|].
  rewrite !taken_cons, IH. cbn [sum_list fold_right]. fold (sum_list c1). rewrite !Rplus_assoc. reflexivity.
Qed.
Lemma repeat_each_in : forall k l a, In a (repeat_each k l) -> In a l.
Proof. intros k l a H. unfold repeat_each in H. apply in_flat_map in H. destruct H as (x & Hx & Ha). apply repeat_spec in Ha. subst. exact Hx. Qed.
Lemma repeat_each_sum : forall k l, sum_list (repeat_each k l) = INR k * sum_list l.
Proof.
  intros k l. induction l as [|a l IH]; [cbn; ring|]. cbn [repeat_each flat_map]. fold (repeat_each k l). rewrite sum_list_app, IH, sum_repeat.
  cbn [sum_list fold_right]. fold (sum_list l). ring.
Qed.

(** increasing order *)
Lemma rinsert_low : forall a l c, (forall x, In x l -> c <= x) -> c <= a -> forall x, In x (rinsert a l) -> c <= x.
Proof. intros a l c H Ha x I. assert (In x (a :: l)) as [<-|J] by (apply (Permutation_in _ (Permutation_sym (rinsert_perm a l))); exact I); auto. Qed.
Fixpoint increasing (l : list R) : Prop := match l with [] => True | a :: q => (forall x, In x q -> a <= x) /\ increasing q end.
Lemma rinsert_inc : forall a l, increasing l -> increasing (rinsert a l).
Proof.
  intros a l. induction l as [|b q IH]; cbn; [intros _; split; [intros x []|exact I]|]. intros [H1 H2]. destruct (Rle_dec a b) as [L|L]; cbn.
  - split; [|split; assumption]. intros x [<-|J]; [exact L|]. specialize (H1 x J). lra.
  - split; [|apply IH; exact H2]. apply rinsert_low; [exact H1|lra].
Qed.
Lemma rsort_inc : forall l, increasing (rsort l).
Proof. induction l as [|a q IH]; cbn; [exact I|]. apply rinsert_inc, IH. Qed.

(** a copy not taken does not fit *)
Lemma taken_copies_full : forall a k T acc, 0 <= a -> exists q, (q <= k)%nat /\ taken T acc (repeat a k) = INR q * a /\ ((q < k)%nat -> T < acc + INR q * a + a).
Proof.
  intros a k. induction k as [|k IH]; intros T acc Ha; [exists O; split; [lia|]; split; [unfold taken; cbn; ring|lia]|].
  cbn [repeat]. rewrite taken_cons. destruct (Rle_dec (acc + a) T) as [L|L].
  - destruct (IH T (acc + a) Ha) as (q & Hq & E & N). exists (S q). rewrite mask_in by exact L. rewrite E, S_INR. split; [lia|]. split; [ring|]. intros H. specialize (N ltac:(lia)). lra.
  - exists O. rewrite mask_out by lra. split; [lia|]. rewrite taken_none; [|apply Forall_forall; intros x Hx; apply repeat_spec in Hx; subst; exact Ha|lra]. split; [cbn; ring|]. intros _. cbn. lra.
Qed.
Lemma taken_counts_full : forall (f : nat -> R) k p T acc, NoDup p -> increasing (map f p) -> (forall i, In i p -> 0 <= f i) -> acc <= T ->
  exists q : nat -> nat, (forall i, (q i <= k)%nat) /\
  taken T acc (repeat_each k (map f p)) = sum_list (map (fun i => INR (q i) * f i) p) /\
  forall i, In i p -> (q i < k)%nat -> T < acc + taken T acc (repeat_each k (map f p)) + f i.
Proof.
  intros f k p. induction p as [|i p IH]; intros T acc N I0 Pos Le; [exists (fun _ => O); split; [intros; lia|]; split; [reflexivity|intros i []]|].
  inversion N; subst. cbn [map repeat_each flat_map]. fold (repeat_each k (map f p)). rewrite taken_app, sum_repeat.
  cbn [map increasing] in I0. destruct I0 as [I1 I2].
  destruct (taken_copies_full (f i) k T acc (Pos i (or_introl eq_refl))) as (q0 & H0 & E0 & N0).
  assert (Rest : Forall (Rle 0) (repeat_each k (map f p))).
  { apply Forall_forall. intros x Hx. assert (J : In x (map f p)) by (unfold repeat_each in Hx; apply in_flat_map in Hx; destruct Hx as (y & Hy & Hx); apply repeat_spec in Hx; subst; exact Hy).
    apply in_map_iff in J. destruct J as (t & <- & Ht). apply Pos. right. exact Ht. }
  assert (Sum : forall q : nat -> nat, sum_list (map (fun t => INR (if Nat.eqb t i then q0 else q t) * f t) p) = sum_list (map (fun t => INR (q t) * f t) p)).
  { intros q. f_equal. apply map_ext_in. intros t Ht. destruct (Nat.eqb t i) eqn:B; [apply Nat.eqb_eq in B; subst; contradiction|reflexivity]. }
  destruct (Nat.eq_dec q0 k) as [->|Q].
  - assert (Le' : acc + INR k * f i <= T).
    { pose proof (taken_le (repeat (f i) k) T acc) as L. rewrite E0 in L. apply L; [|exact Le]. apply Forall_forall. intros x Hx. apply repeat_spec in Hx. subst. apply Pos. left; reflexivity. }
    destruct (IH T (acc + INR k * f i) H2 I2 (fun t Ht => Pos t (or_intror Ht)) Le') as (q & Hq & E & Nq).
    exists (fun t => if Nat.eqb t i then k else q t). split; [intros t; destruct (Nat.eqb t i); auto|]. split.
    + rewrite E0, E. cbn [map sum_list fold_right]. rewrite Nat.eqb_refl. f_equal. symmetry. apply Sum.
    + intros t [<-|Ht] L; [rewrite Nat.eqb_refl in L; lia|]. destruct (Nat.eqb t i) eqn:B; [apply Nat.eqb_eq in B; subst; contradiction|]. specialize (Nq t Ht L). rewrite E0. lra.
  - assert (N1 := N0 ltac:(lia)). assert (Big : T < acc + INR k * f i).
    { assert (INR q0 + 1 <= INR k) by (rewrite <- S_INR; apply le_INR; lia). assert (0 <= f i) by (apply Pos; left; reflexivity). nra. }
    rewrite (taken_none _ T (acc + INR k * f i) Rest Big), E0.
    exists (fun t => if Nat.eqb t i then q0 else O). split; [intros t; destruct (Nat.eqb t i); lia|]. split.
    + cbn [map sum_list fold_right]. rewrite Nat.eqb_refl. f_equal. symmetry. etransitivity; [exact (Sum (fun _ => O))|].
      clear. induction p as [|t p IH]; [reflexivity|]. cbn [map sum_list fold_right]. fold (sum_list (map (fun t => INR 0 * f t) p)). rewrite IH. cbn. ring.
    + intros t [<-|Ht] L; [lra|]. assert (f i <= f t) by (apply I1, in_map, Ht). lra.
Qed.

Lemma rsum_one : forall d i f g, (i < d)%nat -> (forall k, (k < d)%nat -> k <> i -> f k = g k) -> rsum d f - rsum d g = f i - g i.
Proof.
  intros d i f g. induction d as [|d IH]; intros Hi H; [lia|]. cbn [rsum]. destruct (Nat.eq_dec i d) as [->|N].
  - rewrite (rsum_ext d f g); [ring|]. intros k Hk. apply H; lia.
  - rewrite (H d) by lia. specialize (IH ltac:(lia) ltac:(intros; apply H; lia)). lra.
Qed.

Section Grid.
Variables (d steps : nat) (lo hi : vec) (w : mat) (b : vec) (j : nat).
Hypothesis Hs : (0 < steps)%nat.
Hypothesis Hb : forall i, (i < d)%nat -> lo i <= hi i.
Let wt i := Rabs (w i j) * ((hi i - lo i) / INR steps).
Let c0 := get_lower_box d false lo hi w b j.
Let sorted := rsort (subset_weights d steps lo hi w j).

Lemma steps_pos : 0 < INR steps.
Proof. apply lt_0_INR. exact Hs. Qed.
Lemma wt_pos : forall i, (i < d)%nat -> 0 <= wt i.
Proof. intros i Hi. unfold wt. pose proof steps_pos. specialize (Hb i Hi). apply Rmult_le_pos; [apply Rabs_pos|]. apply Rmult_le_pos; [lra|]. left. apply Rinv_0_lt_compat. exact H. Qed.

Lemma sorted_idx : exists p, sorted = map wt p /\ Permutation (seq 0 d) p.
Proof.
  pose proof (rsort_perm (subset_weights d steps lo hi w j)) as P. apply Permutation_sym in P.
  destruct (Permutation_map_inv wt (seq 0 d) P) as (p & E & Q). exists p. split; assumption.
Qed.

Lemma copies_nonneg : Forall (Rle 0) (repeat_each steps sorted).
Proof.
  apply Forall_forall. intros a Ha. apply repeat_each_in in Ha. destruct sorted_idx as (p & E & P). rewrite E in Ha. apply in_map_iff in Ha. destruct Ha as (i & <- & Hi).
  apply wt_pos. apply Permutation_sym in P. apply (Permutation_in _ P) in Hi. apply in_seq in Hi. lia.
Qed.

(** the point of the grid with q i steps from the end where the function is smallest *)
Definition step_point (q : nat -> nat) : vec := fun i => if Rle_dec 0 (w i j) then lo i + INR (q i) * ((hi i - lo i) / INR steps) else lo i + INR (steps - q i) * ((hi i - lo i) / INR steps).

Lemma step_grid : forall q, (forall i, (q i <= steps)%nat) -> grid_point d steps lo hi (step_point q).
Proof. intros q Hq i Hi. unfold step_point. destruct (Rle_dec 0 (w i j)); [exists (q i)|exists (steps - q i)%nat]; (split; [specialize (Hq i); lia|reflexivity]). Qed.

Lemma step_value : forall q, (forall i, (q i <= steps)%nat) -> aff d w b (step_point q) j = c0 + rsum d (fun i => INR (q i) * wt i).
Proof.
  intros q Hq. unfold aff, dot, c0, get_lower_box. rewrite Rplus_comm. rewrite (Rplus_comm (rsum d _) (b j)), Rplus_assoc. f_equal.
  rewrite <- rsum_plus. apply rsum_ext. intros i Hi. unfold step_point, wt. pose proof steps_pos. destruct (Rle_dec 0 (w i j)) as [P|P].
  - rewrite Rmax_left, Rmin_right, Rabs_right by lra. ring.
  - rewrite Rmax_right, Rmin_left, Rabs_left by lra. rewrite minus_INR by apply Hq. field. lra.
Qed.

Lemma lower_grid_eq : get_lower_bound_grid d steps lo hi w b j = Rmin (taken (- c0) 0 (repeat_each steps sorted) + c0) 0.
Proof. reflexivity. Qed.

Lemma grid_in_box : forall z, grid_point d steps lo hi z -> in_box d lo hi z.
Proof.
  intros z G i Hi. destruct (G i Hi) as (k & Hk & ->). pose proof steps_pos as P. specialize (Hb i Hi). apply le_INR in Hk. pose proof (pos_INR k).
  assert (0 <= INR k * ((hi i - lo i) / INR steps)) by (apply Rmult_le_pos; [assumption|]; apply Rmult_le_pos; [lra|]; left; apply Rinv_0_lt_compat; exact P).
  assert (INR k * ((hi i - lo i) / INR steps) <= hi i - lo i); [|lra].
  replace (INR k * ((hi i - lo i) / INR steps)) with ((hi i - lo i) * (INR k / INR steps)) by (field; lra).
  assert (INR k / INR steps <= 1) by (apply (Rmult_le_reg_r (INR steps)); [exact P|]; unfold Rdiv; rewrite Rmult_assoc, Rinv_l by lra; lra).
  assert (0 <= INR k / INR steps) by (apply Rmult_le_pos; [assumption|]; left; apply Rinv_0_lt_compat; exact P). nra.
Qed.

(** the value returned is taken by the function at a point of the grid where no step upwards is left *)
Lemma lower_grid_local : c0 <= 0 -> exists z, grid_point d steps lo hi z /\ aff d w b z j = get_lower_bound_grid d steps lo hi w b j /\
  forall y, grid_point d steps lo hi y -> neighbour d steps lo hi z y -> aff d w b y j <= 0 -> aff d w b y j <= get_lower_bound_grid d steps lo hi w b j.
Proof.
  intros H. rewrite lower_grid_eq. destruct sorted_idx as (p & E & P).
  assert (N : NoDup p) by (apply (Permutation_NoDup P), seq_NoDup).
  assert (Inp : forall i, In i p <-> (i < d)%nat).
  { intros i. split; intros I0; [apply (Permutation_in _ (Permutation_sym P)), in_seq in I0; lia|apply (Permutation_in _ P), in_seq; lia]. }
  assert (Inc : increasing (map wt p)) by (rewrite <- E; apply rsort_inc).
  destruct (taken_counts_full wt steps p (- c0) 0 N Inc ltac:(intros i Hi; apply wt_pos, Inp, Hi) ltac:(lra)) as (q & Hq & T & M).
  pose proof (taken_le _ (- c0) 0 copies_nonneg ltac:(lra)) as L. rewrite Rmin_left by lra.
  assert (V : aff d w b (step_point q) j = taken (- c0) 0 (repeat_each steps sorted) + c0).
  { rewrite step_value by exact Hq. rewrite E, T. rewrite <- (sum_list_perm _ _ (Permutation_map _ P)), sum_list_seq. ring. }
  exists (step_point q). split; [apply step_grid; exact Hq|]. split; [exact V|].
  intros y Gy (i & Hi & Sy & Oy) Ny. rewrite <- V in *.
  assert (D : aff d w b y j = aff d w b (step_point q) j + w i j * (y i - step_point q i)).
  { unfold aff, dot. pose proof (rsum_one d i (fun k => w k j * y k) (fun k => w k j * step_point q k) Hi ltac:(intros k Hk Nk; cbn beta; rewrite Oy by assumption; reflexivity)) as X. cbn beta in X. lra. }
  destruct (Rle_dec (w i j * (y i - step_point q i)) 0) as [W|W]; [lra|exfalso].
  assert (G : w i j * (y i - step_point q i) = wt i).
  { unfold wt. rewrite <- Sy, <- Rabs_mult. rewrite Rabs_right by lra. reflexivity. }
  destruct (Nat.eq_dec (q i) steps) as [Q|Q].
  - pose proof (grid_in_box y Gy i Hi) as B. pose proof steps_pos as SP. unfold step_point in W. rewrite Q in W. destruct (Rle_dec 0 (w i j)) as [K|K].
    + replace (lo i + INR steps * ((hi i - lo i) / INR steps)) with (hi i) in W by (field; lra). nra.
    + rewrite Nat.sub_diag in W. cbn [INR] in W. rewrite Rmult_0_l, Rplus_0_r in W. nra.
  - specialize (M i (proj2 (Inp i) Hi) ltac:(specialize (Hq i); lia)). rewrite E in V. lra.
Qed.

Lemma lower_grid_none : 0 < c0 -> get_lower_bound_grid d steps lo hi w b j = 0.
Proof. intros H. rewrite lower_grid_eq, taken_none; [rewrite Rmin_right; lra|exact copies_nonneg|lra]. Qed.

(** it is the maximum of the function, or less than one step of one coordinate from 0 *)
Lemma lower_grid_gap : c0 <= 0 -> is_max (in_box d lo hi) (fun z => aff d w b z j) (get_lower_bound_grid d steps lo hi w b j) \/
  exists i, (i < d)%nat /\ - (Rabs (w i j) * ((hi i - lo i) / INR steps)) < get_lower_bound_grid d steps lo hi w b j.
Proof.
  intros H. rewrite lower_grid_eq. destruct sorted_idx as (p & E & P).
  pose proof (taken_le _ (- c0) 0 copies_nonneg ltac:(lra)) as L. rewrite Rmin_left by lra.
  destruct (taken_gap _ (- c0) 0 copies_nonneg ltac:(lra)) as [A|(a & Ia & A)].
  - left. rewrite A, repeat_each_sum, E, <- (sum_list_perm _ _ (Permutation_map _ P)), sum_list_seq.
    replace (INR steps * rsum d wt + c0) with (get_upper_box d false lo hi w b j); [apply get_upper_box_max; exact Hb|].
    unfold c0, get_upper_box, get_lower_box. rewrite <- Rplus_assoc. f_equal. rewrite <- rsum_scal, <- rsum_plus. apply rsum_ext. intros i Hi. unfold wt. pose proof steps_pos.
    destruct (Rle_dec 0 (w i j)); [rewrite Rmax_left, Rmin_right, Rabs_right by lra; field; lra|rewrite Rmax_right, Rmin_left, Rabs_left by lra; field; lra].
  - right. apply repeat_each_in in Ia. rewrite E in Ia. apply in_map_iff in Ia. destruct Ia as (i & <- & Hi). apply Permutation_sym in P. apply (Permutation_in _ P) in Hi. apply in_seq in Hi.
    exists i. split; [lia|]. fold (wt i). lra.
Qed.
End Grid.

(** ** Statements *)

Lemma grid_lower0 : forall d steps lo hi w b j, (0 < steps)%nat -> (forall i, (i < d)%nat -> lo i <= hi i) ->
  let r := get_lower_bound_grid d steps lo hi w b j in
  r <= 0 /\
  ((forall z, in_box d lo hi z -> 0 < aff d w b z j) -> r = 0) /\
  (forall z, grid_point d steps lo hi z -> aff d w b z j <= 0 ->
     (exists y, grid_point d steps lo hi y /\ aff d w b y j = r /\
        forall y', grid_point d steps lo hi y' -> neighbour d steps lo hi y y' -> aff d w b y' j <= 0 -> aff d w b y' j <= r) /\
     (is_max (in_box d lo hi) (fun z => aff d w b z j) r \/ exists i, (i < d)%nat /\ - (Rabs (w i j) * ((hi i - lo i) / INR steps)) < r)).
Proof.
  intros d steps lo hi w b j Hs Hb r.
  destruct (get_lower_box_min d lo hi w b j Hb) as [LB (z0 & Hz0 & E0)].
  split; [unfold r; rewrite lower_grid_eq; apply Rmin_r|]. split.
  - intros H. apply lower_grid_none; auto. rewrite <- E0. apply H. exact Hz0.
  - intros z Hz Nz. assert (C : get_lower_box d false lo hi w b j <= 0) by (apply Rle_trans with (aff d w b z j); [|exact Nz]; apply LB; apply (grid_in_box d steps); auto).
    split; [|apply lower_grid_gap; auto]. exact (lower_grid_local d steps lo hi w b j Hs Hb C).
Qed.

Theorem grid_lower : forall d steps lo hi w_u b_u w_l b_l j, (0 < steps)%nat -> (forall i, (i < d)%nat -> lo i <= hi i) ->
  let r := snd (get_bound_grid d steps lo hi w_u b_u w_l b_l j) in let g z := aff d w_l b_l z j in
  r <= 0 /\
  ((forall z, in_box d lo hi z -> 0 < g z) -> r = 0) /\
  (forall z, grid_point d steps lo hi z -> g z <= 0 ->
     (exists y, grid_point d steps lo hi y /\ g y = r /\ forall y', grid_point d steps lo hi y' -> neighbour d steps lo hi y y' -> g y' <= 0 -> g y' <= r) /\
     (is_max (in_box d lo hi) g r \/ exists i, (i < d)%nat /\ - (Rabs (w_l i j) * ((hi i - lo i) / INR steps)) < r)).
Proof. intros d steps lo hi w_u b_u w_l b_l j Hs Hb. exact (grid_lower0 d steps lo hi w_l b_l j Hs Hb). Qed.

Lemma aff_opp : forall d w b z j, aff d (fun i k => - w i k) (fun k => - b k) z j = - aff d w b z j.
Proof.
  intros. unfold aff, dot. rewrite Ropp_plus_distr. f_equal. rewrite <- rsum_opp. apply rsum_ext. intros. ring.
Qed.

Theorem grid_upper : forall d steps lo hi w_u b_u w_l b_l j, (0 < steps)%nat -> (forall i, (i < d)%nat -> lo i <= hi i) ->
  let r := fst (get_bound_grid d steps lo hi w_u b_u w_l b_l j) in let g z := aff d w_u b_u z j in
  0 <= r /\
  ((forall z, in_box d lo hi z -> g z < 0) -> r = 0) /\
  (forall z, grid_point d steps lo hi z -> 0 <= g z ->
     (exists y, grid_point d steps lo hi y /\ g y = r /\ forall y', grid_point d steps lo hi y' -> neighbour d steps lo hi y y' -> 0 <= g y' -> r <= g y') /\
     (is_min (in_box d lo hi) g r \/ exists i, (i < d)%nat /\ r < Rabs (w_u i j) * ((hi i - lo i) / INR steps))).
Proof.
  intros d steps lo hi w b w_l b_l j Hs Hb r g. unfold g.
  destruct (grid_lower0 d steps lo hi (fun i k => - w i k) (fun k => - b k) j Hs Hb) as (H1 & H2 & H3). unfold r, get_bound_grid, get_upper_bound_grid. cbn [fst].
  set (q := get_lower_bound_grid _ _ _ _ _ _ _) in *. split; [lra|]. split.
  - intros H. rewrite H2; [ring|]. intros z Hz. rewrite aff_opp. specialize (H z Hz). lra.
  - intros z Hz Pz. destruct (H3 z Hz ltac:(rewrite aff_opp; lra)) as [(y & Hy & Ey & Ny) G]. split.
    + exists y. split; [exact Hy|]. rewrite aff_opp in Ey. split; [lra|]. intros y' G' N' P'. specialize (Ny y' G' N'). rewrite aff_opp in Ny. lra.
    + destruct G as [[M1 (y' & Hy' & Ey')]|(i & Hi & G)].
      * left. split; [intros z' Hz'; specialize (M1 z' Hz'); cbn beta in M1; rewrite aff_opp in M1; lra|]. exists y'. split; [exact Hy'|]. cbn beta in Ey'. rewrite aff_opp in Ey'. lra.
      * right. exists i. split; [exact Hi|]. rewrite Rabs_Ropp in G. lra.
Qed.

(** comment of utils.py:102: max Wx+b s.t Wx+b<=0. Taking the smallest weights first misses it *)
Theorem grid_largest_refuted : exists lo hi w b,
  (forall i, (i < 2)%nat -> lo i <= hi i) /\ ~ largest_nonpos (grid_point 2 1 lo hi) (fun z => aff 2 w b z 0) (get_lower_bound_grid 2 1 lo hi w b 0).
Proof.
  exists (fun _ => 0), (fun _ => 1), (fun i _ => if Nat.eqb i 0 then 2 else 3), (fun _ => - 3). split; [intros; lra|].
  intros (_ & _ & H). specialize (H (fun i => if Nat.eqb i 0 then 0 else 1)).
  assert (G : grid_point 2 1 (fun _ => 0) (fun _ => 1) (fun i => if Nat.eqb i 0 then 0 else 1)).
  { intros [|[|i]] Hi; [exists O|exists 1%nat|lia]; (split; [lia|cbn; field]). }
  assert (E : get_lower_bound_grid 2 1 (fun _ => 0) (fun _ => 1) (fun i _ => if Nat.eqb i 0 then 2 else 3) (fun _ => - 3) 0%nat = -1).
  { rewrite lower_grid_eq. assert (C : get_lower_box 2 false (fun _ => 0) (fun _ => 1) (fun i _ => if Nat.eqb i 0 then 2 else 3) (fun _ => - 3) 0%nat = -3).
    { unfold get_lower_box. cbn. rewrite !Rmin_right by lra. ring. }
    rewrite C. unfold subset_weights. cbn [seq map Nat.eqb INR]. replace (Rabs 2 * ((1 - 0) / 1)) with 2 by (rewrite Rabs_right by lra; field). replace (Rabs 3 * ((1 - 0) / 1)) with 3 by (rewrite Rabs_right by lra; field).
    cbn [rsort rinsert]. destruct (Rle_dec 2 3); [|lra]. cbn [repeat_each flat_map repeat app]. rewrite !taken_cons. rewrite mask_in by lra. rewrite mask_out by lra. unfold taken. cbn. rewrite Rmin_left; lra. }
  rewrite E in H. specialize (H G). unfold aff, dot in H. cbn in H. lra.
Qed.

(** the names upper and lower: the pair does not enclose the function on the grid *)
Theorem grid_enclose_refuted : exists lo hi w b z, let r := get_bound_grid 1 1 lo hi w b w b 0 in
  (forall i, (i < 1)%nat -> lo i <= hi i) /\ grid_point 1 1 lo hi z /\ aff 1 w b z 0 < snd r.
Proof.
  exists (fun _ => 0), (fun _ => 1), (fun _ _ => 2), (fun _ => - 2), (fun _ => 0). cbn [get_bound_grid snd].
  split; [intros; lra|]. split; [intros i Hi; exists O; split; [lia|cbn; field]|].
  rewrite lower_grid_eq. assert (C : get_lower_box 1 false (fun _ => 0) (fun _ => 1) (fun _ _ => 2) (fun _ => - 2) 0%nat = -2).
  { unfold get_lower_box. cbn. rewrite !Rmin_right by lra. ring. }
  rewrite C. unfold subset_weights. cbn [seq map INR]. replace (Rabs 2 * ((1 - 0) / 1)) with 2 by (rewrite Rabs_right by lra; field).
  cbn [rsort rinsert repeat_each flat_map repeat app]. rewrite taken_cons. rewrite mask_in by lra. unfold taken, aff, dot. cbn. rewrite Rmin_left; lra.
Qed.

(** with equal weights it is the largest value *)
Lemma grid_example : get_lower_bound_grid 2 1 (fun _ => 0) (fun _ => 1) (fun _ _ => 2) (fun _ => - 3) 0%nat = -1 /\
  grid_point 2 1 (fun _ => 0) (fun _ => 1) (fun i => if Nat.eqb i 0 then 1 else 0) /\ aff 2 (fun _ _ => 2) (fun _ => - 3) (fun i => if Nat.eqb i 0 then 1 else 0) 0%nat = -1.
Proof.
  split; [|split].
  - rewrite lower_grid_eq. assert (C : get_lower_box 2 false (fun _ => 0) (fun _ => 1) (fun _ _ => 2) (fun _ => - 3) 0%nat = -3).
    { unfold get_lower_box. cbn. rewrite !Rmin_right by lra. ring. }
    rewrite C. unfold subset_weights. cbn [seq map INR]. replace (Rabs 2 * ((1 - 0) / 1)) with 2 by (rewrite Rabs_right by lra; field).
    cbn [rsort rinsert]. destruct (Rle_dec 2 2); [|lra]. cbn [repeat_each flat_map repeat app]. rewrite !taken_cons. rewrite mask_in by lra. rewrite mask_out by lra. unfold taken. cbn. rewrite Rmin_left; lra.
  - intros [|[|i]] Hi; [exists 1%nat|exists O|lia]; (split; [lia|cbn; field]).
  - unfold aff, dot. cbn. ring.
Qed.
