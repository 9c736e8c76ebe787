(** Proofs about backward_linear_prod. *)
From Coq Require Import Reals List Arith Bool Lra Lia.
From Verif Require Import RLib Spec Spec_Layers Spec_Backward M_Core M_Backward M_LinearProd P_Core P_Backward.
Import ListNotations.
Local Open Scope R_scope.

Lemma prod_aff : forall n h (p q r : mat) (a c : mat) (u v b s : vec) z j,
  aff n (fun i j => rsum h (fun k => s k * (p k j * a i k + q k j * c i k)) + rsum h (fun k => r k j * (1 - s k) * a i k))
        (fun j => rsum h (fun k => s k * (p k j * u k + q k j * v k)) + rsum h (fun k => (1 - s k) * (r k j * u k)) + b j) z j =
  rsum h (fun k => s k * (p k j * aff n a u z k + q k j * aff n c v z k) + (1 - s k) * (r k j * aff n a u z k)) + b j.
Proof.
  intros. unfold aff at 1. unfold dot.
  rewrite (rsum_ext n _ (fun i => rsum h (fun k => (s k * (p k j * a i k + q k j * c i k) + r k j * (1 - s k) * a i k) * z i)))
    by (intros i _; rewrite <- rsum_plus, <- rsum_scal_r; reflexivity).
  rewrite rsum_swap. rewrite <- Rplus_assoc. f_equal. rewrite <- !rsum_plus. apply rsum_ext. intros k _.
  unfold aff, dot.
  rewrite (rsum_ext n _ (fun i => (s k * p k j + r k j * (1 - s k)) * (a i k * z i) + s k * q k j * (c i k * z i))) by (intros; ring).
  rewrite rsum_plus, !rsum_scal. ring.
Qed.

(** at the points of the domain, both functions have the values of merge_with_previous *)
Lemma linear_prod_merge : forall D n h k x f B C M, (0 < n)%nat ->
  relaxes (in_dom D n x) n h f B -> backward_linear_prod D n h x B C = Ok M ->
  forall z j, in_dom D n x z -> (j < k)%nat ->
    aff n (bb_wu M) (bb_bu M) z j = aff n (bb_wu (merge_bb h B C)) (bb_bu (merge_bb h B C)) z j /\
    aff n (bb_wl M) (bb_bl M) z j = aff n (bb_wl (merge_bb h B C)) (bb_bl (merge_bb h B C)) z j.
Proof.
  intros D n h k x f B C M Hn HB HM z j Hz Hj. unfold backward_linear_prod in HM.
  destruct (get_upper D n false x _ _ no_kw) as [xm|e] eqn:Ex; cbn in HM; [|discriminate]. injection HM as <-.
  assert (Hs : forall i, (i < h)%nat ->
    Rsgn (xm i) = 1 \/ (Rsgn (xm i) = 0 /\ aff n (bb_wu B) (bb_bu B) z i = aff n (bb_wl B) (bb_bl B) z i)).
  { intros i Hi. destruct (HB z i Hz Hi) as [B1 B2].
    pose proof (get_upper_sound D n x _ _ xm z i Hn Ex Hz) as Hx.
    assert (E : aff n (fun a j0 => bb_wu B a j0 - bb_wl B a j0) (fun j0 => bb_bu B j0 - bb_bl B j0) z i =
      aff n (bb_wu B) (bb_bu B) z i - aff n (bb_wl B) (bb_bl B) z i).
    { unfold aff, dot. rewrite (rsum_ext n _ (fun a => bb_wu B a i * z a - bb_wl B a i * z a)) by (intros; ring).
      rewrite rsum_minus. ring. }
    rewrite E in Hx. unfold Rsgn. destruct (Rlt_dec 0 (xm i)); [left; reflexivity|].
    destruct (Rlt_dec (xm i) 0); [exfalso; lra|]. right. split; [reflexivity|lra]. }
  unfold merge_bb, merge_with_previous. cbn [bb_wu bb_bu bb_wl bb_bl full_w]. rewrite !comp_aff.
  set (s := fun i => 1 - (1 - Rsgn (xm i))).
  assert (Es : forall i, 1 - Rsgn (xm i) = 1 - s i) by (intros; unfold s; ring).
  split.
  - rewrite <- (Rplus_comm (bb_bu C j)). 
    transitivity (rsum h (fun i => s i * (mpos (bb_wu C) i j * aff n (bb_wu B) (bb_bu B) z i + mneg (bb_wu C) i j * aff n (bb_wl B) (bb_bl B) z i)
      + (1 - s i) * (bb_wu C i j * aff n (bb_wu B) (bb_bu B) z i)) + bb_bu C j).
    + rewrite <- prod_aff. unfold aff, dot. f_equal.
      * apply rsum_ext. intros i _. f_equal. f_equal. apply rsum_ext. intros a _. rewrite Es. reflexivity.
      * f_equal. f_equal. apply rsum_ext. intros a _. rewrite Es. reflexivity.
    + rewrite (Rplus_comm (bb_bu C j)). f_equal. apply rsum_ext. intros i Hi. unfold s, mpos, mneg.
      destruct (Hs i Hi) as [E|[E E']]; rewrite E; [ring|]. rewrite E'.
      destruct (Rle_dec (bb_wu C i j) 0); [rewrite Rmax_right, Rmin_left by lra|rewrite Rmax_left, Rmin_right by lra]; ring.
  - transitivity (rsum h (fun i => s i * (mpos (bb_wl C) i j * aff n (bb_wl B) (bb_bl B) z i + mneg (bb_wl C) i j * aff n (bb_wu B) (bb_bu B) z i)
      + (1 - s i) * (bb_wl C i j * aff n (bb_wl B) (bb_bl B) z i)) + bb_bl C j).
    + rewrite <- prod_aff. unfold aff, dot. f_equal.
      * apply rsum_ext. intros i _. f_equal. f_equal. apply rsum_ext. intros a _. rewrite Es. reflexivity.
      * f_equal. f_equal. apply rsum_ext. intros a _. rewrite Es. reflexivity.
    + f_equal. apply rsum_ext. intros i Hi. unfold s, mpos, mneg.
      destruct (Hs i Hi) as [E|[E E']]; rewrite E; [ring|]. rewrite E'.
      destruct (Rle_dec (bb_wl C i j) 0); [rewrite Rmax_right, Rmin_left by lra|rewrite Rmax_left, Rmin_right by lra]; ring.
Qed.

Lemma linear_prod_sound : forall D (T : vec -> Prop) n h k x f g B C, (0 < n)%nat -> norm_ok D ->
  relaxes (in_dom D n x) n h f B -> relaxes T h k g C -> (forall z, in_dom D n x z -> T (f z)) ->
  exists M, backward_linear_prod D n h x B C = Ok M /\ relaxes (in_dom D n x) n k (fun z => g (f z)) M.
Proof.
  intros D T n h k x f g B C Hn HD HB HC HT.
  destruct (get_upper_ok D n x (fun i j => bb_wu B i j - bb_wl B i j) (fun j => bb_bu B j - bb_bl B j) HD) as (r & Er).
  destruct (backward_linear_prod D n h x B C) as [M|e] eqn:EM.
  2:{ unfold backward_linear_prod in EM. rewrite Er in EM. discriminate. }
  exists M. split; [reflexivity|]. intros z j Hz Hj.
  destruct (linear_prod_merge D n h k x f B C M Hn HB EM z j Hz Hj) as [E1 E2]. rewrite E1, E2.
  exact (merge_bb_sound _ T n h k f g B C HB HC HT z j Hz Hj).
Qed.

(** |z| between 0 and 1 on [-1, 1], followed by y -> 1 - y *)
Lemma linear_prod_example :
  let x : tensor := fun i _ => if Nat.eqb i 0 then -1 else 1 in
  let B := mk_bb (fun _ _ => 0) (fun _ => 1) (fun _ _ => 0) (fun _ => 0) in
  let C := mk_bb (fun _ _ => -1) (fun _ => 1) (fun _ _ => -1) (fun _ => 1) in
  relaxes (in_dom Box 1 x) 1 1 (fun z j => Rabs (z j)) B /\
  relaxes (fun _ => True) 1 1 (fun y j => 1 - y j) C /\
  exists M, backward_linear_prod Box 1 1 x B C = Ok M /\
    bb_bu M 0%nat = 1 /\ bb_bl M 0%nat = 0.
Proof.
  cbn zeta. split; [|split].
  - intros z j Hz Hj. assert (j = 0%nat) by lia. subst. specialize (Hz 0%nat Hj). cbn in Hz.
    unfold aff, dot. cbn. pose proof (Rabs_pos (z 0%nat)). assert (Rabs (z 0%nat) <= 1) by (apply Rabs_le; lra). lra.
  - intros z j _ Hj. assert (j = 0%nat) by lia. subst. unfold aff, dot. cbn. lra.
  - unfold backward_linear_prod. rewrite get_upper_no_kw. cbn [bind]. eexists. split; [reflexivity|].
    cbn [bb_bu bb_bl bb_wu bb_wl rsum]. unfold mpos, mneg.
    assert (E : get_upper_box 1 false (fun _ : nat => -1) (fun _ => 1) (fun _ _ => 0 - 0) (fun _ => 1 - 0) 0%nat = 1)
      by (unfold get_upper_box; cbn; unfold Rmax, Rmin; repeat destruct (Rle_dec _ _); lra).
    cbn [Nat.eqb] in *. rewrite E. unfold Rsgn. destruct (Rlt_dec 0 1); [|lra].
    cbn [bb_wu bb_wl]. unfold Rmax, Rmin. repeat destruct (Rle_dec _ _); split; lra.
Qed.
