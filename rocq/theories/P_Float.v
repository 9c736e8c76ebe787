(** Proofs: interval mode in floating-point arithmetic (C74). *)
From Coq Require Import Reals List Arith Bool ZArith Lia Lra Psatz Permutation.
From Verif Require Import RLib Spec Spec_Layers Spec_Backward Spec_Convert Spec_Near Spec_Rounding Spec_Float M_Core M_Utils M_MergeLayers M_Ops M_Layers M_Pool M_Backward M_Crown M_Convert M_Network M_Rounding M_Float.
From Verif Require Import P_Core P_Utils P_Layers P_Graph P_Crown P_Convert P_Network P_Merge P_MergeLayers P_BatchNet P_Backward P_NetworkForward P_NetworkThm P_Near P_Rounding P_Lipschitz P_RoundingThm.
From Verif Require Import Spec_Network.
Import ListNotations.
Local Open Scope R_scope.

Definition lsum (f : nat -> R) (l : list nat) : R := fold_right (fun i s => f i + s) 0 l.
Lemma lsum_app : forall f a b, lsum f (a ++ b) = lsum f a + lsum f b.
Proof. intros f a b. unfold lsum. induction a as [|x a IH]; cbn [fold_right app]; [ring|]. rewrite IH. ring. Qed.
Lemma lsum_perm : forall f a b, Permutation a b -> lsum f a = lsum f b.
Proof. intros f a b H. unfold lsum. induction H; cbn [fold_right]; lra. Qed.
Lemma lsum_seq : forall f d, lsum f (seq 0 d) = rsum d f.
Proof. intros f d. induction d as [|d IH]; [reflexivity|]. rewrite seq_S, lsum_app, IH. unfold lsum. cbn [fold_right rsum plus]. ring. Qed.
Lemma lsum_abs : forall f l, Rabs (lsum f l) <= lsum (fun i => Rabs (f i)) l.
Proof.
  intros f l. unfold lsum. induction l as [|x l IH]; cbn [fold_right]; [rewrite Rabs_R0; lra|]. eapply Rle_trans; [apply Rabs_triang|]. lra.
Qed.
Lemma lsum_pos : forall f l, (forall i, 0 <= f i) -> 0 <= lsum f l.
Proof. intros f l H. unfold lsum. induction l as [|x l IH]; cbn [fold_right]; [lra|]. specialize (H x). lra. Qed.

Definition gam (u : R) (k : nat) : R := (1 + u) ^ k - 1.
Lemma pow_ge1 : forall u k, 0 <= u -> 1 <= (1 + u) ^ k.
Proof. intros u k H. apply pow_R1_Rle. lra. Qed.
Lemma pow_mono : forall u k k', 0 <= u -> (k <= k')%nat -> (1 + u) ^ k <= (1 + u) ^ k'.
Proof. intros u k k' H Hk. apply Rle_pow; [lra|exact Hk]. Qed.

(** one more operation on a value known with an error *)
Lemma rounded_step : forall u eta k N A E a s y, 0 <= u -> 0 <= eta -> 0 <= A -> Rabs s <= A -> 0 <= N ->
  Rabs (a - s) <= E -> E <= gam u k * A + N * (1 + u) ^ k * eta -> rounded u eta a y ->
  Rabs (y - s) <= gam u (S k) * A + (N + 1) * (1 + u) ^ (S k) * eta.
Proof.
  intros u eta k N A E a s y Hu He HA Hs HN Ha HE Hr. unfold rounded in Hr. unfold gam in *. cbn [pow].
  assert (B : Rabs a <= A + E). { replace a with (s + (a - s)) by ring. eapply Rle_trans; [apply Rabs_triang|]. lra. }
  assert (C : Rabs (y - s) <= Rabs (y - a) + Rabs (a - s)). { replace (y - s) with ((y - a) + (a - s)) by ring. apply Rabs_triang. }
  pose proof (pow_ge1 u k Hu) as P. set (p := (1 + u) ^ k) in *.
  assert (D : Rabs (y - s) <= (1 + u) * E + u * A + eta) by nra.
  assert (G : (1 + u) * E <= (1 + u) * ((p - 1) * A + N * p * eta)) by (apply Rmult_le_compat_l; lra).
  assert (1 <= (1 + u) * p) by nra. assert (eta <= (1 + u) * p * eta) by nra. nra.
Qed.

Lemma dot_value_error : forall u eta x w t y, 0 <= u -> 0 <= eta -> dot_value (rounded u eta) x w t y ->
  Rabs (y - lsum (fun i => x i * w i) (leaves t)) <=
    gam u (depth t) * lsum (fun i => Rabs (x i * w i)) (leaves t) + INR (ops t) * (1 + u) ^ depth t * eta.
Proof.
  intros u eta x w t y Hu He H. set (f := fun i => x i * w i). change (lsum (fun i => Rabs (x i * w i)) (leaves t)) with (lsum (fun i => Rabs (f i)) (leaves t)).
  assert (Hp : forall l, 0 <= lsum (fun i => Rabs (f i)) l) by (intros; apply lsum_pos; intros; apply Rabs_pos).
  induction H as [|i y Hr|i t a y Ht IH Hr|s t a b y Hs IHs Ht IHt Hr]; cbn [leaves depth ops].
  - cbn. rewrite Rminus_0_r, Rabs_R0. unfold gam. cbn. lra.
  - cbn [lsum fold_right]. rewrite !Rplus_0_r. change (x i * w i) with (f i) in *.
    pose proof (rounded_step u eta 0 0 (Rabs (f i)) 0 (f i) (f i) y Hu He (Rabs_pos _) ltac:(lra) ltac:(lra)
      ltac:(rewrite Rminus_diag_eq, Rabs_R0 by reflexivity; lra) ltac:(unfold gam; cbn; lra) Hr) as Q. cbn [INR]. rewrite Rplus_0_l in Q. exact Q.
  - change (lsum f (i :: leaves t)) with (f i + lsum f (leaves t)). change (lsum (fun j => Rabs (f j)) (i :: leaves t)) with (Rabs (f i) + lsum (fun j => Rabs (f j)) (leaves t)).
    rewrite S_INR. change (x i * w i) with (f i) in *. pose proof (Hp (leaves t)) as P0. pose proof (Rabs_pos (f i)) as P1.
    assert (G0 : 0 <= gam u (depth t)) by (unfold gam; pose proof (pow_ge1 u (depth t) Hu); lra).
    apply (rounded_step u eta (depth t) (INR (ops t)) _ (Rabs (a - lsum f (leaves t))) (f i + a)); auto; [lra| |apply pos_INR| | ].
    + eapply Rle_trans; [apply Rabs_triang|]. pose proof (lsum_abs f (leaves t)). lra.
    + replace (f i + a - (f i + lsum f (leaves t))) with (a - lsum f (leaves t)) by ring. lra.
    + eapply Rle_trans; [exact IH|]. nra.
  - rewrite !lsum_app. rewrite S_INR, plus_INR. set (k := Nat.max (depth s) (depth t)).
    pose proof (Hp (leaves s)) as P0. pose proof (Hp (leaves t)) as P1. pose proof (pos_INR (ops s)) as N0. pose proof (pos_INR (ops t)) as N1.
    assert (M : forall q A N, (q <= k)%nat -> 0 <= A -> 0 <= N -> gam u q * A + N * (1 + u) ^ q * eta <= gam u k * A + N * (1 + u) ^ k * eta).
    { intros q A N Hq HA HN. pose proof (pow_mono u q k Hu Hq) as Q. pose proof (pow_ge1 u q Hu). unfold gam.
      apply Rplus_le_compat; [apply Rmult_le_compat_r; lra|]. apply Rmult_le_compat_r; [exact He|]. apply Rmult_le_compat_l; assumption. }
    pose proof (M (depth s) _ _ ltac:(lia) P0 N0) as Ms. pose proof (M (depth t) _ _ ltac:(lia) P1 N1) as Mt.
    apply (rounded_step u eta k (INR (ops s) + INR (ops t)) _ (Rabs (a - lsum f (leaves s)) + Rabs (b - lsum f (leaves t))) (a + b)); auto; try lra.
    + eapply Rle_trans; [apply Rabs_triang|]. pose proof (lsum_abs f (leaves s)). pose proof (lsum_abs f (leaves t)). lra.
    + replace (a + b - (lsum f (leaves s) + lsum f (leaves t))) with ((a - lsum f (leaves s)) + (b - lsum f (leaves t))) by ring. apply Rabs_triang.
Qed.

Lemma dot_computed_error : forall u eta d k N x w y, 0 <= u -> 0 <= eta -> dot_computed (rounded u eta) d k N x w y ->
  Rabs (y - rsum d (fun c => x c * w c)) <= gam u k * rsum d (fun c => Rabs (x c * w c)) + INR N * (1 + u) ^ k * eta.
Proof.
  intros u eta d k N x w y Hu He (t & HP & Hk & HN & H). pose proof (dot_value_error u eta x w t y Hu He H) as Q.
  rewrite (lsum_perm _ _ _ HP), (lsum_perm (fun i => Rabs (x i * w i)) _ _ HP), !lsum_seq in Q. eapply Rle_trans; [exact Q|].
  assert (P : 0 <= rsum d (fun c => Rabs (x c * w c))) by (rewrite <- lsum_seq; apply lsum_pos; intros; apply Rabs_pos).
  pose proof (pow_mono u _ _ Hu Hk) as M. pose proof (pow_ge1 u (depth t) Hu). apply le_INR in HN. pose proof (pos_INR (ops t)).
  apply Rplus_le_compat; [apply Rmult_le_compat_r; [exact P|unfold gam; lra]|]. apply Rmult_le_compat_r; [exact He|]. apply Rmult_le_compat; lra.
Qed.

Lemma rsum_plus2 : forall d f g, rsum d f + rsum d g = rsum d (fun c => f c + g c).
Proof. intros d f g. induction d as [|d IH]; cbn [rsum]; lra. Qed.
Lemma rsum_mono : forall d f g, (forall c, (c < d)%nat -> f c <= g c) -> rsum d f <= rsum d g.
Proof. intros d f g H. induction d as [|d IH]; cbn [rsum]; [lra|]. specialize (IH ltac:(intros; apply H; lia)). specialize (H d ltac:(lia)). lra. Qed.
Lemma rsum_abs : forall d f, Rabs (rsum d f) <= rsum d (fun c => Rabs (f c)).
Proof. intros d f. induction d as [|d IH]; cbn [rsum]; [rewrite Rabs_R0; lra|]. eapply Rle_trans; [apply Rabs_triang|]. lra. Qed.
Lemma rsum_abs_pos : forall d f, 0 <= rsum d (fun c => Rabs (f c)).
Proof. intros d f. induction d as [|d IH]; cbn [rsum]; [lra|]. pose proof (Rabs_pos (f d)). lra. Qed.

Lemma pos_neg_abs : forall k a b, Rabs (a * Rmax 0 k) + Rabs (b * Rmin 0 k) <= Rabs k * Rmax (Rabs a) (Rabs b).
Proof.
  intros k a b. rewrite !Rabs_mult. pose proof (Rmax_l (Rabs a) (Rabs b)). pose proof (Rmax_r (Rabs a) (Rabs b)). pose proof (Rabs_pos a). pose proof (Rabs_pos b).
  destruct (Rle_dec 0 k) as [H3|H3].
  - rewrite (Rmax_right 0 k), (Rmin_left 0 k) by lra. rewrite Rabs_R0, (Rabs_right k) by lra. nra.
  - rewrite (Rmax_left 0 k), (Rmin_right 0 k) by lra. rewrite Rabs_R0, (Rabs_left k) by lra. nra.
Qed.

Lemma plus_bias_error : forall u eta k N A E bias j s e y, 0 <= u -> 0 <= eta -> 0 <= A -> 0 <= N -> Rabs e <= A ->
  Rabs (s - e) <= E -> E <= gam u k * A + N * (1 + u) ^ k * eta -> plus_bias (rounded u eta) bias j s y ->
  Rabs (y - (e + opt_vec 0 bias j)) <= gam u (S k) * (A + Rabs (opt_vec 0 bias j)) + (N + 1) * (1 + u) ^ (S k) * eta.
Proof.
  intros u eta k N A E bias j s e y Hu He HA HN Hb Hs HE H. set (v := opt_vec 0 bias j). pose proof (Rabs_pos v) as Hv.
  assert (G0 : 0 <= gam u k) by (unfold gam; pose proof (pow_ge1 u k Hu); lra).
  destruct bias as [w|]; cbn [plus_bias opt_vec] in H.
  - apply (rounded_step u eta k N (A + Rabs v) (Rabs (s - e)) (s + v)); auto; try lra.
    + eapply Rle_trans; [apply Rabs_triang|]. lra.
    + replace (s + v - (e + v)) with (s - e) by ring. lra.
    + nra.
  - subst y. assert (Ev : v = 0) by reflexivity. rewrite Ev, Rabs_R0, !Rplus_0_r. eapply Rle_trans; [exact Hs|]. eapply Rle_trans; [exact HE|].
    pose proof (pow_ge1 u k Hu). assert (P : (1 + u) ^ k <= (1 + u) ^ S k) by (apply pow_mono; [exact Hu|lia]). pose proof (pow_ge1 u (S k) Hu).
    apply Rplus_le_compat; [apply Rmult_le_compat_r; [exact HA|unfold gam; lra]|]. apply Rmult_le_compat_r; [exact He|]. apply Rmult_le_compat; lra.
Qed.

Lemma float_neuron_error : forall u eta k N F a b j y A, 0 <= u -> 0 <= eta ->
  float_neuron (rounded u eta) (any_order (rounded u eta) k N) F a b j y -> lin_size F (fun i => Rmax (Rabs (a i)) (Rabs (b i))) j <= A ->
  Rabs (y - (rsum (ln_d F) (fun c => px a (ln_src F j c) * Rmax 0 (ln_w F j c))
           + rsum (ln_d F) (fun c => px b (ln_src F j c) * Rmin 0 (ln_w F j c)) + opt_vec 0 (ln_bias F) (ln_unit F j))) <= float_error u eta k N A.
Proof.
  intros u eta k N F a b j y A Hu He (p & q & s & Hp & Hq & Hs & Hy) HA. unfold lin_size in HA. set (d := ln_d F) in *.
  pose proof (dot_computed_error _ _ _ _ _ _ _ _ Hu He Hp) as Ep. pose proof (dot_computed_error _ _ _ _ _ _ _ _ Hu He Hq) as Eq. cbn beta in Ep, Eq.
  set (fa := fun c => px a (ln_src F j c) * Rmax 0 (ln_w F j c)) in *. set (fb := fun c => px b (ln_src F j c) * Rmin 0 (ln_w F j c)) in *.
  change (rsum d (fun c => Rabs (px a (ln_src F j c) * Rmax 0 (ln_w F j c)))) with (rsum d (fun c => Rabs (fa c))) in Ep.
  change (rsum d (fun c => Rabs (px b (ln_src F j c) * Rmin 0 (ln_w F j c)))) with (rsum d (fun c => Rabs (fb c))) in Eq.
  set (A0 := rsum d (fun c => Rabs (ln_w F j c) * px (fun i => Rmax (Rabs (a i)) (Rabs (b i))) (ln_src F j c))) in *.
  assert (HA0 : rsum d (fun c => Rabs (fa c)) + rsum d (fun c => Rabs (fb c)) <= A0).
  { rewrite rsum_plus2. unfold A0. apply rsum_mono. intros c _. unfold fa, fb. destruct (ln_src F j c); cbn [px]; [apply pos_neg_abs|].
    rewrite !Rmult_0_l, Rabs_R0, Rmult_0_r. lra. }
  pose proof (rsum_abs d fa) as Ba. pose proof (rsum_abs d fb) as Bb. pose proof (rsum_abs_pos d fa) as Pa. pose proof (rsum_abs_pos d fb) as Pb.
  pose proof (pos_INR N) as HN. pose proof (pow_ge1 u k Hu) as P1.
  assert (G0 : 0 <= gam u k) by (unfold gam; lra).
  assert (Es : Rabs (s - (rsum d fa + rsum d fb)) <= gam u (S k) * A0 + (2 * INR N + 1) * (1 + u) ^ S k * eta).
  { apply (rounded_step u eta k (2 * INR N) A0 (Rabs (p - rsum d fa) + Rabs (q - rsum d fb)) (p + q)); auto; try lra.
    - eapply Rle_trans; [apply Rabs_triang|]. lra.
    - replace (p + q - (rsum d fa + rsum d fb)) with ((p - rsum d fa) + (q - rsum d fb)) by ring. apply Rabs_triang.
    - nra. }
  assert (H := plus_bias_error u eta (S k) (2 * INR N + 1) A0 _ (ln_bias F) (ln_unit F j) s (rsum d fa + rsum d fb) y Hu He ltac:(lra) ltac:(lra)
    ltac:(eapply Rle_trans; [apply Rabs_triang|]; lra) Es (Rle_refl _) Hy).
  eapply Rle_trans; [exact H|]. unfold float_error. replace (k + 2)%nat with (S (S k)) by lia.
  replace (INR (2 * N + 2)) with (2 * INR N + 1 + 1) by (rewrite plus_INR, mult_INR; cbn; ring).
  apply Rplus_le_compat_r. change ((1 + u) ^ S (S k) - 1) with (gam u (S (S k))). apply Rmult_le_compat_l; [|exact HA].
  unfold gam. pose proof (pow_ge1 u (S (S k)) Hu). lra.
Qed.

Lemma keras_neuron_error : forall u eta k N d (w x : vec) bias m p y A, 0 <= u -> 0 <= eta ->
  dot_computed (rounded u eta) d k N x w p -> plus_bias (rounded u eta) bias m p y ->
  rsum d (fun c => Rabs (w c) * Rabs (x c)) + Rabs (opt_vec 0 bias m) <= A ->
  Rabs (y - (rsum d (fun c => x c * w c) + opt_vec 0 bias m)) <= float_error u eta k N A.
Proof.
  intros u eta k N d w x bias m p y A Hu He Hp Hy HA.
  pose proof (dot_computed_error _ _ _ _ _ _ _ _ Hu He Hp) as Ep. set (f := fun c => x c * w c) in *.
  change (rsum d (fun c => Rabs (x c * w c))) with (rsum d (fun c => Rabs (f c))) in Ep.
  assert (HA0 : rsum d (fun c => Rabs (f c)) <= rsum d (fun c => Rabs (w c) * Rabs (x c))).
  { apply rsum_mono. intros c _. unfold f. rewrite Rabs_mult. lra. }
  pose proof (rsum_abs d f) as B. pose proof (rsum_abs_pos d f) as P. pose proof (pos_INR N) as HN. pose proof (Rabs_pos (opt_vec 0 bias m)) as Pv.
  assert (H := plus_bias_error u eta k (INR N) (rsum d (fun c => Rabs (f c))) _ bias m p (rsum d f) y Hu He P HN B Ep (Rle_refl _) Hy).
  eapply Rle_trans; [exact H|]. unfold float_error. pose proof (pow_ge1 u (S k) Hu) as P1.
  assert (P2 : (1 + u) ^ S k <= (1 + u) ^ (k + 2)) by (apply pow_mono; [exact Hu|lia]).
  assert (P3 : INR N + 1 <= INR (2 * N + 2)) by (rewrite plus_INR, mult_INR; cbn; lra).
  apply Rplus_le_compat; [apply Rmult_le_compat; try lra; unfold gam; lra|]. apply Rmult_le_compat_r; [exact He|]. apply Rmult_le_compat; lra.
Qed.


(** the exact outputs in interval mode *)
Lemma ibp_dense : forall D n d units kernel bias uc lc, decomon_dense (mk_spec false IBP D n) d units kernel bias false None [uc; lc] =
  Ok [vadd_opt (option_map (tile units) bias) (tadd (kdot d units (kpos kernel) uc) (kdot d units (kneg kernel) lc));
      vadd_opt (option_map (tile units) bias) (tadd (kdot d units (kpos kernel) lc) (kdot d units (kneg kernel) uc))].
Proof. intros. destruct bias; reflexivity. Qed.
Lemma ibp_conv : forall D n g kernel bias uc lc, decomon_conv2d (mk_spec false IBP D n) g kernel bias false [uc; lc] =
  Ok [vadd_opt (option_map (conv_bias g) bias) (tadd (kconv g (k4pos kernel) uc) (kconv g (k4neg kernel) lc));
      vadd_opt (option_map (conv_bias g) bias) (tadd (kconv g (k4pos kernel) lc) (kconv g (k4neg kernel) uc))].
Proof. intros. destruct bias; reflexivity. Qed.
(** a convolution as inner products *)
Lemma conv_lin : forall g (kernel : kernel4) v j, conv2d g kernel v j =
  rsum (wn_k (cg_y g) * (wn_k (cg_x g) * cg_cin g)) (fun c =>
    px v (px_src (cg_last g) (cg_y g) (cg_x g) (cg_cin g) (im_y (cg_out g) j) (im_x (cg_out g) j) (c / (wn_k (cg_x g) * cg_cin g)) (c mod (wn_k (cg_x g) * cg_cin g) / cg_cin g) (c mod (wn_k (cg_x g) * cg_cin g) mod cg_cin g))
    * kernel (c / (wn_k (cg_x g) * cg_cin g))%nat (c mod (wn_k (cg_x g) * cg_cin g) / cg_cin g)%nat (c mod (wn_k (cg_x g) * cg_cin g) mod cg_cin g)%nat (im_ch (cg_out g) j)).
Proof.
  intros g kernel v j. unfold conv2d. set (o := cg_out g). set (kw := wn_k (cg_x g)). set (ci := cg_cin g).
  rewrite (rsum_prod (wn_k (cg_y g)) (kw * ci) (fun ky r => px v (px_src (cg_last g) (cg_y g) (cg_x g) ci (im_y o j) (im_x o j) ky (r / ci) (r mod ci)) * kernel ky (r / ci)%nat (r mod ci)%nat (im_ch o j))).
  apply rsum_ext. intros ky _.
  rewrite (rsum_prod kw ci (fun kx c => px v (px_src (cg_last g) (cg_y g) (cg_x g) ci (im_y o j) (im_x o j) ky kx c) * kernel ky kx c (im_ch o j))).
  apply rsum_ext. intros kx _. apply rsum_ext. intros c _. apply Rmult_comm.
Qed.
(** both layers in terms of their inner products *)
Lemma lin_exact : forall ke D n o L F uc lc, lin_of L = Some F -> exists U V, decomon_layer ke (mk_spec false IBP D n) o L [uc; lc] = Ok [U; V] /\ ln_out F = nl_out L /\
  forall j, U 0%nat j = rsum (ln_d F) (fun c => px (uc 0%nat) (ln_src F j c) * Rmax 0 (ln_w F j c)) + rsum (ln_d F) (fun c => px (lc 0%nat) (ln_src F j c) * Rmin 0 (ln_w F j c)) + opt_vec 0 (ln_bias F) (ln_unit F j) /\
            V 0%nat j = rsum (ln_d F) (fun c => px (lc 0%nat) (ln_src F j c) * Rmax 0 (ln_w F j c)) + rsum (ln_d F) (fun c => px (uc 0%nat) (ln_src F j c) * Rmin 0 (ln_w F j c)) + opt_vec 0 (ln_bias F) (ln_unit F j).
Proof.
  intros ke D n o L F uc lc H. destruct L; try discriminate H; injection H as <-; cbn [decomon_layer nl_out ln_out ln_d ln_src ln_w ln_bias ln_unit].
  - rewrite ibp_dense. do 2 eexists. split; [reflexivity|]. split; [reflexivity|]. intros j.
    split; (destruct bias as [v|]; cbn [vadd_opt option_map opt_vec]; unfold tbias, tile, tadd, ew2, kdot; [reflexivity|rewrite Rplus_0_r; reflexivity]).
  - rewrite ibp_conv. do 2 eexists. split; [reflexivity|]. split; [reflexivity|]. intros j.
    split; (destruct bias as [v|]; cbn [vadd_opt option_map opt_vec]; unfold tbias, conv_bias, tadd, ew2, kconv; rewrite !conv_lin; [reflexivity|rewrite Rplus_0_r; reflexivity]).
Qed.
Lemma lin_computes : forall L F (x r : vec), lin_of L = Some F -> (forall j, (j < ln_out F)%nat -> r j = rsum (ln_d F) (fun c => px x (ln_src F j c) * ln_w F j c) + opt_vec 0 (ln_bias F) (ln_unit F j)) ->
  computes L [x] r.
Proof.
  intros L F x r H Hr. destruct L; try discriminate H; injection H as <-; cbn [computes ln_out ln_d ln_src ln_w ln_bias ln_unit px] in *.
  - intros p v Hp Hv. rewrite Hr by nia. rewrite (Nat.div_add_l p units v), (Nat.div_small v units), Nat.add_0_r by lia.
    rewrite (Nat.add_comm (p * units) v), Nat.mod_add, Nat.mod_small by lia. reflexivity.
  - intros j Hj. rewrite Hr by exact Hj. unfold keras_conv2d. rewrite conv_lin. reflexivity.
Qed.
Lemma lin_merge : forall op L F, lin_of L = Some F -> merge_op op L = None.
Proof. intros op L F H. destruct L; try discriminate H; reflexivity. Qed.
Lemma merge_any : forall op op' L M, merge_op op L = Some M -> exists M', merge_op op' L = Some M'.
Proof. intros op op' L M H. destruct L; try discriminate H; eexists; reflexivity. Qed.

Lemma float_linear_close : forall u eta k N ke D n o L F ts ts' out A, 0 <= u -> 0 <= eta -> lin_of L = Some F ->
  float_linear (rounded u eta) (any_order (rounded u eta) k N) F ts ts' ->
  (forall uc lc, ts = [uc; lc] -> forall j, (j < ln_out F)%nat -> lin_size F (fun i => Rmax (Rabs (uc 0%nat i)) (Rabs (lc 0%nat i))) j <= A) ->
  decomon_layer ke (mk_spec false IBP D n) o L ts = Ok out -> close IBP n (nl_out L) (float_error u eta k N A) out ts'.
Proof.
  intros u eta k N ke D n o L F ts ts' out A Hu He HF Hf HA E.
  destruct ts as [|uc [|lc [|]]]; try contradiction. destruct ts' as [|uc' [|lc' [|]]]; try contradiction.
  destruct (lin_exact ke D n o L F uc lc HF) as (U & V & E' & Eo & HUV). rewrite E in E'. injection E' as ->. cbn [close]. cbn [float_linear] in Hf. rewrite <- Eo.
  split; intros i j Hi Hj; replace i with O by lia; destruct (Hf j Hj) as [H1 H2]; destruct (HUV j) as [EU EV]; rewrite ?EU, ?EV; apply float_neuron_error; auto.
  unfold lin_size. rewrite (rsum_ext (ln_d F) _ (fun c => Rabs (ln_w F j c) * px (fun i0 => Rmax (Rabs (uc 0%nat i0)) (Rabs (lc 0%nat i0))) (ln_src F j c))).
  - exact (HA uc lc eq_refl j Hj).
  - intros c _. f_equal. destruct (ln_src F j c); [apply Rmax_comm|reflexivity].
Qed.

(** sums *)
Lemma chain_error : forall u eta l k N A E s e y, 0 <= u -> 0 <= eta -> 0 <= A -> 0 <= N -> Rabs e <= A -> Rabs (s - e) <= E -> E <= gam u k * A + N * (1 + u) ^ k * eta ->
  chain (rounded u eta) s l y ->
  Rabs (y - (e + sum_list l)) <= gam u (k + length l) * (A + sum_list (map Rabs l)) + (N + INR (length l)) * (1 + u) ^ (k + length l) * eta /\
  Rabs (e + sum_list l) <= A + sum_list (map Rabs l).
Proof.
  intros u eta l. induction l as [|x l IH]; intros k N A E s e y Hu He HA HN Hb Hs HE H.
  - cbn in H. subst y. cbn. rewrite !Rplus_0_r, Nat.add_0_r. split; [lra|exact Hb].
  - destruct H as (t & Ht & H). pose proof (Rabs_pos x) as Px.
    assert (G0 : 0 <= gam u k) by (unfold gam; pose proof (pow_ge1 u k Hu); lra).
    assert (St : Rabs (t - (e + x)) <= gam u (S k) * (A + Rabs x) + (N + 1) * (1 + u) ^ (S k) * eta).
    { apply (rounded_step u eta k N (A + Rabs x) (Rabs (s - e)) (s + x)); auto; try lra.
      - eapply Rle_trans; [apply Rabs_triang|]. lra.
      - replace (s + x - (e + x)) with (s - e) by ring. lra.
      - nra. }
    destruct (IH (S k) (N + 1) (A + Rabs x) _ t (e + x) y Hu He ltac:(lra) ltac:(lra) ltac:(eapply Rle_trans; [apply Rabs_triang|]; lra) St (Rle_refl _) H) as [B1 B2].
    change (sum_list (x :: l)) with (x + sum_list l). change (sum_list (map Rabs (x :: l))) with (Rabs x + sum_list (map Rabs l)). cbn [length]. rewrite S_INR.
    replace (k + S (length l))%nat with (S k + length l)%nat by lia.
    replace (e + (x + sum_list l)) with (e + x + sum_list l) by ring. replace (A + (Rabs x + sum_list (map Rabs l))) with (A + Rabs x + sum_list (map Rabs l)) by ring.
    replace (N + (INR (length l) + 1)) with (N + 1 + INR (length l)) by ring. split; assumption.
Qed.
Lemma sum_error : forall u eta l y A, 0 <= u -> 0 <= eta -> float_sum (rounded u eta) l y -> sum_list (map Rabs l) <= A ->
  Rabs (y - sum_list l) <= gam u (pred (length l)) * A + INR (pred (length l)) * (1 + u) ^ pred (length l) * eta /\ Rabs (sum_list l) <= A.
Proof.
  intros u eta l y A Hu He H HA. destruct l as [|x l]; [contradiction|]. cbn [float_sum] in H. cbn [length pred].
  destruct (chain_error u eta l 0 0 (Rabs x) 0 x x y Hu He (Rabs_pos x) ltac:(lra) ltac:(lra) ltac:(rewrite Rminus_diag_eq, Rabs_R0 by reflexivity; lra) ltac:(unfold gam; cbn; lra) H) as [B1 B2].
  change (sum_list (x :: l)) with (x + sum_list l). change (Rabs x + sum_list (map Rabs l) <= A) in HA. rewrite Rplus_0_l in B1. cbn [plus] in B1.
  pose proof (pow_ge1 u (length l) Hu). split; [|lra]. eapply Rle_trans; [exact B1|]. apply Rplus_le_compat_r. apply Rmult_le_compat_l; [unfold gam; lra|exact HA].
Qed.
Lemma float_error_from : forall u eta k N A q M, 0 <= u -> 0 <= eta -> 0 <= A -> (q <= k + 2)%nat -> (M <= 2 * N + 2)%nat ->
  gam u q * A + INR M * (1 + u) ^ q * eta <= float_error u eta k N A.
Proof.
  intros u eta k N A q M Hu He HA Hq HM. unfold float_error. pose proof (pow_mono u q (k + 2) Hu Hq) as P. pose proof (pow_ge1 u q Hu) as P1. apply le_INR in HM. pose proof (pos_INR M).
  apply Rplus_le_compat; [apply Rmult_le_compat_r; [exact HA|unfold gam; lra]|]. apply Rmult_le_compat_r; [exact He|]. apply Rmult_le_compat; lra.
Qed.
(** the exact value of a merge on the entries l of one neuron *)
Definition merge_exact (L : nlayer) (l : list R) : R :=
  match L with
  | NAverage _ _ => sum_list l / INR (length l)
  | NSubtract _ => match l with [a; b] => a - b | _ => 0 end
  | _ => sum_list l
  end.
Lemma merge_error : forall u eta k N L M l y A, 0 <= u -> 0 <= eta -> 0 <= A -> merge_op (rounded u eta) L = Some M -> M l y -> sum_list (map Rabs l) <= A ->
  (length l <= k)%nat -> (length l <= N)%nat -> Rabs (y - merge_exact L l) <= float_error u eta k N A.
Proof.
  intros u eta k N L M l y A Hu He HA HM H Hl Hk HN. destruct L; try discriminate HM; injection HM as <-; cbn [merge_exact].
  - destruct (sum_error u eta l y A Hu He H Hl) as [B _]. eapply Rle_trans; [exact B|]. apply float_error_from; auto; lia.
  - destruct H as (s & H & Hy). destruct (sum_error u eta l s A Hu He H Hl) as [B1 B2]. destruct l as [|x l]; [contradiction|]. cbn [length pred] in *. set (ml := length l) in *.
    assert (Pm : 1 <= INR (S ml)) by (rewrite S_INR; pose proof (pos_INR ml); lra).
    assert (Pi : 0 < / INR (S ml) <= 1). { split; [apply Rinv_0_lt_compat; lra|]. rewrite <- Rinv_1. apply Rinv_le_contravar; lra. }
    assert (St := rounded_step u eta ml (INR ml) A (Rabs (s / INR (S ml) - sum_list (x :: l) / INR (S ml))) (s / INR (S ml)) (sum_list (x :: l) / INR (S ml)) y Hu He HA).
    eapply Rle_trans; [apply St; auto|].
    + unfold Rdiv. rewrite Rabs_mult, (Rabs_right (/ INR (S ml))) by lra. pose proof (Rabs_pos (sum_list (x :: l))). nra.
    + apply pos_INR.
    + lra.
    + unfold Rdiv. rewrite <- Rmult_minus_distr_r, Rabs_mult, (Rabs_right (/ INR (S ml))) by lra. pose proof (Rabs_pos (s - sum_list (x :: l))). nra.
    + rewrite <- S_INR. apply float_error_from; auto; lia.
  - destruct l as [|a [|b [|]]]; try contradiction. cbn in Hl. rewrite Rplus_0_r in Hl.
    assert (B : Rabs (a - b) <= A). { eapply Rle_trans; [apply Rabs_triang|]. rewrite Rabs_Ropp. exact Hl. }
    pose proof (rounded_step u eta 0 0 A 0 (a - b) (a - b) y Hu He HA B ltac:(lra) ltac:(rewrite Rminus_diag_eq, Rabs_R0 by reflexivity; lra) ltac:(unfold gam; cbn; lra) H) as Q.
    eapply Rle_trans; [exact Q|]. rewrite Rplus_0_l. change 1 with (INR 1). apply float_error_from; auto; cbn in *; lia.
Qed.
Lemma merge_computes : forall op L M (xs : list vec) r, merge_op op L = Some M -> length xs = length (nl_in L) ->
  (forall j, (j < nl_out L)%nat -> r j = merge_exact L (map (fun x => x j) xs)) -> computes L xs r.
Proof.
  intros op L M xs r H Hl Hr. destruct L; try discriminate H; cbn [computes nl_out merge_exact nl_in] in *.
  - exact Hr.
  - intros j Hj. rewrite (Hr j Hj), map_length. reflexivity.
  - destruct xs as [|x0 [|x1 [|]]]; try discriminate Hl. exact Hr.
Qed.

(** the exact outputs of the merges in interval mode *)
Lemma ibp_reduce : forall D n op tss, tss <> [] -> (forall ts, In ts tss -> length ts = 2%nat) ->
  merge_reduce (mk_spec false IBP D n) op op (concat tss) = Ok [op (map (fun ts => nth 0 ts empty_tensor) tss); op (map (fun ts => nth 1 ts empty_tensor) tss)].
Proof.
  intros D n op tss Hne Hl.
  destruct (merge_by_type_ok (mk_spec false IBP Box n) false true tss I Hl ltac:(reflexivity)) as (R & ER & HL & Hrow).
  assert (ER' : get_fullinputs_by_type (mk_spec false IBP D n) false true (concat tss) = Ok R) by exact ER.
  destruct HL as (L1 & L2 & _ & _ & L5 & _).
  assert (EU : f_uc R = map (fun ts => nth 0 ts empty_tensor) tss).
  { apply nth_error_eq. intros i. rewrite nth_error_map. destruct (nth_error tss i) as [ts|] eqn:Ei.
    - destruct (Hrow i ts Ei) as (r & Er & (_ & R2 & _)). specialize (Hl ts (nth_error_In _ _ Ei)). destruct ts as [|u [|l [|]]]; try discriminate. cbn in Er. injection Er as <-. exact R2.
    - cbn. apply nth_error_None. apply nth_error_None in Ei. lia. }
  assert (EL : f_lc R = map (fun ts => nth 1 ts empty_tensor) tss).
  { apply nth_error_eq. intros i. rewrite nth_error_map. destruct (nth_error tss i) as [ts|] eqn:Ei.
    - destruct (Hrow i ts Ei) as (r & Er & (_ & _ & _ & _ & R5 & _)). specialize (Hl ts (nth_error_In _ _ Ei)). destruct ts as [|u [|l [|]]]; try discriminate. cbn in Er. injection Er as <-. exact R5.
    - cbn. apply nth_error_None. apply nth_error_None in Ei. lia. }
  unfold merge_reduce. rewrite ER'. cbn [bind]. destruct (f_x R) as [|x xs] eqn:Ex; [destruct tss; [contradiction Hne; reflexivity|discriminate L1]|].
  cbn [sp_mode get_ibp get_affine sp_dc extract f_uc f_lc]. rewrite EU, EL. reflexivity.
Qed.
Lemma merge_ends_size : forall op L M tss j, merge_op op L = Some M ->
  sum_list (map Rabs (merge_ends L (lowers j tss) (uppers j tss))) <= sum_list (map (fun ts => Rmax (Rabs (nth 0 ts empty_tensor 0%nat j)) (Rabs (nth 1 ts empty_tensor 0%nat j))) tss) /\
  sum_list (map Rabs (merge_ends L (uppers j tss) (lowers j tss))) <= sum_list (map (fun ts => Rmax (Rabs (nth 0 ts empty_tensor 0%nat j)) (Rabs (nth 1 ts empty_tensor 0%nat j))) tss).
Proof.
  intros op L M tss j H.
  assert (G : forall f : list tensor -> R, (forall ts, Rabs (f ts) <= Rmax (Rabs (nth 0 ts empty_tensor 0%nat j)) (Rabs (nth 1 ts empty_tensor 0%nat j))) ->
    sum_list (map Rabs (map f tss)) <= sum_list (map (fun ts => Rmax (Rabs (nth 0 ts empty_tensor 0%nat j)) (Rabs (nth 1 ts empty_tensor 0%nat j))) tss)).
  { intros f Hf. unfold sum_list. induction tss as [|ts tss IH]; cbn [map fold_right]; [lra|]. specialize (Hf ts). lra. }
  assert (P : forall a b, 0 <= Rmax (Rabs a) (Rabs b)) by (intros a b; pose proof (Rmax_l (Rabs a) (Rabs b)); pose proof (Rabs_pos a); lra).
  assert (Z : 0 <= sum_list (map (fun ts => Rmax (Rabs (nth 0 ts empty_tensor 0%nat j)) (Rabs (nth 1 ts empty_tensor 0%nat j))) tss)).
  { unfold sum_list. clear G. induction tss as [|ts tss IH]; cbn [map fold_right]; [lra|]. specialize (P (nth 0 ts empty_tensor 0%nat j) (nth 1 ts empty_tensor 0%nat j)). lra. }
  destruct L; try discriminate H; cbn [merge_ends]; unfold uppers, lowers; try (split; apply G; intros ts; [apply Rmax_l|apply Rmax_r]).
  destruct tss as [|t0 [|t1 [|t2 tss]]]; cbn [map]; try (split; exact Z); cbn [map sum_list fold_right] in *.
  pose proof (Rmax_l (Rabs (nth 0 t0 empty_tensor 0%nat j)) (Rabs (nth 1 t0 empty_tensor 0%nat j))). pose proof (Rmax_r (Rabs (nth 0 t0 empty_tensor 0%nat j)) (Rabs (nth 1 t0 empty_tensor 0%nat j))).
  pose proof (Rmax_l (Rabs (nth 0 t1 empty_tensor 0%nat j)) (Rabs (nth 1 t1 empty_tensor 0%nat j))). pose proof (Rmax_r (Rabs (nth 0 t1 empty_tensor 0%nat j)) (Rabs (nth 1 t1 empty_tensor 0%nat j))). split; lra.
Qed.
Lemma merge_ends_length : forall L lo hi, length lo = length hi -> (length (merge_ends L lo hi) <= length hi)%nat.
Proof. intros L lo hi H. destruct L; cbn [merge_ends]; try lia. destruct hi as [|a [|b [|c hi]]], lo as [|a' [|b' [|c' lo]]]; cbn in *; try discriminate; lia. Qed.
Lemma merge_layer_exact : forall ke D n o op L M tss, merge_op op L = Some M -> length tss = length (nl_in L) -> tss <> [] -> (forall ts, In ts tss -> length ts = 2%nat) ->
  exists U V, decomon_layer ke (mk_spec false IBP D n) o L (concat tss) = Ok [U; V] /\
    forall j, U 0%nat j = merge_exact L (merge_ends L (lowers j tss) (uppers j tss)) /\ V 0%nat j = merge_exact L (merge_ends L (uppers j tss) (lowers j tss)).
Proof.
  intros ke D n o op L M tss H Hlen Hne Hl. destruct L; try discriminate H; cbn [decomon_layer merge_exact merge_ends nl_in] in *.
  - unfold decomon_add. rewrite ibp_reduce by assumption. do 2 eexists. split; [reflexivity|]. intros j.
    rewrite !sum_t_rsum, !sum_list_rsum. unfold uppers, lowers. rewrite !map_length.
    split; apply rsum_ext; intros i Hi; rewrite (nth_indep _ 0 (empty_tensor 0%nat j)) by (rewrite map_length; exact Hi);
      (rewrite <- (map_map (fun ts => nth _ ts empty_tensor) (fun t : tensor => t 0%nat j)), (map_nth (fun t : tensor => t 0%nat j)); reflexivity).
  - unfold decomon_average. rewrite ibp_reduce by assumption. do 2 eexists. split; [reflexivity|]. intros j. unfold avg_t.
    rewrite !sum_t_rsum, !sum_list_rsum. unfold uppers, lowers. rewrite !map_length.
    split; (f_equal; apply rsum_ext; intros i Hi; rewrite (nth_indep _ 0 (empty_tensor 0%nat j)) by (rewrite map_length; exact Hi);
      (rewrite <- (map_map (fun ts => nth _ ts empty_tensor) (fun t : tensor => t 0%nat j)), (map_nth (fun t : tensor => t 0%nat j)); reflexivity)).
  - destruct tss as [|t0 [|t1 [|]]]; try discriminate Hlen. pose proof (Hl t0 (or_introl eq_refl)) as H0. pose proof (Hl t1 (or_intror (or_introl eq_refl))) as H1.
    destruct t0 as [|u0 [|l0 [|]]]; try discriminate H0. destruct t1 as [|u1 [|l1 [|]]]; try discriminate H1. do 2 eexists. split; [reflexivity|]. intros j. split; reflexivity.
Qed.
Lemma float_merge_close : forall u eta k N ke D n o L M tss ts' out A, 0 <= u -> 0 <= eta -> 0 <= A -> merge_op (rounded u eta) L = Some M ->
  length tss = length (nl_in L) -> tss <> [] -> (forall ts, In ts tss -> length ts = 2%nat) -> (length tss <= k)%nat -> (length tss <= N)%nat ->
  float_merge M L tss ts' ->
  (forall j, (j < nl_out L)%nat -> sum_list (map (fun ts => Rmax (Rabs (nth 0 ts empty_tensor 0%nat j)) (Rabs (nth 1 ts empty_tensor 0%nat j))) tss) <= A) ->
  decomon_layer ke (mk_spec false IBP D n) o L (concat tss) = Ok out -> close IBP n (nl_out L) (float_error u eta k N A) out ts'.
Proof.
  intros u eta k N ke D n o L M tss ts' out A Hu He HA HM Hlen Hne Hl Hk HN Hf Hs E.
  destruct (merge_layer_exact ke D n o _ L M tss HM Hlen Hne Hl) as (U & V & E' & HUV). rewrite E in E'. injection E' as ->.
  destruct ts' as [|uc' [|lc' [|]]]; try contradiction. cbn [close float_merge] in *.
  assert (Len : forall j, length (uppers j tss) = length tss /\ length (lowers j tss) = length tss) by (intros; unfold uppers, lowers; rewrite !map_length; auto).
  split; intros i j Hi Hj; replace i with O by lia; destruct (Hf j Hj) as [H1 H2]; destruct (HUV j) as [EU EV]; rewrite ?EU, ?EV;
    destruct (merge_ends_size _ L M tss j HM) as [S1 S2]; destruct (Len j) as [N1 N2]; specialize (Hs j Hj).
  - pose proof (merge_ends_length L (lowers j tss) (uppers j tss) ltac:(congruence)). apply (merge_error u eta k N L M); auto; try lia. lra.
  - pose proof (merge_ends_length L (uppers j tss) (lowers j tss) ltac:(congruence)). apply (merge_error u eta k N L M); auto; try lia. lra.
Qed.

Lemma float_error_pos : forall u eta k N A, 0 <= u -> 0 <= eta -> 0 <= A -> 0 <= float_error u eta k N A.
Proof.
  intros u eta k N A Hu He HA. unfold float_error. pose proof (pow_ge1 u (k + 2) Hu). pose proof (pos_INR (2 * N + 2)).
  assert (0 <= ((1 + u) ^ (k + 2) - 1) * A) by (apply Rmult_le_pos; lra). assert (0 <= INR (2 * N + 2) * (1 + u) ^ (k + 2) * eta) by (apply Rmult_le_pos; [apply Rmult_le_pos; lra|exact He]). lra.
Qed.

(** tensors of interval mode *)
Lemma ibp_close_refl : forall n m d ts, 0 <= d -> length ts = 2%nat -> close IBP n m d ts ts.
Proof. intros n m d ts Hd H. destruct ts as [|u [|l [|]]]; try discriminate. split; apply entries_close_refl; exact Hd. Qed.
Lemma ibp_layer_length : forall ke D n o L ts out, float_layer L -> lin_of L = None -> merge_op (fun _ _ => True) L = None -> decomon_layer ke (mk_spec false IBP D n) o L ts = Ok out ->
  length ts = 2%nat \/ (exists a b c e, L = NConcatenate a b c e) -> length out = 2%nat.
Proof.
  intros ke D n o L ts out HL H1 H2 E Hl. destruct L; try contradiction; try discriminate H1; try discriminate H2; clear H1 H2.
  all: try match goal with |- _ => destruct Hl as [Hl|(? & ? & ? & ? & Hl)]; [|discriminate Hl]; destruct ts as [|uc [|lc [|]]]; try discriminate Hl end.
  - injection E as <-. reflexivity.
  - injection E as <-. reflexivity.
  - injection E as <-. reflexivity.
  - injection E as <-. reflexivity.
  - destruct HL as [-> | ->]; [injection E as <-; reflexivity|]. cbn in E. injection E as <-. reflexivity.
  - cbn [decomon_layer] in E. unfold decomon_max_pooling in E. destruct (pool_init _ _); [|discriminate]. cbn [bind] in E. destruct (lo_fast o).
    + cbn in E. injection E as <-. reflexivity.
    + unfold pool_not_fast in E. cbn [get_fullinputs bind] in E. unfold op_max in E. cbn [bind] in E.
      destruct (get_fullinputs _ _ _ _) in E; [|discriminate]. cbn [bind] in E. unfold op_max in E. destruct (get_fullinputs _ _ _ _) in E; [|discriminate]. cbn [bind] in E.
      destruct (b_axis _ _); [|discriminate]. cbn in E. injection E as <-. reflexivity.
  - cbn [decomon_layer] in E. unfold decomon_concatenate in E. destruct (get_fullinputs_by_type _ _ _ _); [|discriminate]. cbn [bind] in E.
    destruct (b_axis _ _); [|discriminate]. cbn in E. injection E as <-. reflexivity.
Qed.

Lemma float_piecewise : forall L, float_layer L -> nl_piecewise L.
Proof. intros L H. destruct L; try contradiction; cbn in *; auto. Qed.

Lemma float_lengths : forall op dot ke n opts net o z r, net_ok n net -> (forall i L ps, nth_error net i = Some (Some L, ps) -> float_layer L) ->
  float_run op dot ke n opts net o z r -> forall i, (i < length net)%nat -> length (r_nodes r i) = 2%nat.
Proof.
  intros op dot ke n opts net o z r Hnet Hfl (H1 & H2 & H3) i. induction (lt_wf i) as [i _ IH]. intros Hi. destruct (nth_error net i) as [[q ps]|] eqn:En; [|apply nth_error_None in En; lia].
  specialize (H2 i q ps En). destruct (Hnet i q ps En) as [Hp Hq]. destruct q as [L|].
  - destruct Hq as [_ Hq]. specialize (Hfl i L ps En). destruct (lin_of L) as [F|] eqn:HF; [|destruct (merge_op op L) as [M|] eqn:HM].
    + unfold float_linear in H2. destruct (concat (map (r_nodes r) ps)) as [|? [|? [|]]]; try contradiction. destruct (r_nodes r i) as [|? [|? [|]]]; try contradiction. reflexivity.
    + unfold float_merge in H2. destruct (r_nodes r i) as [|? [|? [|]]]; try contradiction. reflexivity.
    + assert (HM' : merge_op (fun _ _ => True) L = None) by (destruct L; try discriminate HM; reflexivity).
      apply (ibp_layer_length _ _ _ _ _ _ _ Hfl HF HM' H2). destruct L; try contradiction; try discriminate HF; try discriminate HM; try (right; do 4 eexists; reflexivity); left;
        (destruct ps as [|p [|]]; try discriminate Hq; cbn [map concat]; rewrite app_nil_r; apply IH; [apply Hp; left; reflexivity|]; specialize (Hp p (or_introl eq_refl)); lia).
  - rewrite H2. clear - H1. cbn in H1. injection H1 as <-. reflexivity.
Qed.

Lemma float_rounded : forall u eta k N ke n opts net o z r A,
  0 <= u -> 0 <= eta -> 0 <= A -> net_ok n net -> (forall i L ps, nth_error net i = Some (Some L, ps) -> float_layer L) -> (o < length net)%nat ->
  merges_within (Nat.min k N) net -> float_run (rounded u eta) (any_order (rounded u eta) k N) ke n opts net o z r -> run_size A net r ->
  rounded_run ke Box n IBP IBP opts net o z (float_error u eta k N A) r.
Proof.
  intros u eta k N ke n opts net o z r A Hu He HA Hnet Hfl Ho Hmw Hr Hs. pose proof (float_error_pos u eta k N A Hu He HA) as Hd.
  pose proof (float_lengths _ _ _ _ _ _ _ _ _ Hnet Hfl Hr) as Len. destruct Hr as (H1 & H2 & H3).
  split; [|split].
  - intros its E. rewrite E in H1. injection H1 as ->. apply ibp_close_refl; [exact Hd|]. cbn in E. injection E as <-. reflexivity.
  - intros i q ps En. specialize (H2 i q ps En). destruct q as [L|]; [|exact H2]. intros out E. specialize (Hfl i L ps En).
    assert (Hi : (i < length net)%nat) by (apply nth_error_Some; rewrite En; discriminate).
    specialize (Hs i L ps En). destruct (lin_of L) as [F|] eqn:HF; [|destruct (merge_op (rounded u eta) L) as [M|] eqn:HM].
    + apply (float_linear_close u eta k N ke Box n (opts i) L F (concat (map (r_nodes r) ps))); auto.
    + destruct (merge_any _ (fun _ _ => True) L M HM) as (M' & HM'). rewrite HM' in Hs. specialize (Hmw i L ps En ltac:(rewrite HM'; discriminate)).
      pose proof (Nat.le_min_l k N). pose proof (Nat.le_min_r k N). destruct (Hnet i _ ps En) as [Hp [Hne Hq]].
      apply (float_merge_close u eta k N ke Box n (opts i) L M (map (r_nodes r) ps)); auto; rewrite ?map_length; try lia.
      * rewrite <- Hq, map_length. reflexivity.
      * destruct ps; [contradiction Hne; reflexivity|discriminate].
      * intros ts Hts. apply in_map_iff in Hts. destruct Hts as (p & <- & Hin). apply Len. specialize (Hp p Hin). lia.
      * intros j Hj. rewrite map_map. exact (Hs j Hj).
    + rewrite E in H2. injection H2 as ->. apply ibp_close_refl; [exact Hd|]. apply Len. exact Hi.
  - intros out E. rewrite E in H3. injection H3 as ->. apply ibp_close_refl; [exact Hd|]. pose proof (Len o Ho) as Lo.
    destruct (r_nodes r o) as [|? [|? [|]]]; try discriminate. cbn in E. injection E as <-. reflexivity.
Qed.

Lemma float_values_rounded : forall u eta k N n net y a A, 0 <= u -> 0 <= eta -> 0 <= A -> net_ok n net -> merges_within (Nat.min k N) net ->
  float_values (rounded u eta) (any_order (rounded u eta) k N) net y a -> values_size A net a -> rounded_values net (float_error u eta k N A) y a.
Proof.
  intros u eta k N n net y a A Hu He HA Hnet Hmw Hf Hs i q ps En. pose proof (float_error_pos u eta k N A Hu He HA) as Hd.
  specialize (Hf i q ps En). destruct q as [L|]; [|exact Hf]. specialize (Hs i L ps En).
  destruct (lin_of L) as [F|] eqn:HF; [|destruct (merge_op (rounded u eta) L) as [M|] eqn:HM].
  - destruct Hf as (x & Ex & Hx). rewrite Ex.
    exists (fun j => rsum (ln_d F) (fun c => px x (ln_src F j c) * ln_w F j c) + opt_vec 0 (ln_bias F) (ln_unit F j)). split.
    + apply (lin_computes L F); [exact HF|]. reflexivity.
    + destruct (lin_exact 0 Box n (mk_opts V_SLOPE None false) L F empty_tensor empty_tensor HF) as (_ & _ & _ & Eo & _). rewrite <- Eo. intros j Hj. destruct (Hx j Hj) as (p & Hp & Hb).
      apply (keras_neuron_error u eta k N (ln_d F) (ln_w F j) (fun c => px x (ln_src F j c)) (ln_bias F) (ln_unit F j) p); auto.
      specialize (Hs x Ex j Hj). unfold lin_size in Hs. eapply Rle_trans; [|exact Hs]. apply Rplus_le_compat_r. apply rsum_mono. intros c _. destruct (ln_src F j c); cbn [px]; [|rewrite Rabs_R0]; lra.
  - destruct (merge_any _ (fun _ _ => True) L M HM) as (M' & HM'). rewrite HM' in Hs. specialize (Hmw i L ps En ltac:(rewrite HM'; discriminate)).
    destruct (Hnet i _ ps En) as [Hp [Hne Hq]]. exists (fun j => merge_exact L (map (fun p => a p j) ps)). split.
    + apply (merge_computes _ L M _ _ HM); [rewrite <- Hq, !map_length; reflexivity|]. intros j Hj. rewrite map_map. reflexivity.
    + intros j Hj. apply (merge_error u eta k N L M); auto; rewrite ?map_length; try lia. rewrite map_map. exact (Hs j Hj).
  - exists (a i). split; [exact Hf|]. intros j _. rewrite Rminus_diag_eq, Rabs_R0 by reflexivity. exact Hd.
Qed.

(** the bounds of forward-ibp in floating point, for the network on real numbers and for the network in floating point *)
Lemma float_bounds : forall u eta k N ke n opts net v o z r A,
  0 <= u -> 0 <= eta -> 0 <= A -> (0 < n)%nat -> net_ok n net -> net_value net v -> layers_ok IBP opts net -> (o < length net)%nat ->
  (forall i L ps, nth_error net i = Some (Some L, ps) -> float_layer L) ->
  merges_within (Nat.min k N) net -> float_run (rounded u eta) (any_order (rounded u eta) k N) ke n opts net o z r -> run_size A net r ->
  exists U L, r_out r = [U; L] /\ forall y j, in_dom Box n z y -> (j < net_dim n net o)%nat ->
    L 0%nat j - (net_error net + 1) * float_error u eta k N A <= v o y j <= U 0%nat j + (net_error net + 1) * float_error u eta k N A.
Proof.
  intros u eta k N ke n opts net v o z r A Hu He HA Hn Hnet Hval Hlay Ho Hfl Hmw Hr Hs.
  apply (rounded_ibp ke Box n z opts net v o (float_error u eta k N A) r); auto; try exact I.
  - intros i L ps E. apply float_piecewise. eapply Hfl. exact E.
  - apply float_error_pos; assumption.
  - apply float_rounded; assumption.
Qed.
Lemma float_predictions : forall u eta k N ke n opts net v o z r A A' y a,
  0 <= u -> 0 <= eta -> 0 <= A -> 0 <= A' -> (0 < n)%nat -> net_ok n net -> net_value net v -> layers_ok IBP opts net -> (o < length net)%nat ->
  (forall i L ps, nth_error net i = Some (Some L, ps) -> float_layer L) ->
  merges_within (Nat.min k N) net -> float_run (rounded u eta) (any_order (rounded u eta) k N) ke n opts net o z r -> run_size A net r -> in_dom Box n z y ->
  float_values (rounded u eta) (any_order (rounded u eta) k N) net y a -> values_size A' net a ->
  exists U L, r_out r = [U; L] /\ forall j, (j < net_dim n net o)%nat ->
    L 0%nat j - (net_error net + 1) * (float_error u eta k N A + float_error u eta k N A') <= a o j <= U 0%nat j + (net_error net + 1) * (float_error u eta k N A + float_error u eta k N A').
Proof.
  intros u eta k N ke n opts net v o z r A A' y a Hu He HA HA' Hn Hnet Hval Hlay Ho Hfl Hmw Hr Hs Hy Ha Hsa.
  assert (Hpw : forall i L ps, nth_error net i = Some (Some L, ps) -> nl_piecewise L) by (intros i L ps E; apply float_piecewise; eapply Hfl; exact E).
  assert (G : forall e, 0 < e -> exists U L, r_out r = [U; L] /\ forall j, (j < net_dim n net o)%nat ->
    L 0%nat j - (net_error net + 1) * (e + float_error u eta k N A * reach IBP n 0 + float_error u eta k N A') <= a o j <= U 0%nat j + (net_error net + 1) * (e + float_error u eta k N A * reach IBP n 0 + float_error u eta k N A')).
  { intros e Hep. apply (rounded_network e Box n IBP z opts net v o (float_error u eta k N A) (float_error u eta k N A') 0 r y a); auto using float_error_pos; try exact I; try lra.
    - intros F. contradiction F. reflexivity.
    - apply (run_no_epsilon ke); [exact Hpw|]. apply float_rounded; assumption.
    - eapply float_values_rounded; eauto. }
  destruct (G 1 ltac:(lra)) as (U & L & E & _). exists U, L. split; [exact E|]. intros j Hj. cbn [reach] in G.
  pose proof (net_error_pos net) as Kp. set (K := net_error net + 1) in *. set (F := float_error u eta k N A) in *. set (F' := float_error u eta k N A') in *.
  assert (C : forall t, 0 < t -> L 0%nat j - K * (F + F') - t <= a o j <= U 0%nat j + K * (F + F') + t).
  { intros t Ht. destruct (G (t / K)) as (U' & L' & E' & B); [apply Rdiv_lt_0_compat; unfold K; lra|]. rewrite E in E'. injection E' as <- <-.
    specialize (B j Hj). replace (K * (t / K + F * 1 + F')) with (K * (F + F') + t) in B by (field; unfold K; lra). lra. }
  split; apply Rnot_lt_le; intros B.
  - specialize (C ((L 0%nat j - K * (F + F') - a o j) / 2) ltac:(lra)). lra.
  - specialize (C ((a o j - (U 0%nat j + K * (F + F'))) / 2) ltac:(lra)). lra.
Qed.
