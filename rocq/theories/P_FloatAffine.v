(** Forward-affine mode on a box in floating-point arithmetic: proofs. *)
From Coq Require Import Reals List Arith Bool ZArith Lra Lia.
From Flocq Require Import Core.
From Verif Require Import RLib Spec Spec_Layers Spec_Near Spec_Rounding Spec_Float Spec_FloatMerge Spec_FloatAffine M_Core M_Utils M_MergeLayers M_Ops M_Layers M_Backward M_Convert M_Network M_Rounding M_Float M_FloatHull M_FloatAffine.
From Verif Require Import P_Core P_Utils P_Convert P_Near P_Network P_NetworkForward P_Rounding P_Float P_FloatThm P_FloatMerge P_FloatHull.
From Verif Require Import Spec_Network.
Import ListNotations.
Local Open Scope R_scope.

(** ** the hull *)
Lemma fl_hull_near : forall ke sl ft u l h z e B, 0 < ke -> eta32 <= u32 * ke -> rnd32 u = u -> (forall g, ft = Some g -> 0 <= g <= 1) ->
  fl_hull_relu op32 ke sl ft u l h -> Rabs u <= B -> Rabs l <= B -> 0 <= e -> l - e <= z <= u + e ->
  0 <= h_wu h <= 1 /\ 0 <= h_wl h <= 1 /\ h_bl h = 0 /\ Rabs (h_bu h) <= 2 * B + 3 * eta32 /\
  h_wl h * z <= Rrelu z /\ Rrelu z <= h_wu h * z + h_bu h + e + (2 * ke + 10 * u32 * B + (9 + 4 * B) * eta32).
Proof.
  intros ke sl ft u l h z e B Hke Hek Hu Hg Hh HuB HlB He Hz.
  assert (M8 : 0 <= u32 <= / 8) by (unfold u32; pose proof (bpow_gt_0 radix2 (-24)); split; [lra|]; change (/ 8) with (bpow radix2 (-3)); apply bpow_le; lia).
  assert (E0 : 0 <= eta32) by (unfold eta32; apply bpow_ge_0).
  assert (B0 : 0 <= B) by (pose proof (Rabs_pos u); lra).
  assert (mB : 0 <= u32 * B) by (apply Rmult_le_pos; lra). assert (eB : 0 <= B * eta32) by (apply Rmult_le_pos; lra).
  apply abs_le in HuB. apply abs_le in HlB.
  pose proof (hull_upper op32 u32 eta32 ke sl ft u l h) as HU. 
  assert (HL : forall x, l <= x <= u -> h_wl h * x + h_bl h <= Rmax x 0) by (intros x Hx; exact (hull_lower32 ke sl ft u l h x Hke Hu Hg Hh Hx)).
  specialize (fun x => HU x op32_rounded M8 E0 Hke Hek). 
  assert (HU' : forall x, u <= 0 \/ 0 <= l \/ ke <= (1 - u32) * (u - l) - eta32 -> l <= x <= u -> Rmax x 0 <= h_wu h * x + h_bu h + (10 * u32 * Rmax u 0 + (6 + 2 * (u - l)) * eta32)) by (intros x C Hx; exact (HU x C Hh Hx)).
  clear HU. rename HU' into HU.
  destruct Hh as (n & d & a & q & b & w & w' & O1 & O2 & O3 & O4 & O5 & O6 & O7 & ->). cbn [h_wu h_bu h_wl h_bl] in *.
  destruct (Rle_lt_dec 0 l) as [L|L].
  { rewrite (index_linear_1 l L) in *. unfold Rrelu. replace ((1 - 1) * ((1 - index_dead u) * a) + 1) with 1 by ring. replace ((1 - 1) * ((1 - index_dead u) * w') + 1) with 1 by ring. replace ((1 - 1) * ((1 - index_dead u) * b)) with 0 by ring.
    rewrite Rabs_R0. unfold Rmax. destruct (Rle_dec z 0); repeat split; try lra. }
  rewrite (index_linear_0 l L) in *. destruct (Rle_lt_dec u 0) as [U|U].
  { rewrite (index_dead_1 u U) in *. unfold Rrelu. replace ((1 - 0) * ((1 - 1) * a) + 0) with 0 by ring. replace ((1 - 0) * ((1 - 1) * w') + 0) with 0 by ring. replace ((1 - 0) * ((1 - 1) * b)) with 0 by ring.
    rewrite Rabs_R0. unfold Rmax. destruct (Rle_dec z 0); repeat split; try lra. }
  rewrite (index_dead_0 u U) in *. replace ((1 - 0) * ((1 - 0) * a) + 0) with a in * by ring. replace ((1 - 0) * ((1 - 0) * w') + 0) with w' in * by ring. replace ((1 - 0) * ((1 - 0) * b)) with b in * by ring.
  assert (A1 : 0 <= a <= 1).
  { unfold op32, fop in O1, O2, O3. rewrite (Rmax_left u 0), (Rmax_right l 0), Rminus_0_r in O1 by lra. rewrite Hu in O1. subst n.
    assert (D : u <= d) by (rewrite O2, <- Hu at 1; apply rnd32_mono; lra). assert (D0 : 0 < Rmax ke d) by (pose proof (Rmax_l ke d); lra). assert (D1 : u <= Rmax ke d) by (pose proof (Rmax_r ke d); lra).
    rewrite O3. apply rnd01. assert (I : 0 < / Rmax ke d) by (apply Rinv_0_lt_compat; exact D0). split; [apply Rmult_le_pos; lra|].
    apply (Rmult_le_reg_r (Rmax ke d)); [exact D0|]. unfold Rdiv. rewrite Rmult_assoc, Rinv_l by lra. lra. }
  assert (W1 : 0 <= w' <= 1).
  { destruct (slope_cases _ _ _ _ _ O6) as [C|[-> ->]]; [exact (gamma_01 ft w w' C Hg O7)|]. apply (gamma_float ft a w'); auto. unfold op32, fop in O3. rewrite O3. apply rnd32_idem. }
  apply op32_rounded in O4, O5. rewrite (Rmax_right l 0) in O5 by lra.
  assert (AL : Rabs (a * l) <= - l). { rewrite Rabs_mult, (Rabs_right a), (Rabs_left l) by lra. nra. }
  apply (rounded_at _ _ _ _ _ (proj1 M8) AL) in O4. apply abs_le in AL.
  assert (ml : 0 <= u32 * - l <= / 8 * - l) by (split; [apply Rmult_le_pos; lra|apply Rmult_le_compat_r; lra]).
  assert (QB : Rabs (0 - q) <= 9 / 8 * - l + eta32) by (apply le_abs; lra).
  apply (rounded_at _ _ _ _ _ (proj1 M8) QB) in O5.
  assert (me : 0 <= u32 * eta32 <= / 8 * eta32) by (split; [apply Rmult_le_pos; lra|apply Rmult_le_compat_r; lra]).
  assert (BB : Rabs b <= 2 * B + 3 * eta32). { apply le_abs. replace (u32 * (9 / 8 * - l + eta32)) with (9 / 8 * (u32 * - l) + u32 * eta32) in O5 by ring. lra. }
  split; [exact A1|]. split; [exact W1|]. split; [reflexivity|]. split; [exact BB|]. split; [unfold Rrelu, Rmax; destruct (Rle_dec z 0); nra|].
  (* above *)
  set (M := 2 * ke + 10 * u32 * B + (9 + 4 * B) * eta32).
  assert (K : forall x, l <= x <= u -> Rmax x 0 <= a * x + b + M).
  { intros x Hx. destruct (Rle_lt_dec ke ((1 - u32) * (u - l) - eta32)) as [C|C].
    - pose proof (HU x (or_intror (or_intror C)) Hx) as Q. rewrite (Rmax_left u 0) in Q by lra. unfold M.
      assert (u32 * u <= u32 * B) by (apply Rmult_le_compat_l; lra). assert ((u - l) * eta32 <= (2 * B) * eta32) by (apply Rmult_le_compat_r; lra). lra.
    - assert (UL : u - l <= 13 / 10 * ke). { assert (u32 * (u - l) <= / 8 * (u - l)) by (apply Rmult_le_compat_r; lra). assert (u32 * ke <= / 8 * ke) by (apply Rmult_le_compat_r; lra). lra. }
      assert (R1 : Rmax x 0 <= u) by (apply Rmax_lub; lra).
      assert (R2 : a * l <= a * x) by (apply Rmult_le_compat_l; lra).
      replace (u32 * (9 / 8 * - l + eta32)) with (9 / 8 * (u32 * - l) + u32 * eta32) in O5 by ring.
      unfold M. lra. }
  assert (M0 : 0 <= M) by (unfold M; lra). unfold Rrelu.
  destruct (Rlt_le_dec z l) as [Z|Z].
  - rewrite Rmax_right by lra. specialize (K l ltac:(lra)). rewrite Rmax_right in K by lra. assert (a * (l - z) <= 1 * (l - z)) by (apply Rmult_le_compat_r; lra). lra.
  - destruct (Rlt_le_dec u z) as [Z'|Z'].
    + rewrite Rmax_left by lra. specialize (K u ltac:(lra)). rewrite Rmax_left in K by lra. assert (a * u <= a * z) by (apply Rmult_le_compat_l; lra). lra.
    + specialize (K z ltac:(lra)). lra.
Qed.

(** ** the bounds of a line over the box *)
Lemma Rmax_min_abs : forall w, Rabs (Rmax w 0) + Rabs (Rmin w 0) = Rabs w.
Proof. intros w. unfold Rmax, Rmin. destruct (Rle_dec w 0); rewrite Rabs_R0; lra. Qed.
Lemma fl_bound_error : forall u eta k N n (a b w : vec) c y X A, 0 <= u -> 0 <= eta -> (forall i, (i < n)%nat -> Rabs (a i) <= X /\ Rabs (b i) <= X) ->
  fl_bound (rounded u eta) (any_order (rounded u eta) k N) n a b w c y -> rsum n (fun i => Rabs (w i) * X) + Rabs c <= A ->
  Rabs (y - (rsum n (fun i => Rmax (w i) 0 * a i + Rmin (w i) 0 * b i) + c)) <= float_error u eta k N A.
Proof.
  intros u eta k N n a b w c y X A Hu He HX (s & Hs & Hy) HA.
  set (xs := fun i => if i <? n then a i else b (i - n)%nat) in *. set (ws := fun i => if i <? n then Rmax (w i) 0 else Rmin (w (i - n)%nat) 0) in *.
  pose proof (keras_neuron_error u eta k N (n + n) ws xs (Some (fun _ => c)) 0 s y A Hu He Hs Hy) as Q. cbn [opt_vec] in Q.
  assert (E1 : rsum (n + n) (fun i => xs i * ws i) = rsum n (fun i => Rmax (w i) 0 * a i + Rmin (w i) 0 * b i)).
  { rewrite rsum_app, rsum_plus. f_equal; apply rsum_ext; intros i Hi; unfold xs, ws.
    - assert (E : (i <? n) = true) by (apply Nat.ltb_lt; lia). rewrite E. ring.
    - assert (E : (n + i <? n) = false) by (apply Nat.ltb_ge; lia). rewrite E. replace (n + i - n)%nat with i by lia. ring. }
  assert (E2 : rsum (n + n) (fun i => Rabs (ws i) * Rabs (xs i)) <= rsum n (fun i => Rabs (w i) * X)).
  { rewrite rsum_app, <- rsum_plus. apply rsum_le. intros i Hi. unfold xs, ws.
    assert (E : (i <? n) = true) by (apply Nat.ltb_lt; lia). rewrite E. assert (E' : (n + i <? n) = false) by (apply Nat.ltb_ge; lia). rewrite E'. replace (n + i - n)%nat with i by lia.
    rewrite <- (Rmax_min_abs (w i)), Rmult_plus_distr_r. destruct (HX i Hi). apply Rplus_le_compat; apply Rmult_le_compat_l; auto; apply Rabs_pos. }
  rewrite E1 in Q. apply Q. lra.
Qed.
Lemma fl_bound_size : forall n (a b w : vec) c X A, (forall i, (i < n)%nat -> Rabs (a i) <= X /\ Rabs (b i) <= X) -> rsum n (fun i => Rabs (w i) * X) + Rabs c <= A ->
  Rabs (rsum n (fun i => Rmax (w i) 0 * a i + Rmin (w i) 0 * b i) + c) <= A.
Proof.
  intros n a b w c X A HX HA. eapply Rle_trans; [apply Rabs_triang|]. eapply Rle_trans; [|exact HA]. apply Rplus_le_compat_r. eapply Rle_trans; [apply rsum_Rabs|]. apply rsum_le. intros i Hi.
  eapply Rle_trans; [apply Rabs_triang|]. rewrite !Rabs_mult. rewrite <- (Rmax_min_abs (w i)), Rmult_plus_distr_r. destruct (HX i Hi). apply Rplus_le_compat; apply Rmult_le_compat_l; auto; apply Rabs_pos.
Qed.
Lemma fl_bound32 : forall k N n a b w c y, fl_bound op32 (any_order op32 k N) n a b w c y -> fl_bound (rounded u32 eta32) (any_order (rounded u32 eta32) k N) n a b w c y.
Proof.
  intros k N n a b w c y (s & (t & P & K1 & K2 & V) & O). exists s. split; [|exact (op32_rounded _ _ O)]. exists t. repeat (split; [assumption|]). exact (dot_value_impl op32 (rounded u32 eta32) op32_rounded _ _ _ _ V).
Qed.

(** ** relu *)
Section Relu.
Variables (ke X A : R) (k N n : nat) (S : vec -> Prop).
Hypothesis Hke : 0 < ke.
Hypothesis Hek : eta32 <= u32 * ke.
Hypothesis HX0 : 0 <= X.
Notation d32 := (float_error u32 eta32 k N A).

Lemma u32_8 : 0 <= u32 <= / 8.
Proof using. clear. unfold u32. pose proof (bpow_gt_0 radix2 (-24)). split; [lra|]. change (/ 8) with (bpow radix2 (-3)). apply bpow_le. lia. Qed.
Lemma eta32_pos : 0 <= eta32.
Proof using. clear. unfold eta32. apply bpow_ge_0. Qed.

(** scaling a line, in floating point *)
Lemma fl_line : forall (w w' : mat) b b' p c e z j B, 0 <= c <= 1 -> (forall i, (i < n)%nat -> Rabs (z i) <= X) -> (forall i, (i < n)%nat -> op32 (c * w i j) (w' i j)) ->
  op32 (c * b) p -> op32 (p + e) b' -> rsum n (fun i => Rabs (w i j) * X) + Rabs b <= B -> Rabs e <= 2 * B + 3 * eta32 ->
  Rabs (rsum n (fun i => w' i j * z i) + b' - (c * (rsum n (fun i => w i j * z i) + b) + e)) <= 5 * u32 * B + (5 + INR n * X) * eta32.
Proof using HX0.
  intros w w' b b' p c e z j B Hc Hz Hw Hp Hb HB HE. pose proof u32_8 as M8. pose proof eta32_pos as E0.
  assert (R0 : 0 <= rsum n (fun i => Rabs (w i j) * X)) by (apply rsum_ge0; intros; apply Rmult_le_pos; [apply Rabs_pos|exact HX0]).
  assert (W : Rabs (rsum n (fun i => w' i j * z i) - c * rsum n (fun i => w i j * z i)) <= u32 * rsum n (fun i => Rabs (w i j) * X) + INR n * (eta32 * X)).
  { rewrite <- rsum_scal, <- rsum_minus, <- (rsum_const n (eta32 * X)), <- rsum_scal, <- rsum_plus. eapply Rle_trans; [apply rsum_Rabs|]. apply rsum_le. intros i Hi.
    replace (w' i j * z i - c * (w i j * z i)) with ((w' i j - c * w i j) * z i) by ring. rewrite Rabs_mult. specialize (Hw i Hi). apply op32_rounded in Hw.
    assert (CW : Rabs (c * w i j) <= Rabs (w i j)). { rewrite Rabs_mult, (Rabs_right c) by lra. pose proof (Rabs_pos (w i j)). nra. }
    apply (rounded_at _ _ _ _ _ (proj1 M8) CW) in Hw. apply le_abs in Hw. 
    replace (u32 * (Rabs (w i j) * X) + eta32 * X) with ((u32 * Rabs (w i j) + eta32) * X) by ring. apply Rmult_le_compat; auto; apply Rabs_pos. }
  apply op32_rounded in Hp, Hb.
  assert (CB : Rabs (c * b) <= Rabs b). { rewrite Rabs_mult, (Rabs_right c) by lra. pose proof (Rabs_pos b). nra. }
  apply (rounded_at _ _ _ _ _ (proj1 M8) CB) in Hp. apply abs_le in CB.
  assert (mb : 0 <= u32 * Rabs b <= / 8 * Rabs b) by (pose proof (Rabs_pos b); split; [apply Rmult_le_pos; lra|apply Rmult_le_compat_r; lra]).
  assert (B0 : 0 <= B) by (pose proof (Rabs_pos b); lra).
  apply abs_le in HE. 
  assert (PE : Rabs (p + e) <= 9 / 8 * Rabs b + 2 * B + 4 * eta32) by (apply le_abs; lra).
  apply (rounded_at _ _ _ _ _ (proj1 M8) PE) in Hb. apply abs_le in W. apply le_abs.
  replace (INR n * (eta32 * X)) with (INR n * X * eta32) in W by ring.
  assert (mR : u32 * rsum n (fun i => Rabs (w i j) * X) + u32 * Rabs b <= u32 * B) by (rewrite <- Rmult_plus_distr_l; apply Rmult_le_compat_l; lra).
  assert (mBb : u32 * Rabs b <= u32 * B) by (apply Rmult_le_compat_l; lra).
  assert (mr : 0 <= u32 * rsum n (fun i => Rabs (w i j) * X)) by (apply Rmult_le_pos; lra).
  assert (me : 0 <= u32 * eta32 <= / 8 * eta32) by (split; [apply Rmult_le_pos; lra|apply Rmult_le_compat_r; lra]).
  assert (mB : 0 <= u32 * B) by (apply Rmult_le_pos; lra).
  assert (nX : 0 <= INR n * X * eta32) by (apply Rmult_le_pos; [apply Rmult_le_pos; [apply pos_INR|exact HX0]|exact E0]).
  replace (u32 * (9 / 8 * Rabs b + 2 * B + 4 * eta32)) with (9 / 8 * (u32 * Rabs b) + 2 * (u32 * B) + 4 * (u32 * eta32)) in Hb by ring.
  rewrite Rmult_plus_distr_l. lra.
Qed.

Lemma relu_affine_near : forall m sl ft x wu bu wl bl ts' f e, 0 <= e -> ft_ok m ft ->
  (forall z, S z -> in_dom Box n x z) -> (forall i, (i < n)%nat -> Rabs (x 0%nat i) <= X /\ Rabs (x 1%nat i) <= X) ->
  (forall j, (j < m)%nat -> line_size n X wu (bu 0%nat) j <= A /\ line_size n X wl (bl 0%nat) j <= A) ->
  affine_near S n m e f wu (bu 0%nat) wl (bl 0%nat) ->
  float_relu_affine op32 (any_order op32 k N) ke n m sl ft [x; wu; bu; wl; bl] ts' ->
  exists wu' bu' wl' bl', ts' = [x; wu'; bu'; wl'; bl'] /\
    affine_near S n m (2 * e + relu_error u32 eta32 k N ke n X A) (fun z j => Rrelu (f z j)) wu' (bu' 0%nat) wl' (bl' 0%nat).
Proof using Hke Hek HX0.
  intros m sl ft x wu bu wl bl ts' f e He Hft Hx HX HA Hn H. cbn [float_relu_affine] in H.
  destruct ts' as [|x' [|wu' [|bu' [|wl' [|bl' [|]]]]]]; try contradiction. destruct H as [-> H]. exists wu', bu', wl', bl'. split; [reflexivity|].
  intros z j Hz Hj. destruct (H j Hj) as (u & l & h & p & q & HU & HL & Hh & Hw & Hp & Hbu & Hq & Hbl). destruct (HA j Hj) as [AU AL]. specialize (Hn z j Hz Hj). unfold line_size in AU, AL.
  pose proof u32_8 as M8. pose proof eta32_pos as E0.
  assert (HX' : forall i, (i < n)%nat -> Rabs (x 1%nat i) <= X /\ Rabs (x 0%nat i) <= X) by (intros i Hi; destruct (HX i Hi); auto).
  assert (FU : rnd32 u = u) by (destruct HU as (s & _ & ->); apply rnd32_idem).
  pose proof (fl_bound_error u32 eta32 k N n _ _ _ _ u X A (proj1 M8) E0 HX' (fl_bound32 _ _ _ _ _ _ _ _ HU) AU) as EU.
  pose proof (fl_bound_error u32 eta32 k N n _ _ _ _ l X A (proj1 M8) E0 HX (fl_bound32 _ _ _ _ _ _ _ _ HL) AL) as EL.
  pose proof (fl_bound_size n _ _ _ _ X A HX' AU) as SU. pose proof (fl_bound_size n _ _ _ _ X A HX AL) as SL.
  pose proof (get_upper_box_sound n _ _ wu (bu 0%nat) z j (Hx z Hz)) as UU. pose proof (get_lower_box_sound n _ _ wl (bl 0%nat) z j (Hx z Hz)) as LL.
  unfold get_upper_box in UU. unfold get_lower_box in LL. cbv beta iota in UU, LL.
  set (eu := rsum n (fun i => Rmax (wu i j) 0 * x 1%nat i + Rmin (wu i j) 0 * x 0%nat i) + bu 0%nat j) in *.
  set (el := rsum n (fun i => Rmax (wl i j) 0 * x 0%nat i + Rmin (wl i j) 0 * x 1%nat i) + bl 0%nat j) in *.
  set (d := float_error u32 eta32 k N A) in *. set (B := A + d).
  assert (d0 : 0 <= d) by (pose proof (Rabs_pos (u - eu)); lra). assert (A0 : 0 <= A) by (pose proof (Rabs_pos eu); lra).
  apply abs_le in EU. apply abs_le in EL. apply abs_le in SU. apply abs_le in SL.
  assert (UB : Rabs u <= B) by (apply le_abs; unfold B; lra). assert (LB : Rabs l <= B) by (apply le_abs; unfold B; lra).
  assert (FT : forall g, option_map (fun v : vec => v j) ft = Some g -> 0 <= g <= 1). { destruct ft as [v|]; cbn; intros g E; [injection E as <-; exact (Hft j Hj)|discriminate]. }
  destruct (fl_hull_near ke sl _ u l h (f z j) (e + d) B Hke Hek FU FT Hh UB LB ltac:(lra) ltac:(lra)) as (W1 & W2 & B2 & B1 & L & U).
  assert (Zb : forall i, (i < n)%nat -> Rabs (z i) <= X).
  { intros i Hi. destruct (HX i Hi) as [H0 H1]. pose proof (Hx z Hz i Hi) as Q. cbn in Q. apply abs_le in H0. apply abs_le in H1. apply le_abs. lra. }
  assert (AUB : rsum n (fun i => Rabs (wu i j) * X) + Rabs (bu 0%nat j) <= B) by (unfold B; lra). assert (ALB : rsum n (fun i => Rabs (wl i j) * X) + Rabs (bl 0%nat j) <= B) by (unfold B; lra).
  pose proof (fl_line wu wu' (bu 0%nat j) (bu' 0%nat j) p (h_wu h) (h_bu h) z j B W1 Zb (fun i Hi => proj1 (Hw i Hi)) Hp Hbu AUB B1) as CU.
  rewrite B2 in Hbl. pose proof (fl_line wl wl' (bl 0%nat j) (bl' 0%nat j) q (h_wl h) 0 z j B W2 Zb (fun i Hi => proj2 (Hw i Hi)) Hq Hbl ALB ltac:(rewrite Rabs_R0; unfold B; lra)) as CL.
  apply abs_le in CU. apply abs_le in CL. unfold aff, RLib.dot in *. unfold relu_error. fold d. fold B.
  assert (uB : 0 <= u32 * B) by (apply Rmult_le_pos; unfold B; lra). assert (Be : 0 <= B * eta32) by (apply Rmult_le_pos; unfold B; lra).
  assert (nX : 0 <= INR n * X * eta32) by (apply Rmult_le_pos; [apply Rmult_le_pos; [apply pos_INR|exact HX0]|exact E0]).
  split.
  - assert (h_wl h * (rsum n (fun i => wl i j * z i) + bl 0%nat j - e) <= h_wl h * f z j) by (apply Rmult_le_compat_l; lra). assert (h_wl h * e <= 1 * e) by (apply Rmult_le_compat_r; lra). lra.
  - assert (h_wu h * f z j <= h_wu h * (rsum n (fun i => wu i j * z i) + bu 0%nat j + e)) by (apply Rmult_le_compat_l; lra). assert (h_wu h * e <= 1 * e) by (apply Rmult_le_compat_r; lra). lra.
Qed.
End Relu.

(** ** Dense and Conv2D *)
Definition lin_value (F : lin) (a b : vec) (j : nat) : R :=
  rsum (ln_d F) (fun c => px a (ln_src F j c) * Rmax 0 (ln_w F j c)) + rsum (ln_d F) (fun c => px b (ln_src F j c) * Rmin 0 (ln_w F j c)).
Lemma lin_exact_affine : forall ke n o L F x wu bu wl bl, lin_of L = Some F -> exists wu' bu' wl' bl',
  decomon_layer ke (mk_spec false AFFINE Box n) o L [x; wu; bu; wl; bl] = Ok [x; wu'; bu'; wl'; bl'] /\ ln_out F = nl_out L /\
  forall j, (forall i, wu' i j = lin_value F (wu i) (wl i) j /\ wl' i j = lin_value F (wl i) (wu i) j) /\
            bu' 0%nat j = lin_value F (bu 0%nat) (bl 0%nat) j + opt_vec 0 (ln_bias F) (ln_unit F j) /\
            bl' 0%nat j = lin_value F (bl 0%nat) (bu 0%nat) j + opt_vec 0 (ln_bias F) (ln_unit F j).
Proof.
  intros ke n o L F x wu bu wl bl H. destruct L; try discriminate H; injection H as <-; cbn [decomon_layer nl_out ln_out].
  - destruct bias as [v|]; cbn; do 4 eexists; (split; [reflexivity|]); (split; [reflexivity|]); intros j; unfold lin_value; cbn [ln_d ln_src ln_w ln_bias ln_unit px opt_vec]; unfold tbias, tile, tadd, ew2, kdot, kpos, kneg;
      (split; [intros i; split; reflexivity|]); split; try reflexivity; rewrite Rplus_0_r; reflexivity.
  - destruct bias as [v|]; cbn; do 4 eexists; (split; [reflexivity|]); (split; [reflexivity|]); intros j; unfold lin_value; cbn [ln_d ln_src ln_w ln_bias ln_unit opt_vec]; unfold tbias, conv_bias, tadd, ew2, kconv;
      (split; [intros i; split; rewrite !conv_lin; reflexivity|]); split; rewrite !conv_lin; try reflexivity; rewrite Rplus_0_r; reflexivity.
Qed.
Lemma lin_size_comm : forall F (a b : vec) j, lin_size F (fun c => Rmax (Rabs (b c)) (Rabs (a c))) j = lin_size F (fun c => Rmax (Rabs (a c)) (Rabs (b c))) j.
Proof. intros F a b j. unfold lin_size. f_equal. apply rsum_ext. intros c _. f_equal. destruct (ln_src F j c); [apply Rmax_comm|reflexivity]. Qed.
Lemma float_linear_affine_close : forall u eta k N ke n o L F x wu bu wl bl ts' A, 0 <= u -> 0 <= eta -> lin_of L = Some F ->
  float_linear_affine (rounded u eta) (any_order (rounded u eta) k N) n F [x; wu; bu; wl; bl] ts' ->
  (forall j, (j < ln_out F)%nat -> lin_size F (fun c => Rmax (Rabs (bu 0%nat c)) (Rabs (bl 0%nat c))) j <= A /\
     forall i, (i < n)%nat -> lin_size (no_bias F) (fun c => Rmax (Rabs (wu i c)) (Rabs (wl i c))) j <= A) ->
  exists out, decomon_layer ke (mk_spec false AFFINE Box n) o L [x; wu; bu; wl; bl] = Ok out /\ close AFFINE n (nl_out L) (float_error u eta k N A) out ts' /\
    exists wu' bu' wl' bl', ts' = [x; wu'; bu'; wl'; bl'].
Proof.
  intros u eta k N ke n o L F x wu bu wl bl ts' A Hu He HF Hf HA.
  destruct (lin_exact_affine ke n o L F x wu bu wl bl HF) as (wu0 & bu0 & wl0 & bl0 & E & Eo & HV). exists [x; wu0; bu0; wl0; bl0]. split; [exact E|].
  cbn [float_linear_affine] in Hf. destruct ts' as [|x' [|wu' [|bu' [|wl' [|bl' [|]]]]]]; try contradiction. destruct Hf as [-> Hf]. split; [|do 4 eexists; reflexivity]. cbn [close]. rewrite <- Eo.
  split; [reflexivity|].
  assert (NB : forall a b j y, float_neuron (rounded u eta) (any_order (rounded u eta) k N) (no_bias F) a b j y -> lin_size (no_bias F) (fun c => Rmax (Rabs (a c)) (Rabs (b c))) j <= A -> Rabs (y - lin_value F a b j) <= float_error u eta k N A).
  { intros a b j y H1 H2. pose proof (float_neuron_error u eta k N (no_bias F) a b j y A Hu He H1 H2) as Q. cbn [no_bias ln_d ln_src ln_w ln_bias opt_vec] in Q. rewrite Rplus_0_r in Q. exact Q. }
  assert (WB : forall a b j y, float_neuron (rounded u eta) (any_order (rounded u eta) k N) F a b j y -> lin_size F (fun c => Rmax (Rabs (a c)) (Rabs (b c))) j <= A -> Rabs (y - (lin_value F a b j + opt_vec 0 (ln_bias F) (ln_unit F j))) <= float_error u eta k N A).
  { intros a b j y H1 H2. exact (float_neuron_error u eta k N F a b j y A Hu He H1 H2). }
  split; [|split; [|split]]; intros i j Hi Hj; destruct (HV j) as (Vw & Vu & Vl); destruct (HA j Hj) as [Ab Aw]; destruct (Hf j Hj) as (Fw & Fu & Fl).
  - rewrite (proj1 (Vw i)). apply NB; [exact (proj1 (Fw i Hi))|auto].
  - replace i with O by lia. rewrite Vu. apply WB; auto.
  - rewrite (proj2 (Vw i)). apply NB; [exact (proj2 (Fw i Hi))|]. rewrite lin_size_comm. auto.
  - replace i with O by lia. rewrite Vl. apply WB; auto. rewrite lin_size_comm. exact Ab.
Qed.
Lemma float_linear_affine32 : forall k N n F ts ts', float_linear_affine op32 (any_order op32 k N) n F ts ts' -> float_linear_affine (rounded u32 eta32) (any_order (rounded u32 eta32) k N) n F ts ts'.
Proof.
  intros k N n F ts ts' H. unfold float_linear_affine in *. destruct ts as [|x [|wu [|bu [|wl [|bl [|]]]]]]; try contradiction. destruct ts' as [|x' [|wu' [|bu' [|wl' [|bl' [|]]]]]]; try contradiction.
  destruct H as [E H]. split; [exact E|]. intros j Hj. destruct (H j Hj) as (Hw & Hu & Hl).
  assert (I : forall G a b y, float_neuron op32 (any_order op32 k N) G a b j y -> float_neuron (rounded u32 eta32) (any_order (rounded u32 eta32) k N) G a b j y).
  { intros G a b y Q. eapply neuron_impl; [exact op32_rounded| |exact Q]. intros; eapply any_order_impl; [exact op32_rounded|eassumption]. }
  split; [intros i Hi; destruct (Hw i Hi); split; auto|]. split; auto.
Qed.

(** ** the layers that copy *)
Lemma copy_keeps : forall ke n o L x wu bu wl bl out, affine_layer L -> lin_of L = None -> (forall m, L <> NActivation Arelu m) ->
  decomon_layer ke (mk_spec false AFFINE Box n) o L [x; wu; bu; wl; bl] = Ok out -> exists wu' bu' wl' bl', out = [x; wu'; bu'; wl'; bl'].
Proof.
  intros ke n o L x wu bu wl bl out HL HF HR E. destruct L; try contradiction; try discriminate HF; cbn in E.
  - injection E as <-. do 4 eexists. reflexivity.
  - injection E as <-. do 4 eexists. reflexivity.
  - injection E as <-. do 4 eexists. reflexivity.
  - injection E as <-. do 4 eexists. reflexivity.
  - destruct HL as [-> | ->]; [|exfalso; exact (HR _ eq_refl)]. cbn in E. injection E as <-. do 4 eexists. reflexivity.
Qed.

(** ** networks *)
Lemma affine_run_near : forall k N ke n opts net v z r X A E,
  0 < ke -> eta32 <= u32 * ke -> (0 < n)%nat -> net_ok n net -> net_value net v -> layers_ok AFFINE opts net ->
  (forall i L ps, nth_error net i = Some (Some L, ps) -> affine_layer L) ->
  0 <= X -> (forall i, (i < n)%nat -> Rabs (z 0%nat i) <= X /\ Rabs (z 1%nat i) <= X) -> 0 <= E ->
  float_run_affine op32 (any_order op32 k N) ke n opts net z r -> affine_errors u32 eta32 k N ke n X A E net r ->
  forall i, (i < length net)%nat ->
    near Box AFFINE (in_dom Box n z) n (net_dim n net i) (slack_from 1 (firstn (Datatypes.S i) net) * (ke + E)) (v i) (r_nodes r i) /\
    exists wu bu wl bl, r_nodes r i = [z; wu; bu; wl; bl].
Proof.
  intros k N ke n opts net v z r X A E Hke Hek Hn Hnet Hval Hlay Hal HX HXz HE (Hin & Hrun) Herr.
  set (sp := mk_spec false AFFINE Box n). set (e' := ke + E). assert (He' : 0 < e') by (unfold e'; lra).
  cbn in Hin. injection Hin as Hin.
  destruct (input_tensors_ok Box AFFINE n z Hn (fun _ => I)) as (its & Ei & Vi). apply valid_near in Vi. cbn in Ei. injection Ei as <-.
  assert (DW : domain_within (in_dom Box n z) n X).
  { intros y i Hy Hi. destruct (HXz i Hi) as [H0 H1]. pose proof (Hy i Hi) as Q. cbn in Q. apply abs_le in H0. apply abs_le in H1. apply le_abs. lra. }
  intros i. induction i as [i IH] using lt_wf_ind. intros Hi.
  destruct (nth_error net i) as [[q ps]|] eqn:En; [|apply nth_error_None in En; lia].
  destruct (Hnet i q ps En) as [Hp Ho]. specialize (Hrun i q ps En). rewrite (firstn_S _ _ _ _ En), slack_from_step. cbn [fst]. unfold net_dim at 1. rewrite En.
  pose proof (slack_from_pos 1 (firstn i net) ltac:(lra)) as Hpos. destruct q as [L|].
  - destruct Ho as [Hps Hdim]. destruct (Hlay i L ps En) as [Hok Hft]. specialize (Hal i L ps En). specialize (Herr i L ps En).
    assert (P1 : exists p m, ps = [p] /\ nl_in L = [m]).
    { destruct L; try contradiction Hal; cbn [nl_in] in Hdim; (destruct ps as [|p [|]]; try discriminate Hdim; exists p; eexists; split; [reflexivity|reflexivity]). }
    destruct P1 as (p & mi & -> & Hnl). rewrite Hnl in Hdim. cbn [map] in Hdim. injection Hdim as Hdim.
    assert (Hpi : (p < i)%nat) by (apply Hp; left; reflexivity).
    destruct (IH p Hpi ltac:(lia)) as (Vp & wu & bu & wl & bl & Ep). cbn [map concat] in Hrun, Herr. rewrite Ep, app_nil_r in Hrun, Herr. specialize (Herr z wu bu wl bl eq_refl).
    set (e := slack_from 1 (firstn i net) * e'). assert (He : 0 <= e) by (unfold e; nra).
    assert (Vp' : near Box AFFINE (in_dom Box n z) n mi e (v p) [z; wu; bu; wl; bl]).
    { rewrite <- Hdim, <- Ep. eapply near_weaken; [| |exact Vp]; [|reflexivity]. unfold e. apply Rmult_le_compat_r; [lra|]. apply slack_from_firstn; [lra|lia]. }
    pose proof (Rmax_l 1 (nl_gain L)) as G1.
    assert (GE : Rmax 1 (nl_gain L) * (e + e') = Rmax 1 (nl_gain L) * (slack_from 1 (firstn i net) + 1) * e') by (unfold e; ring).
    rewrite <- GE. clear GE.
    assert (LN : exists out, decomon_layer ke sp (opts i) L [z; wu; bu; wl; bl] = Ok out /\ near_sp sp (in_dom Box n z) (nl_out L) (Rmax 1 (nl_gain L) * (e + ke)) (v i) out).
    { destruct (layer_near ke sp (in_dom Box n z) (opts i) L e [v p] [[z; wu; bu; wl; bl]] (v i) Hke Hn I eq_refl) as (out & Eo & Vo); auto.
      - destruct L; try contradiction Hal; cbn; auto.
      - rewrite Hnl. cbn [combine]. constructor; [exact Vp'|constructor].
      - rewrite Hnl. reflexivity.
      - intros y. exact (Hval y i (Some L) [p] En).
      - exists out. split; [exact Eo|exact Vo]. }
    destruct LN as (out & Eo & Vo). unfold float_call_affine in Hrun. destruct (lin_of L) as [F|] eqn:HF.
    + destruct Herr as [HE1 HA].
      destruct (float_linear_affine_close u32 eta32 k N ke n (opts i) L F z wu bu wl bl (r_nodes r i) A (proj1 u32_8) eta32_pos HF (float_linear_affine32 _ _ _ _ _ _ Hrun) HA) as (out' & Eo' & Cl & Sh).
      pose proof (eq_trans (eq_sym Eo) Eo') as Q. injection Q as <-. split; [|exact Sh].
      assert (d0 : 0 <= float_error u32 eta32 k N A \/ nl_out L = 0%nat).
      { destruct (nl_out L) eqn:Z; [right; reflexivity|left]. destruct Sh as (a1 & a2 & a3 & a4 & Sh). rewrite Sh in Cl. cbn [close] in Cl. destruct out as [|o1 [|o2 [|o3 [|o4 [|o5 [|]]]]]]; try contradiction.
        destruct Cl as (_ & _ & Cb & _). specialize (Cb 0%nat 0%nat ltac:(lia) ltac:(lia)). pose proof (Rabs_pos (a2 0%nat 0%nat - o3 0%nat 0%nat)). lra. }
      destruct d0 as [d0|Z].
      * pose proof (near_close Box AFFINE _ n (nl_out L) _ _ X _ out (r_nodes r i) d0 HX (fun _ => DW) Vo Cl) as W. cbn [reach] in W.
        eapply near_weaken; [| |exact W]; [|reflexivity]. unfold e' in *. nra.
      * rewrite Z in *. destruct Sh as (a1 & a2 & a3 & a4 & ->). cbn [near]. split; [auto|]. intros y j _ Hj. lia.
    + assert (CP : (forall m, L <> NActivation Arelu m) -> decomon_layer ke sp (opts i) L [z; wu; bu; wl; bl] = Ok (r_nodes r i) ->
               near Box AFFINE (in_dom Box n z) n (nl_out L) (Rmax 1 (nl_gain L) * (e + e')) (v i) (r_nodes r i) /\ exists wu bu wl bl, r_nodes r i = [z; wu; bu; wl; bl]).
      { intros HR E1. pose proof (eq_trans (eq_sym E1) Eo) as Q. injection Q as <-. split; [|exact (copy_keeps ke n (opts i) L z wu bu wl bl _ Hal HF HR Eo)]. eapply near_weaken; [| |exact Vo]; [|reflexivity]. unfold e' in *. nra. }
      destruct L as [| | | | | | |a m0| | | | | | | | |]; try contradiction Hal; try discriminate HF; try (apply CP; [intros; discriminate|exact Hrun]).
      destruct Hal as [-> | ->]; [apply CP; [intros; discriminate|exact Hrun]|].
      clear CP. cbn [nl_in] in Hnl. injection Hnl as <-. cbn [nl_out nl_gain] in *. destruct Herr as [HE1 HA]. destruct Vp' as [Vx Va].
      destruct (relu_affine_near ke X A k N n (in_dom Box n z) Hke Hek HX m0 (lo_slope (opts i)) (lo_ft (opts i)) z wu bu wl bl (r_nodes r i) (v p) e He Hft Vx HXz HA Va Hrun) as (wu' & bu' & wl' & bl' & Er & Vr).
      split; [|rewrite Er; do 4 eexists; reflexivity]. rewrite Er. cbn [near]. split; [auto|]. intros y j Hy Hj. specialize (Vr y j Hy Hj). pose proof (Hval y i _ [p] En) as C. cbn in C.
      rewrite (C j Hj). cbn [act_value]. cbv beta in Vr. unfold Rrelu in Vr. rewrite (Rmax_right 1 2) by lra. unfold e'. clear - Vr HE1 HE Hke He. lra.
  - subst ps. rewrite Hrun, <- Hin. split; [|do 4 eexists; reflexivity].
    apply (near_weaken Box AFFINE _ n n 0 _ (fun y => y)); [unfold e' in *; nra| |exact Vi]. intros y j _ _. symmetry. exact (Hval y i None [] En j).
Qed.
