(** The relaxation of relu in floating-point arithmetic: proofs. *)
From Coq Require Import Reals List Arith Bool ZArith Lra Lia.
From Flocq Require Import Core.
From Verif Require Import RLib Spec Spec_Float Spec_FloatMerge M_Core M_Utils M_FloatHull P_Core P_Utils P_FloatThm P_FloatMerge.
Import ListNotations.
Local Open Scope R_scope.

Lemma hull_exact : forall ke sl ft u l, fl_hull_relu exact ke sl ft u l (hull_relu ke sl ft u l).
Proof.
  intros ke sl ft u l. unfold fl_hull_relu, hull_relu, exact, Rrelu. cbv zeta.
  set (a := (Rmax u 0 - Rmax l 0) / Rmax ke (u - l)).
  exists (Rmax u 0 - Rmax l 0), (u - l), a, (a * l), (Rmax l 0 - a * l).
  exists (match sl with V_SLOPE => 1 - - Rclip (Rsgn (u + l) - 1) (-1) 0 | A_SLOPE => Rclip (Rsgn (a - 1 / 2)) 0 1 | Z_SLOPE => 0 | O_SLOPE => 1 | S_SLOPE => a end).
  exists (let w := match sl with V_SLOPE => 1 - - Rclip (Rsgn (u + l) - 1) (-1) 0 | A_SLOPE => Rclip (Rsgn (a - 1 / 2)) 0 1 | Z_SLOPE => 0 | O_SLOPE => 1 | S_SLOPE => a end in
          match ft with None => w | Some g => g * w + (1 - g) * (1 - w) end).
  split; [reflexivity|]. split; [reflexivity|]. split; [reflexivity|]. split; [reflexivity|]. split; [reflexivity|].
  split; [destruct sl; cbn [fl_slope]; try (eexists; split; reflexivity); reflexivity|].
  split; [destruct ft; cbn [fl_gamma]; [do 4 eexists; repeat (split; [reflexivity|]); reflexivity|reflexivity]|].
  destruct sl, ft; cbv beta iota zeta; f_equal; ring.
Qed.

(** a line above the two ends of relu is above relu *)
Lemma line_relu : forall w b m u l x, l < 0 -> 0 < u -> l <= x <= u -> - m <= w * l + b -> u - m <= w * u + b -> Rmax x 0 <= w * x + b + m.
Proof.
  intros w b m u l x Hl Hu Hx H1 H2. assert (D : 0 < u - l) by lra.
  assert (K : (u - l) * Rmax x 0 <= (x - l) * u). { unfold Rmax. destruct (Rle_dec x 0); nra. }
  assert (C : (x - l) * u <= (u - l) * (w * x + b + m)). { assert ((x - l) * (u - m) <= (x - l) * (w * u + b)) by (apply Rmult_le_compat_l; lra). assert ((u - x) * (- m) <= (u - x) * (w * l + b)) by (apply Rmult_le_compat_l; lra). lra. }
  apply (Rmult_le_reg_l (u - l)); [exact D|]. lra.
Qed.

Lemma upper_margin : forall mu eta ke u l n d a q b, 0 <= mu <= / 8 -> 0 <= eta -> 0 < ke -> eta <= mu * ke -> l < 0 -> 0 < u -> ke <= (1 - mu) * (u - l) - eta ->
  rounded mu eta u n -> rounded mu eta (u - l) d -> rounded mu eta (n / Rmax ke d) a -> rounded mu eta (a * l) q -> rounded mu eta (- q) b ->
  let m := 10 * mu * u + (6 + 2 * (u - l)) * eta in - m <= a * l + b /\ u - m <= a * u + b.
Proof.
  intros mu eta ke u l n d a q b Hm He Hke Hek Hl Hu Hd Rn Rd Ra Rq Rb m.
  set (D := u - l) in *. assert (HD : 0 < D) by (unfold D; lra).
  assert (KD : ke <= D). { assert (0 <= mu * D) by (apply Rmult_le_pos; lra). lra. }
  assert (eD : eta <= mu * D). { assert (mu * ke <= mu * D) by (apply Rmult_le_compat_l; lra). lra. }
  assert (AD : Rabs D = D) by (apply Rabs_right; lra). assert (AU : Rabs u = u) by (apply Rabs_right; lra).
  unfold rounded in Rn, Rd. rewrite AD in Rd. rewrite AU in Rn. apply abs_le in Rn, Rd.
  assert (dke : ke <= d) by lra. rewrite (Rmax_right ke d) in Ra by exact dke.
  assert (d1 : D * (1 - 2 * mu) <= d <= D * (1 + 2 * mu)) by (split; lra).
  set (r := n / d) in *. assert (d0 : 0 < d) by lra.
  assert (rd : r * d = n) by (unfold r; field; lra).
  (* r * D *)
  assert (U1 : r * D * (1 - 2 * mu) <= u * (1 + mu) + eta \/ r < 0). { destruct (Rlt_le_dec r 0) as [H|H]; [right; exact H|left]. assert (r * (D * (1 - 2 * mu)) <= r * d) by (apply Rmult_le_compat_l; lra). lra. }
  assert (U2 : u * (1 - mu) - eta <= r * D * (1 + 2 * mu) \/ r < 0). { destruct (Rlt_le_dec r 0) as [H|H]; [right; exact H|left]. assert (r * d <= r * (D * (1 + 2 * mu))) by (apply Rmult_le_compat_l; lra). lra. }
  set (P := 2 * (u + eta) + eta * D).
  assert (muu : 0 <= mu * u) by (apply Rmult_le_pos; lra). assert (mue : 0 <= mu * eta) by (apply Rmult_le_pos; lra). assert (eDD : 0 <= eta * D) by (apply Rmult_le_pos; lra).
  assert (mumu : mu * mu <= / 8 * mu) by (apply Rmult_le_compat_r; lra). assert (mu8 : mu * u <= / 8 * u) by (apply Rmult_le_compat_r; lra).
  assert (mue8 : mu * eta <= / 8 * eta) by (apply Rmult_le_compat_r; lra). assert (mueD : mu * (eta * D) <= / 8 * (eta * D)) by (apply Rmult_le_compat_r; lra).
  assert (mumuu : mu * mu * u <= / 8 * mu * u) by (apply Rmult_le_compat_r; lra).
  (* |r| D <= 3/2 (u + eta) *)
  assert (RB : Rabs r * D <= 3 / 2 * (u + eta)).
  { destruct (Rlt_le_dec r 0) as [H|H].
    - rewrite Rabs_left by exact H. assert (n < 0) by (rewrite <- rd; nra).
      assert (- n <= eta) by lra. assert (- r * (D * (1 - 2 * mu)) <= - r * d) by (apply Rmult_le_compat_l; lra).
      assert (- r * D * (3 / 4) <= - r * D * (1 - 2 * mu)) by (apply Rmult_le_compat_l; [apply Rmult_le_pos; lra|lra]). lra.
    - rewrite Rabs_right by lra. destruct U1 as [U1|U1]; [|lra]. assert (r * D * (3 / 4) <= r * D * (1 - 2 * mu)) by (apply Rmult_le_compat_l; [apply Rmult_le_pos; lra|lra]). lra. }
  assert (aD : Rabs a * D <= P).
  { assert (Rabs a <= Rabs r + (mu * Rabs r + eta)). { replace a with (r + (a - r)) by ring. eapply Rle_trans; [apply Rabs_triang|]. unfold rounded in Ra. lra. }
    assert (Rabs a * D <= (Rabs r + (mu * Rabs r + eta)) * D) by (apply Rmult_le_compat_r; lra).
    assert (mu * (Rabs r * D) <= / 8 * (Rabs r * D)) by (apply Rmult_le_compat_r; [apply Rmult_le_pos; [apply Rabs_pos|lra]|lra]). unfold P. lra. }
  assert (al : Rabs (a * l) <= P). { rewrite Rabs_mult. eapply Rle_trans; [|exact aD]. apply Rmult_le_compat_l; [apply Rabs_pos|]. rewrite Rabs_left by exact Hl. unfold D. lra. }
  assert (P0 : 0 <= P) by (unfold P; lra). assert (muP : 0 <= mu * P) by (apply Rmult_le_pos; lra). assert (muP8 : mu * P <= / 8 * P) by (apply Rmult_le_compat_r; lra).
  apply (rounded_at _ _ _ _ _ (proj1 Hm) al) in Rq. apply abs_le in al.
  assert (qB : Rabs (- q) <= 9 / 8 * P + eta) by (rewrite Rabs_Ropp; apply le_abs; lra). apply (rounded_at _ _ _ _ _ (proj1 Hm) qB) in Rb.
  assert (E : mu * P + eta + (mu * (9 / 8 * P + eta) + eta) <= 3 * (mu * P) + 3 * eta) by lra.
  assert (F : 3 * (mu * P) + 3 * eta <= 6 * (mu * u) + 4 * eta + eta * D) by (unfold P; lra).
  assert (mD : m = 10 * (mu * u) + 6 * eta + 2 * (eta * D)) by (unfold m; ring).
  split; [lra|].
  (* at u *)
  assert (G : u - 4 * (mu * u) - 2 * eta - eta * D <= a * D).
  { assert (Ra' := Ra). unfold rounded in Ra'. apply abs_le in Ra'.
    assert (X : (r - (mu * Rabs r + eta)) * D <= a * D) by (apply Rmult_le_compat_r; lra).
    destruct (Rlt_le_dec r 0) as [H|H].
    - assert (N0 : n < 0) by (rewrite <- rd; nra). rewrite (Rabs_left r) in X by exact H. assert (- r * (D * (1 - 2 * mu)) <= - r * d) by (apply Rmult_le_compat_l; lra).
      assert (- r * D * (3 / 4) <= - r * D * (1 - 2 * mu)) by (apply Rmult_le_compat_l; [apply Rmult_le_pos; lra|lra]).
      assert (mu * (- r * D) <= / 8 * (- r * D)) by (apply Rmult_le_compat_r; [apply Rmult_le_pos; lra|lra]). lra.
    - rewrite (Rabs_right r) in X by lra. destruct U2 as [U2|U2]; [|lra].
      set (t := r * D) in *. assert (Y : u * (1 - 3 * mu) - eta <= t).
      { assert (T0 : 0 <= t) by (unfold t; apply Rmult_le_pos; lra). destruct (Rlt_le_dec t u) as [Ht|Ht]; [|lra]. assert (mu * t <= mu * u) by (apply Rmult_le_compat_l; lra). lra. }
      assert (Z : (1 - mu) * (u * (1 - 3 * mu) - eta) <= (1 - mu) * t) by (apply Rmult_le_compat_l; lra).
      assert (0 <= mu * (mu * u)) by (apply Rmult_le_pos; lra). unfold t in Z. lra. }
  replace (a * u) with (a * D + a * l) by (unfold D; ring). lra.
Qed.

Lemma hull_upper : forall (op : R -> R -> Prop) mu eta ke sl ft u l h x, (forall x y, op x y -> rounded mu eta x y) -> 0 <= mu <= / 8 -> 0 <= eta -> 0 < ke -> eta <= mu * ke ->
  u <= 0 \/ 0 <= l \/ ke <= (1 - mu) * (u - l) - eta -> fl_hull_relu op ke sl ft u l h -> l <= x <= u ->
  Rmax x 0 <= h_wu h * x + h_bu h + (10 * mu * Rmax u 0 + (6 + 2 * (u - l)) * eta).
Proof.
  intros op mu eta ke sl ft u l h x Hop Hm He Hke Hek HC (n & d & a & q & b & w & w' & O1 & O2 & O3 & O4 & O5 & _ & _ & ->) Hx. cbn [h_wu h_bu].
  assert (M0 : 0 <= 10 * mu * Rmax u 0 + (6 + 2 * (u - l)) * eta). { pose proof (Rmax_r u 0). apply Rplus_le_le_0_compat; apply Rmult_le_pos; lra. }
  destruct (Rle_lt_dec 0 l) as [L|L].
  - rewrite (index_linear_1 l L). rewrite (Rmax_left x 0) by lra. lra.
  - rewrite (index_linear_0 l L). destruct (Rle_lt_dec u 0) as [U|U].
    + rewrite (index_dead_1 u U). rewrite (Rmax_right x 0) by lra. lra.
    + rewrite (index_dead_0 u U). rewrite (Rmax_left u 0) in * by lra. rewrite (Rmax_right l 0) in * by lra.
      apply Hop in O1, O2, O3, O4, O5. rewrite Rminus_0_r in O1. replace (0 - q) with (- q) in O5 by ring. destruct HC as [HC|[HC|HC]]; try lra.
      destruct (upper_margin mu eta ke u l n d a q b Hm He Hke Hek L U HC O1 O2 O3 O4 O5) as [K1 K2].
      pose proof (line_relu a b _ u l x L U Hx K1 K2) as K. lra.
Qed.

(** ** the lower line, in binary32 *)
Lemma rnd01 : forall x, 0 <= x <= 1 -> 0 <= rnd32 x <= 1.
Proof. intros x [H1 H2]. pose proof (rnd32_mono _ _ H1) as K1. pose proof (rnd32_mono _ _ H2) as K2. rewrite rnd32_0 in K1. rewrite rnd32_1 in K2. lra. Qed.
Lemma sign_slopes : forall x, Rclip (Rsgn x) 0 1 = 0 \/ Rclip (Rsgn x) 0 1 = 1.
Proof.
  intros x. unfold Rclip, Rsgn. destruct (Rlt_dec 0 x); [right|destruct (Rlt_dec x 0); left].
  - rewrite Rmax_left, Rmin_left by lra. reflexivity.
  - rewrite Rmax_right, Rmin_left by lra. reflexivity.
  - rewrite Rmax_left, Rmin_left by lra. reflexivity.
Qed.
Lemma v_slopes : forall x, 1 - - Rclip (Rsgn x - 1) (-1) 0 = 0 \/ 1 - - Rclip (Rsgn x - 1) (-1) 0 = 1.
Proof.
  intros x. unfold Rclip, Rsgn. destruct (Rlt_dec 0 x); [right|destruct (Rlt_dec x 0); left].
  - rewrite Rmax_left, Rmin_left by lra. lra.
  - rewrite Rmax_right, Rmin_left by lra. lra.
  - rewrite Rmax_left, Rmin_left by lra. lra.
Qed.
Lemma slope_cases : forall sl a u l w, fl_slope op32 sl a u l w -> (w = 0 \/ w = 1) \/ (sl = S_SLOPE /\ w = a).
Proof.
  intros [| | | |] a u l w H; cbn [fl_slope] in H.
  - destruct H as (s & _ & ->). left. apply v_slopes.
  - destruct H as (s & _ & ->). left. apply sign_slopes.
  - auto.
  - auto.
  - auto.
Qed.
Lemma gamma_01 : forall ft w w', (w = 0 \/ w = 1) -> (forall g, ft = Some g -> 0 <= g <= 1) -> fl_gamma op32 ft w w' -> 0 <= w' <= 1.
Proof.
  intros [g|] w w' Hw Hg H; cbn [fl_gamma] in H; [|subst w'; destruct Hw; subst; lra]. specialize (Hg g eq_refl).
  destruct H as (p & c & e & f & -> & -> & -> & -> & ->). destruct Hw as [-> | ->].
  - rewrite Rmult_0_r, rnd32_0, Rminus_0_r, rnd32_1, Rmult_1_r, Rplus_0_l. apply rnd01, rnd01, rnd01. lra.
  - replace (1 - 1) with 0 by ring. rewrite rnd32_0, Rmult_0_r, rnd32_0, Rmult_1_r, Rplus_0_r. apply rnd01, rnd01. lra.
Qed.
Lemma rnd_near1 : forall x, 0 <= x <= 1 -> rnd32 x <= x + tiny.
Proof.
  intros x [H0 H1]. destruct (Rle_lt_or_eq_dec _ _ H1) as [L| ->]; [|rewrite rnd32_1; pose proof tiny_pos; lra].
  destruct (Rle_lt_or_eq_dec _ _ H0) as [P|<-]; [|rewrite rnd32_0; pose proof tiny_pos; lra].
  assert (E : Rabs (rnd32 x - x) <= / 2 * ulp radix2 (FLT_exp (-149) 24) x) by (apply error_le_half_ulp; apply FLT_exp_valid; reflexivity).
  assert (U : ulp radix2 (FLT_exp (-149) 24) x <= bpow radix2 (-24)).
  { rewrite ulp_neq_0 by lra. apply bpow_le. unfold cexp, FLT_exp. assert (M : (mag radix2 x <= 0)%Z) by (apply mag_le_bpow; [lra|rewrite Rabs_right by lra; exact L]). lia. }
  apply abs_le in E. unfold tiny. replace (bpow radix2 (-25)) with (/ 2 * bpow radix2 (-24)) by (change (-24)%Z with (1 + -25)%Z; rewrite bpow_plus; change (bpow radix2 1) with 2; lra). lra.
Qed.
Lemma gamma_float : forall ft a w', 0 <= a <= 1 -> rnd32 a = a -> (forall g, ft = Some g -> 0 <= g <= 1) -> fl_gamma op32 ft a w' -> 0 <= w' <= 1.
Proof.
  intros [g|] a w' Ha Fa Hg H; cbn [fl_gamma] in H; [|subst w'; exact Ha]. specialize (Hg g eq_refl).
  destruct H as (p & c & e & f & Ep & Ec & Ee & Ef & ->). unfold op32, fop in *.
  assert (P : 0 <= p <= a).
  { assert (0 <= g * a <= a) by (split; [apply Rmult_le_pos; lra|nra]). rewrite Ep.
    split; [rewrite <- rnd32_0; apply rnd32_mono; lra|]. apply Rle_trans with (rnd32 a); [apply rnd32_mono; lra|lra]. }
  assert (C : 0 <= c <= 1) by (rewrite Ec; apply rnd01; lra). assert (E : 0 <= e <= 1) by (rewrite Ee; apply rnd01; lra).
  assert (Fe : rnd32 e = e) by (rewrite Ee; apply rnd32_idem). assert (F : 0 <= f <= e).
  { assert (0 <= c * e <= e) by (split; [apply Rmult_le_pos; lra|nra]). rewrite Ef.
    split; [rewrite <- rnd32_0; apply rnd32_mono; lra|]. apply Rle_trans with (rnd32 e); [apply rnd32_mono; lra|lra]. }
  assert (N : e <= 1 - a + tiny) by (rewrite Ee; apply rnd_near1; lra).
  split; [rewrite <- rnd32_0; apply rnd32_mono; lra|]. rewrite <- rnd32_absorb. apply rnd32_mono. lra.
Qed.
Lemma hull_lower32 : forall ke sl ft u l h x, 0 < ke -> rnd32 u = u -> (forall g, ft = Some g -> 0 <= g <= 1) ->
  fl_hull_relu op32 ke sl ft u l h -> l <= x <= u -> h_wl h * x + h_bl h <= Rmax x 0.
Proof.
  intros ke sl ft u l h x Hke Hu Hg (n & d & a & q & b & w & w' & O1 & O2 & O3 & O4 & O5 & O6 & O7 & ->) Hx. cbn [h_wl h_bl].
  destruct (Rle_lt_dec 0 l) as [L|L].
  - rewrite (index_linear_1 l L). rewrite (Rmax_left x 0) by lra. lra.
  - rewrite (index_linear_0 l L). destruct (Rle_lt_dec u 0) as [U|U].
    + rewrite (index_dead_1 u U). rewrite (Rmax_right x 0) by lra. lra.
    + rewrite (index_dead_0 u U). assert (W : 0 <= w' <= 1).
      { destruct (slope_cases _ _ _ _ _ O6) as [C|[-> ->]]; [exact (gamma_01 ft w w' C Hg O7)|].
        unfold op32, fop in O1, O2, O3. rewrite (Rmax_left u 0), (Rmax_right l 0), Rminus_0_r in O1 by lra. rewrite Hu in O1. subst n.
        assert (D : u <= d) by (rewrite O2, <- Hu at 1; apply rnd32_mono; lra). assert (D0 : 0 < Rmax ke d) by (pose proof (Rmax_l ke d); lra). assert (D1 : u <= Rmax ke d) by (pose proof (Rmax_r ke d); lra).
        apply (gamma_float ft a w'); auto; [|rewrite O3; apply rnd32_idem]. rewrite O3. apply rnd01. assert (I : 0 < / Rmax ke d) by (apply Rinv_0_lt_compat; exact D0). split; [apply Rmult_le_pos; lra|].
        apply (Rmult_le_reg_r (Rmax ke d)); [exact D0|]. unfold Rdiv. rewrite Rmult_assoc, Rinv_l by lra. lra. }
      unfold Rmax. destruct (Rle_dec x 0); nra.
Qed.

(** ** binary32: relu on [-1, 9] *)
Definition a9 : R := 15099494 / 16777216.
Lemma rnd_9_10 : rnd32 (9 / 10) = a9.
Proof. rewrite (rnd32_at _ 0 15099494); [unfold a9; change (bpow radix2 (0 - 24)) with (/ 16777216); lra|lia|change (bpow radix2 (0 - 1)) with (/ 2); change (bpow radix2 0) with 1; lra|]. change (bpow radix2 (24 - 0)) with 16777216. apply Rabs_def1; lra. Qed.
Lemma rnd_a9 : rnd32 a9 = a9. Proof. rewrite <- rnd_9_10. apply rnd32_idem. Qed.
Lemma rnd_9 : rnd32 9 = 9.
Proof. rewrite (rnd32_at _ 4 9437184); [change (bpow radix2 (4 - 24)) with (/ 1048576); lra|lia|change (bpow radix2 (4 - 1)) with 8; change (bpow radix2 4) with 16; lra|]. change (bpow radix2 (24 - 4)) with 1048576. apply Rabs_def1; lra. Qed.
Lemma rnd_10 : rnd32 10 = 10.
Proof. rewrite (rnd32_at _ 4 10485760); [change (bpow radix2 (4 - 24)) with (/ 1048576); lra|lia|change (bpow radix2 (4 - 1)) with 8; change (bpow radix2 4) with 16; lra|]. change (bpow radix2 (24 - 4)) with 1048576. apply Rabs_def1; lra. Qed.
(** 9 a9 = 135895446 / 2^24, in [8, 16): spacing 2^-20 *)
Lemma rnd_9a9 : rnd32 (a9 * 9) = 8493465 / 1048576.
Proof. rewrite (rnd32_at _ 4 8493465); [change (bpow radix2 (4 - 24)) with (/ 1048576); lra|lia|change (bpow radix2 (4 - 1)) with 8; change (bpow radix2 4) with 16; unfold a9; lra|]. change (bpow radix2 (24 - 4)) with 1048576. unfold a9. apply Rabs_def1; lra. Qed.
Lemma rnd_sum9 : rnd32 (8493465 / 1048576 + a9) = 9437183 / 1048576.
Proof. rewrite (rnd32_at _ 4 9437183); [change (bpow radix2 (4 - 24)) with (/ 1048576); lra|lia|change (bpow radix2 (4 - 1)) with 8; change (bpow radix2 4) with 16; unfold a9; lra|]. change (bpow radix2 (24 - 4)) with 1048576. unfold a9. apply Rabs_def1; lra. Qed.
Lemma hull_upper_refuted : forall ke sl, 0 < ke <= 1 -> exists h,
  fl_hull_relu op32 ke sl None 9 (-1) h /\ h_wu h * 9 + h_bu h < Rmax 9 0 /\
  exists p y, op32 (h_wu h * 9) p /\ op32 (p + h_bu h) y /\ y < Rmax 9 0.
Proof.
  intros ke sl Hke.
  assert (S : exists w, fl_slope op32 sl a9 9 (-1) w) by (destruct sl; cbn [fl_slope]; try (eexists; reflexivity); do 2 eexists; split; reflexivity).
  destruct S as (w & Sw). exists (mk_hull a9 a9 w 0). cbn [h_wu h_bu]. rewrite (Rmax_left 9 0) by lra. split; [|split].
  - exists 9, 10, a9, (- a9), a9, w, w. rewrite (Rmax_left 9 0), (Rmax_right (-1) 0), (Rmax_right ke 10) by lra. rewrite index_linear_0, index_dead_0 by lra.
    split; [r32; rewrite Rminus_0_r; exact rnd_9|]. split; [r32; replace (9 - -1) with 10 by lra; exact rnd_10|]. split; [r32; exact rnd_9_10|].
    split; [r32; replace (a9 * -1) with (- a9) by ring; rewrite rnd32_opp, rnd_a9; reflexivity|]. split; [r32; replace (0 - - a9) with a9 by ring; exact rnd_a9|].
    split; [exact Sw|]. split; [reflexivity|]. f_equal; ring.
  - unfold a9. lra.
  - exists (8493465 / 1048576), (9437183 / 1048576). split; [r32; exact rnd_9a9|]. split; [r32; exact rnd_sum9|lra].
Qed.
(** with the margin *)
Lemma hull_upper_example : exists h, fl_hull_relu op32 (/ 10000000) V_SLOPE None 9 (-1) h /\ (forall x, -1 <= x <= 9 -> Rmax x 0 <= h_wu h * x + h_bu h + / 10000) /\ (forall x, -1 <= x <= 9 -> h_wl h * x + h_bl h <= Rmax x 0).
Proof.
  destruct (hull_upper_refuted (/ 10000000) V_SLOPE ltac:(lra)) as (h & H & _). exists h. split; [exact H|].
  assert (A1 : u32 <= / 16777216) by (unfold u32; change (/ 16777216) with (bpow radix2 (-24)); lra). assert (A1' : / 16777216 <= u32) by (unfold u32; change (/ 16777216) with (bpow radix2 (-24)); lra).
  assert (A2 : eta32 <= / 1152921504606846976) by (unfold eta32; change (/ 1152921504606846976) with (bpow radix2 (-60)); apply bpow_le; lia). pose proof eta32_pos. split.
  - intros x Hx. pose proof (hull_upper op32 u32 eta32 (/ 10000000) V_SLOPE None 9 (-1) h x op32_rounded ltac:(lra) eta32_pos ltac:(lra) ltac:(lra) ltac:(right; right; lra) H Hx) as K.
    rewrite (Rmax_left 9 0) in K by lra. lra.
  - intros x Hx. apply (hull_lower32 (/ 10000000) V_SLOPE None 9 (-1) h x); auto; try lra; [exact rnd_9|discriminate].
Qed.
