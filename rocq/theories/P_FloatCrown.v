(** The method crown in interval mode on a box in floating-point arithmetic: proofs. *)
From Coq Require Import Reals List Arith Bool ZArith Lra Lia Permutation.
From Flocq Require Import Core.
From Verif Require Import RLib Spec Spec_Layers Spec_Backward Spec_Near Spec_Rounding Spec_RoundingCrown Spec_Float Spec_FloatMerge Spec_FloatNet Spec_FloatAffine Spec_FloatCrown M_Core M_Utils M_MergeLayers M_Ops M_Layers M_Pool M_Backward M_Crown M_Convert M_Network M_Rounding M_RoundingCrown M_Float M_FloatMerge M_FloatNet M_FloatHull M_FloatAffine M_FloatCrown.
From Verif Require Import P_Core P_Utils P_Convert P_Near P_Network P_NetworkCrown P_NetworkForward P_Rounding P_RoundingCrown P_RoundingCrownThm P_Float P_FloatThm P_FloatMerge P_FloatHull P_FloatAffine.
From Verif Require P_FloatNet P_Axis P_Float32 P_Move.
From Verif Require Import Spec_Network.
Import ListNotations.
Local Open Scope R_scope.

(** ** the hull as a function *)
Definition slope_fn (sl : slope) (a u l : R) : R :=
  match sl with
  | V_SLOPE => 1 - - Rclip (Rsgn (rnd32 (u + l)) - 1) (-1) 0
  | A_SLOPE => Rclip (Rsgn (rnd32 (a - 1 / 2))) 0 1
  | Z_SLOPE => 0 | O_SLOPE => 1 | S_SLOPE => a
  end.
Definition gamma_fn (ft : option R) (w : R) : R :=
  match ft with None => w | Some g => rnd32 (rnd32 (g * w) + rnd32 (rnd32 (1 - g) * rnd32 (1 - w))) end.
Definition hull_fn (ke : R) (sl : slope) (ft : option R) (u l : R) : hull :=
  let a := rnd32 (rnd32 (Rmax u 0 - Rmax l 0) / Rmax ke (rnd32 (u - l))) in
  let b := rnd32 (Rmax l 0 - rnd32 (a * l)) in
  mk_hull ((1 - index_linear l) * ((1 - index_dead u) * a) + index_linear l) ((1 - index_linear l) * ((1 - index_dead u) * b))
          ((1 - index_linear l) * ((1 - index_dead u) * gamma_fn ft (slope_fn sl a u l)) + index_linear l) 0.
Lemma hull_det : forall ke sl ft u l h, fl_hull_relu op32 ke sl ft u l h -> h = hull_fn ke sl ft u l.
Proof.
  intros ke sl ft u l h (n & d & a & q & b & w & w' & O1 & O2 & O3 & O4 & O5 & O6 & O7 & ->). unfold op32, fop in O1, O2, O3, O4, O5. subst n d a q b.
  unfold hull_fn. cbv zeta. set (a := rnd32 (rnd32 (Rmax u 0 - Rmax l 0) / Rmax ke (rnd32 (u - l)))) in *.
  assert (W : w = slope_fn sl a u l) by (destruct sl; cbn [fl_slope slope_fn] in *; unfold op32, fop in O6; try (destruct O6 as (s & -> & ->)); auto).
  assert (W' : w' = gamma_fn ft w). { destruct ft; cbn [fl_gamma gamma_fn] in *; [|exact O7]. destruct O7 as (p & c & e & f & P1 & P2 & P3 & P4 & P5). unfold op32, fop in *. subst. reflexivity. }
  subst w w'. reflexivity.
Qed.

Lemma hull_fn_ok : forall ke sl ft u l, fl_hull_relu op32 ke sl ft u l (hull_fn ke sl ft u l).
Proof.
  intros ke sl ft u l. do 5 eexists. exists (slope_fn sl (rnd32 (rnd32 (Rmax u 0 - Rmax l 0) / Rmax ke (rnd32 (u - l)))) u l). eexists.
  split; [reflexivity|]. split; [reflexivity|]. split; [reflexivity|]. split; [reflexivity|]. split; [reflexivity|].
  split; [destruct sl; cbn; try reflexivity; eexists; (split; [reflexivity|reflexivity])|].
  split; [|reflexivity]. destruct ft; cbn [fl_gamma gamma_fn]; [|reflexivity]. do 4 eexists. repeat split; reflexivity.
Qed.

(** its upper line is close to the one on real numbers; its lower line is the one of the slope 1 with finetune *)
Lemma hull_close : forall ke sl ft u l h A, 0 < ke -> eta32 <= u32 * ke -> rnd32 u = u -> (forall g, ft = Some g -> 0 <= g <= 1) -> Rabs l <= A ->
  fl_hull_relu op32 ke sl ft u l h ->
  let h0 := hull_relu ke O_SLOPE (Some (h_wl h)) u l in
  Rabs (h_wu h - h_wu h0) <= hull_error u32 eta32 A /\ Rabs (h_bu h - h_bu h0) <= hull_error u32 eta32 A /\ h_wl h = h_wl h0 /\ h_bl h = h_bl h0 /\ 0 <= h_wl h <= 1.
Proof.
  intros ke sl ft u l h A Hke Hek Hu Hg HA Hh h0. pose proof u32_8 as M8. pose proof P_FloatMerge.eta32_pos as E0.
  assert (A0 : 0 <= A) by (pose proof (Rabs_pos l); lra). assert (mA : 0 <= u32 * A) by (apply Rmult_le_pos; lra). assert (eA : 0 <= A * eta32) by (apply Rmult_le_pos; lra).
  assert (HE0 : 0 <= hull_error u32 eta32 A) by (unfold hull_error; lra).
  assert (W1 : 0 <= h_wl h <= 1).
  { destruct (fl_hull_near ke sl ft u l h l (Rabs (l - u)) (Rmax (Rabs u) (Rabs l)) Hke Hek Hu Hg Hh (Rmax_l _ _) (Rmax_r _ _) (Rabs_pos _)) as (_ & W & _); [|exact W].
    pose proof (Rle_abs (l - u)). pose proof (Rabs_pos (l - u)). lra. }
  destruct Hh as (n & d & a & q & b & w & w' & O1 & O2 & O3 & O4 & O5 & _ & _ & ->). subst h0. cbn [h_wu h_bu h_wl h_bl] in *. unfold hull_relu. cbn [h_wu h_bu h_wl h_bl].
  destruct (Rle_lt_dec 0 l) as [L|L].
  { rewrite (index_linear_1 l L) in *. repeat split; try ring; try lra; replace (_ - _) with 0 by ring; rewrite Rabs_R0; exact HE0. }
  rewrite (index_linear_0 l L) in *. destruct (Rle_lt_dec u 0) as [U|U].
  { rewrite (index_dead_1 u U) in *. repeat split; try ring; try lra; replace (_ - _) with 0 by ring; rewrite Rabs_R0; exact HE0. }
  rewrite (index_dead_0 u U) in *. unfold Rrelu.
  rewrite (Rmax_left u 0), (Rmax_right l 0) in * by lra. replace (u - 0) with u in * by ring.
  assert (n = u) as -> by (unfold op32, fop in O1; rewrite O1; exact Hu).
  set (D := Rmax ke (u - l)) in *. set (D' := Rmax ke d) in *. set (r := u / D) in *.
  assert (Dke : ke <= D) by apply Rmax_l. assert (Dul : u - l <= D) by apply Rmax_r. assert (D'ke : ke <= D') by apply Rmax_l.
  assert (D'u : u <= D') by (eapply Rle_trans; [|apply Rmax_r]; unfold op32, fop in O2; rewrite O2, <- Hu at 1; apply rnd32_mono; lra).
  assert (DD : - (2 * u32 * D) <= D' - D <= 2 * u32 * D).
  { apply op32_rounded in O2. assert (Q : Rabs (u - l) <= D) by (rewrite Rabs_right by lra; exact Dul). apply (rounded_at _ _ _ _ _ (proj1 M8) Q) in O2.
    assert (u32 * ke <= u32 * D) by (apply Rmult_le_compat_l; lra). unfold D, D' in *. assert (0 <= u32 * Rmax ke (u - l)) by (apply Rmult_le_pos; lra).
    unfold Rmax in *. destruct (Rle_dec ke d), (Rle_dec ke (u - l)); lra. }
  assert (r01 : 0 <= r <= 1).
  { unfold r. assert (I : 0 < / D) by (apply Rinv_0_lt_compat; lra). split; [apply Rmult_le_pos; lra|]. apply (Rmult_le_reg_r D); [lra|]. unfold Rdiv. rewrite Rmult_assoc, Rinv_l by lra. lra. }
  set (r' := u / D') in *.
  assert (r01' : 0 <= r' <= 1).
  { unfold r'. assert (I : 0 < / D') by (apply Rinv_0_lt_compat; lra). split; [apply Rmult_le_pos; lra|]. apply (Rmult_le_reg_r D'); [lra|]. unfold Rdiv. rewrite Rmult_assoc, Rinv_l by lra. lra. }
  assert (mD : u32 * D <= / 8 * D) by (apply Rmult_le_compat_r; lra).
  assert (RR : - (8 / 3 * u32) <= r' - r <= 8 / 3 * u32).
  { assert (K : (r' - r) * D' = r * (D - D')) by (unfold r, r'; field; lra).
    assert (B1 : - (2 * u32 * D) <= r * (D - D') <= 2 * u32 * D). { assert (0 <= 2 * u32 * D) by (apply Rmult_le_pos; lra). split; nra. }
    assert (B2 : 3 / 4 * D <= D') by lra.
    assert (B3 : 2 * u32 * D <= 8 / 3 * u32 * D'). { assert (u32 * (3 / 4 * D) <= u32 * D') by (apply Rmult_le_compat_l; lra). lra. }
    split; apply (Rmult_le_reg_r D'); try lra. }
  assert (AA : - (4 * u32 + eta32) <= a - r <= 4 * u32 + eta32).
  { apply op32_rounded in O3. assert (Q : Rabs r' <= 1) by (rewrite Rabs_right by lra; lra). apply (rounded_at _ _ _ _ _ (proj1 M8) Q) in O3. lra. }
  assert (a01 : 0 <= a <= 1) by (unfold op32, fop in O3; rewrite O3; apply rnd01; exact r01').
  apply op32_rounded in O4, O5.
  assert (lam : Rabs l = - l) by (apply Rabs_left; lra). rewrite lam in HA.
  assert (QL : Rabs (a * l) <= A) by (rewrite Rabs_mult, (Rabs_right a), lam by lra; nra). apply (rounded_at _ _ _ _ _ (proj1 M8) QL) in O4. apply abs_le in QL.
  assert (mA8 : u32 * A <= / 8 * A) by (apply Rmult_le_compat_r; lra).
  assert (QB : Rabs (0 - q) <= 9 / 8 * A + eta32) by (apply le_abs; lra). apply (rounded_at _ _ _ _ _ (proj1 M8) QB) in O5.
  assert (me : u32 * eta32 <= / 8 * eta32) by (apply Rmult_le_compat_r; lra).
  assert (AL : - ((4 * u32 + eta32) * A) <= (a - r) * l <= (4 * u32 + eta32) * A).
  { assert (X : 0 <= 4 * u32 + eta32) by lra. split; nra. }
  unfold hull_error. split; [|split; [|split; [|split]]].
  - apply le_abs. lra.
  - apply le_abs. replace (u32 * (9 / 8 * A + eta32)) with (9 / 8 * (u32 * A) + u32 * eta32) in O5 by ring. lra.
  - ring.
  - ring.
  - exact W1.
Qed.

(** ** BatchNormalization *)
Lemma u32_100 : 0 <= u32 <= / 100.
Proof. split; [apply u32_pos|]. apply Rle_trans with (/ 1048576); [|lra]. unfold u32. change (/ 1048576) with (bpow radix2 (-20)). apply bpow_le. lia. Qed.
Lemma bn_line_near : forall u eta A g be mean var eps w b, 0 <= u <= / 100 -> 0 <= eta -> 0 < var + eps -> eta <= u * (var + eps) -> 2 * eta <= u * sqrt (var + eps) ->
  (let G := Rabs g / sqrt (var + eps) in G <= A /\ Rabs be + G * Rabs mean <= A /\ Rabs mean <= A) -> fl_bn_line (rounded u eta) g be mean var eps w b ->
  Rabs (w - g / sqrt (var + eps)) <= scale_error u eta A /\ Rabs (b - (be - g / sqrt (var + eps) * mean)) <= scale_error u eta A.
Proof.
  intros u eta A g be mean var eps w b Hu He HV H1 H2 (SG & SB & SM) (s & t & p & R1 & R2 & R3 & R4 & R5).
  destruct (P_FloatNet.deviation_near u eta _ s t Hu He HV H1 H2 R1 R2) as [Ht HW]. pose proof (sqrt_lt_R0 _ HV) as HT. set (T := sqrt (var + eps)) in *.
  set (G := Rabs g / T) in *. assert (G0 : 0 <= G) by (unfold G, Rdiv; apply Rmult_le_pos; [apply Rabs_pos|left; apply Rinv_0_lt_compat; exact HT]).
  set (q := g / T) in *. assert (Eq : Rabs q = G) by (unfold q, G, Rdiv; rewrite Rabs_mult, (Rabs_right (/ T)); [reflexivity|left; apply Rinv_0_lt_compat; exact HT]).
  assert (Hgt : Rabs (g / t - q) <= 5 * u * G).
  { replace (g / t - q) with (q * (T / t - 1)) by (unfold q; field; lra). rewrite Rabs_mult, Eq, Rmult_comm. apply Rmult_le_compat_r; assumption. }
  assert (uG : 0 <= u * G <= / 100 * G) by (split; [apply Rmult_le_pos; lra|apply Rmult_le_compat_r; lra]).
  pose proof (abs_le _ _ Hgt) as Hgt'. assert (Bq : - G <= q <= G) by (apply abs_le; lra).
  apply (rounded_at u eta (G + 5 * u * G)) in R3; [|lra|apply le_abs; lra].
  assert (uuG : u * (u * G) <= / 100 * (u * G)) by (apply Rmult_le_compat_r; lra).
  set (ew := 61 / 10 * u * G + eta). assert (Hw : - ew <= w - q <= ew) by (unfold ew; replace (u * (G + 5 * u * G)) with (u * G + 5 * (u * (u * G))) in R3 by ring; lra).
  set (M := Rabs mean) in *. assert (M0 : 0 <= M) by apply Rabs_pos. pose proof (Rabs_pos be) as B0. assert (GM0 : 0 <= G * M) by (apply Rmult_le_pos; assumption). assert (ew0 : 0 <= ew) by (unfold ew; lra).
  assert (P1 : - (ew * M) <= w * mean - q * mean <= ew * M).
  { replace (w * mean - q * mean) with ((w - q) * mean) by ring. apply abs_le. rewrite Rabs_mult. apply Rmult_le_compat_r; [exact M0|apply le_abs; exact Hw]. }
  assert (P2 : - (G * M) <= q * mean <= G * M) by (apply abs_le; rewrite Rabs_mult, Eq; apply Rle_refl).
  assert (A0 : 0 <= A) by lra. assert (GMA : G * M <= A - Rabs be) by lra. set (v := G * M) in *. pose proof (abs_le be (Rabs be) (Rle_refl _)) as Hbe.
  assert (Ew : ew * M <= 61 / 10 * (u * v) + eta * A).
  { unfold ew, v. replace ((61 / 10 * u * G + eta) * M) with (61 / 10 * (u * (G * M)) + eta * M) by ring. assert (eta * M <= eta * A) by (apply Rmult_le_compat_l; assumption). lra. }
  assert (uv : 0 <= u * v <= / 100 * v) by (split; [apply Rmult_le_pos; lra|apply Rmult_le_compat_r; lra]).
  assert (uA : 0 <= u * A <= / 100 * A) by (split; [apply Rmult_le_pos; lra|apply Rmult_le_compat_r; lra]). assert (uvA : u * v <= u * A) by (apply Rmult_le_compat_l; lra).
  assert (eA : 0 <= eta * A) by (apply Rmult_le_pos; lra). assert (uGA : u * G <= u * A) by (apply Rmult_le_compat_l; lra).
  set (x := w * mean) in *. set (y := q * mean) in *. set (m := ew * M) in *.
  apply (rounded_at u eta (v + (61 / 10 * (u * v) + eta * A))) in R4; [|lra|apply le_abs; lra].
  assert (uuv : u * (u * v) <= / 100 * (u * v)) by (apply Rmult_le_compat_r; lra). assert (ueA : u * (eta * A) <= / 100 * (eta * A)) by (apply Rmult_le_compat_r; lra).
  assert (ue : u * eta <= / 100 * eta) by (apply Rmult_le_compat_r; lra).
  replace (u * (v + (61 / 10 * (u * v) + eta * A))) with (u * v + 61 / 10 * (u * (u * v)) + u * (eta * A)) in R4 by ring.
  set (pe := 72 / 10 * (u * v) + 101 / 100 * (eta * A) + eta). assert (Hp : - pe <= p - y <= pe) by (unfold pe; lra).
  apply (rounded_at u eta (A + pe)) in R5; [|lra|apply le_abs; lra].
  assert (upe : u * pe <= / 100 * pe) by (apply Rmult_le_compat_r; [unfold pe; lra|lra]).
  replace (u * (A + pe)) with (u * A + u * pe) in R5 by ring.
  unfold scale_error. replace ((3 + 2 * A) * eta) with (3 * eta + 2 * (eta * A)) by ring. replace (9 * u * A) with (9 * (u * A)) by ring. split; apply le_abs.
  - unfold ew in Hw. replace (61 / 10 * u * G) with (61 / 10 * (u * G)) in Hw by ring. lra.
  - unfold pe in *. lra.
Qed.

(** ** the layers *)
Lemma backward_relu_ibp : forall ke n sl (ft : option (vec * vec)) m u l, backward_activation ke (mk_spec false IBP Box n) ActRelu sl ft m [u; l] =
  Ok (hull_bb (fun j => hull_relu ke sl (option_map (fun v : vec * vec => snd v j) ft) (u 0%nat j) (l 0%nat j))).
Proof.
  intros ke n sl ft m u l. cbn [backward_activation]. unfold backward_relu. cbn [sp_dc]. destruct (Req_EM_T 0 0) as [_|N]; [|contradiction N; reflexivity].
  cbn. destruct ft; reflexivity.
Qed.

Lemma merge_neuron_error : forall k N n_h m (w : mat) b (x y : vec) j v A,
  float_neuron op32 (any_order op32 k N) (merge_lin n_h m w b) x y j v ->
  rsum n_h (fun c => Rabs (w c j) * Rmax (Rabs (x c)) (Rabs (y c))) + Rabs (opt_vec 0 b j) <= A ->
  Rabs (v - (rsum n_h (fun c => x c * Rmax (w c j) 0) + rsum n_h (fun c => y c * Rmin (w c j) 0) + opt_vec 0 b j)) <= float_error u32 eta32 k N A.
Proof.
  intros k N n_h m w b x y j v A H HA.
  assert (H' : float_neuron (rounded u32 eta32) (any_order (rounded u32 eta32) k N) (merge_lin n_h m w b) x y j v).
  { eapply neuron_impl; [exact op32_rounded| |exact H]. intros; eapply any_order_impl; [exact op32_rounded|eassumption]. }
  pose proof (float_neuron_error u32 eta32 k N (merge_lin n_h m w b) x y j v A (proj1 u32_8) P_FloatMerge.eta32_pos H' HA) as Q.
  cbn [merge_lin ln_d ln_src ln_w ln_bias ln_unit px] in Q.
  rewrite (rsum_ext n_h _ (fun c => x c * Rmax (w c j) 0)) in Q by (intros c Hc; rewrite Rmax_comm; reflexivity).
  rewrite (rsum_ext n_h (fun c => y c * Rmin 0 (w c j)) (fun c => y c * Rmin (w c j) 0)) in Q by (intros c Hc; rewrite Rmin_comm; reflexivity). exact Q.
Qed.
Lemma float_merge_close : forall k N A n_in n_h m B C M, float_merge_bb op32 (any_order op32 k N) n_in n_h m B C M -> merge_size A n_in n_h m B C ->
  bb_close n_in m (float_error u32 eta32 k N A) (merge_bb n_h B C) M.
Proof.
  intros k N A n_in n_h m B C M H HA.
  assert (S : forall (w a b : vec) c, rsum n_h (fun k => Rabs (w k) * Rmax (Rabs (a k)) (Rabs (b k))) <= c -> rsum n_h (fun k => Rabs (w k) * Rmax (Rabs (b k)) (Rabs (a k))) <= c).
  { intros w a b c Q. rewrite (rsum_ext n_h _ (fun k => Rabs (w k) * Rmax (Rabs (a k)) (Rabs (b k)))); [exact Q|]. intros i _. rewrite Rmax_comm. reflexivity. }
  unfold bb_close, merge_bb, merge_with_previous. cbn [bb_wu bb_bu bb_wl bb_bl full_w]. unfold mm, vm, mpos, mneg. split; [|split; [|split]].
  - intros i j Hi Hj. destruct (H j Hj) as (Hw & _). destruct (HA j Hj) as (Sw & _). destruct (Hw i Hi) as [Q _]. destruct (Sw i Hi) as [P _].
    pose proof (merge_neuron_error k N n_h m _ None _ _ j _ A Q) as E. cbn [opt_vec] in E. rewrite Rabs_R0, !Rplus_0_r in E. exact (E P).
  - intros j Hj. destruct (H j Hj) as (_ & Q & _). destruct (HA j Hj) as (_ & P & _). exact (merge_neuron_error k N n_h m _ _ _ _ j _ A Q P).
  - intros i j Hi Hj. destruct (H j Hj) as (Hw & _). destruct (HA j Hj) as (Sw & _). destruct (Hw i Hi) as [_ Q]. destruct (Sw i Hi) as [_ P].
    pose proof (merge_neuron_error k N n_h m _ None _ _ j _ A Q) as E. cbn [opt_vec] in E. rewrite Rabs_R0, !Rplus_0_r in E. exact (E (S (fun c => bb_wl C c j) _ _ _ P)).
  - intros j Hj. destruct (H j Hj) as (_ & _ & Q). destruct (HA j Hj) as (_ & _ & P). apply (merge_neuron_error k N n_h m _ _ _ _ j _ A Q). cbn [opt_vec].
    assert (P' : rsum n_h (fun c => Rabs (bb_wl C c j) * Rmax (Rabs (bb_bu B c)) (Rabs (bb_bl B c))) <= A - Rabs (bb_bl C j)) by lra. apply (S (fun c => bb_wl C c j)) in P'. lra.
Qed.
Lemma bb_close_le : forall n m d d' B B', d <= d' -> bb_close n m d B B' -> bb_close n m d' B B'.
Proof.
  intros n m d d' B B' H (H1 & H2 & H3 & H4). unfold bb_close, entries_close in *. split; [|split; [|split]]; intros.
  - eapply Rle_trans; [apply H1; assumption|exact H].
  - eapply Rle_trans; [apply H2; assumption|exact H].
  - eapply Rle_trans; [apply H3; assumption|exact H].
  - eapply Rle_trans; [apply H4; assumption|exact H].
Qed.

Lemma hull_error_pos : forall A, 0 <= A -> 0 <= hull_error u32 eta32 A.
Proof. intros A HA. unfold hull_error. pose proof u32_8. pose proof P_FloatMerge.eta32_pos. assert (0 <= u32 * A) by (apply Rmult_le_pos; lra). assert (0 <= A * eta32) by (apply Rmult_le_pos; lra). lra. Qed.
Lemma scale_error_pos : forall A, 0 <= A -> 0 <= scale_error u32 eta32 A.
Proof. intros A HA. unfold scale_error. pose proof u32_8. pose proof P_FloatMerge.eta32_pos. assert (0 <= u32 * A) by (apply Rmult_le_pos; lra). assert (0 <= A * eta32) by (apply Rmult_le_pos; lra). lra. Qed.
Lemma call_parts : forall k N A, 0 <= A -> float_error u32 eta32 k N A <= call_error u32 eta32 k N A /\ hull_error u32 eta32 A <= call_error u32 eta32 k N A /\ 0 <= call_error u32 eta32 k N A.
Proof.
  intros k N A HA. pose proof (hull_error_pos A HA) as H. pose proof (float_error_pos u32 eta32 k N A (proj1 u32_8) P_FloatMerge.eta32_pos HA). unfold call_error. lra.
Qed.

(** ** a run in binary32 is a run with errors, for other slopes of the lower lines of relu *)
(** the upper bounds of the forward pass are numbers of binary32 when those of the box are *)
Lemma forward_numbers : forall k N ke n opts bo net o z tr q, net_ok n net -> blayers_ok bo net -> (forall i L ps, nth_error net i = Some (Some L, ps) -> crown_layer_bn L) ->
  (forall i, (i < n)%nat -> rnd32 (z 1%nat i) = z 1%nat i) -> float_run_all op32 (any_order op32 k N) ke n opts net o z tr q ->
  forall p, (p < length net)%nat -> exists u l, r_nodes q p = [u; l] /\ forall j, (j < net_dim n net p)%nat -> rnd32 (u 0%nat j) = u 0%nat j.
Proof.
  intros k N ke n opts bo net o z tr q Hnet Hlay Hcl Hz (H1 & H2 & _) i. induction (lt_wf i) as [i _ IH]. intros Hi.
  destruct (nth_error net i) as [[x ps]|] eqn:En; [|apply nth_error_None in En; lia]. specialize (H2 i x ps En). destruct (Hnet i x ps En) as [Hp Hq].
  assert (Dn : net_dim n net i = match x with Some L => nl_out L | None => n end) by (unfold net_dim; rewrite En; destruct x; reflexivity). rewrite Dn. clear Dn.
  destruct x as [L|]; [|cbn in H1; injection H1 as H1; exists (vt (z 1%nat)), (vt (z 0%nat)); split; [rewrite H2, <- H1; reflexivity|exact Hz]].
  destruct Hq as [_ Hq]. specialize (Hcl i L ps En). destruct (Hlay i L ps En) as [HL _].
  assert (O : forall x y, op32 x y -> rnd32 y = y) by (intros x y Q; unfold op32, fop in Q; rewrite Q; apply rnd32_idem).
  assert (G : forall m, nl_in L = [m] -> exists u l, concat (map (r_nodes q) ps) = [u; l] /\ forall j, (j < m)%nat -> rnd32 (u 0%nat j) = u 0%nat j).
  { intros m Em. rewrite Em in Hq. destruct ps as [|p [|]]; try discriminate Hq. cbn [map] in Hq. injection Hq as Hq. specialize (Hp p (or_introl eq_refl)). destruct (IH p Hp ltac:(lia)) as (u & l & Er & V).
    exists u, l. cbn [map concat]. rewrite app_nil_r. split; [exact Er|]. rewrite Hq in V. exact V. }
  assert (F : forall F, lin_of L = Some F -> float_linear op32 (any_order op32 k N) F (concat (map (r_nodes q) ps)) (r_nodes q i) -> exists u l, r_nodes q i = [u; l] /\ forall j, (j < nl_out L)%nat -> rnd32 (u 0%nat j) = u 0%nat j).
  { intros F EF Q. unfold float_linear in Q. destruct (concat (map (r_nodes q) ps)) as [|? [|? [|]]]; try contradiction. destruct (r_nodes q i) as [|u [|l [|]]]; try contradiction.
    exists u, l. split; [reflexivity|]. intros j Hj. rewrite <- (P_Float32.lin_one L F EF) in Hj. destruct (Q j Hj) as ((a & b & s & _ & _ & Os & Ob) & _). unfold plus_bias in Ob. destruct (ln_bias F); [exact (O _ _ Ob)|rewrite Ob; exact (O _ _ Os)]. }
  destruct L; try contradiction; cbn [float_call lin_of merge_op] in H2; try (eapply F; [reflexivity|exact H2]); clear F.
  - (* BatchNormalization *) unfold float_bn in H2. destruct (b_axis _ _); [|contradiction]. destruct (concat (map (r_nodes q) ps)) as [|? [|? [|]]]; try contradiction. destruct (r_nodes q i) as [|u [|l [|]]]; try contradiction.
    exists u, l. split; [reflexivity|]. intros j Hj. destruct (H2 j Hj) as ((da & db & s & t1 & za & zb & p & v & w & Q) & _). decompose [and] Q. eapply O. eassumption.
  - (* Flatten *) destruct (G _ eq_refl) as (u & l & Ec & V). rewrite Ec in H2. cbn in H2. injection H2 as H2. rewrite <- H2. do 2 eexists. split; [reflexivity|]. intros j Hj. cbn. apply V.
    unfold flatten_idx. cbn in Hj. destruct channels_first; auto. assert (ch <> 0%nat) by (intro Q; rewrite Q in Hj; lia).
    assert (j mod ch < ch)%nat by (apply Nat.mod_upper_bound; auto). assert (j / ch < size)%nat by (apply Nat.div_lt_upper_bound; auto). nia.
  - destruct (G _ eq_refl) as (u & l & Ec & V). rewrite Ec in H2. cbn in H2. injection H2 as H2. rewrite <- H2. do 2 eexists. split; [reflexivity|]. exact V.
  - (* Permute *) destruct (G _ eq_refl) as (u & l & Ec & V). rewrite Ec in H2. cbn in H2. injection H2 as H2. rewrite <- H2. do 2 eexists. split; [reflexivity|]. intros j Hj. cbn. apply V. apply P_Move.transpose_lt; [|exact Hj].
    cbn in HL. destruct HL as [HL _]. rewrite <- seq_shift in HL. apply (Permutation_map Nat.pred) in HL. rewrite map_map in HL. cbn in HL. rewrite map_id in HL. exact HL.
  - destruct (G _ eq_refl) as (u & l & Ec & V). rewrite Ec in H2. cbn in H2. injection H2 as H2. rewrite <- H2. do 2 eexists. split; [reflexivity|]. exact V.
  - destruct (G _ eq_refl) as (u & l & Ec & V). rewrite Ec in H2. destruct Hcl as [-> | ->]; cbn in H2; injection H2 as H2; rewrite <- H2; do 2 eexists; (split; [reflexivity|]); [exact V|].
    intros j Hj. cbn. specialize (V j Hj). unfold Rrelu. unfold Rmax. destruct (Rle_dec _ _); [exact rnd32_0|exact V].
Qed.

Section Run.
Variables (k N : nat) (ke X A d : R) (n : nat) (opts : nat -> lopts) (bo : nat -> bopts) (net : network) (z : tensor) (r : crun).
Hypothesis Hke : 0 < ke.
Hypothesis Hek : eta32 <= u32 * ke.
Hypothesis HA : 0 <= A.
Hypothesis Hnet : net_ok n net.
Hypothesis Hlay : blayers_ok bo net.
Hypothesis Hcl : forall i L ps, nth_error net i = Some (Some L, ps) -> crown_layer_bn L.
Hypothesis Herr : forall f o, c_fwd r = Some f -> run_size A net (mk_run (c_inputs r) f (f o)) -> errors_within u32 eta32 k N A d net (fun _ _ => []) (mk_run (c_inputs r) f (f o)).
Hypothesis Hbn : bn_size u32 eta32 A net.
Hypothesis Hsc : forall i pre kk post axis gamma beta mean var eps ps, nth_error net i = Some (Some (NBatchNorm pre kk post axis gamma beta mean var eps), ps) -> scale_error u32 eta32 A <= d.
Hypothesis Hd : float_error u32 eta32 k N A <= d /\ hull_error u32 eta32 A <= d /\ 0 <= d.
Hypothesis HX : forall i, (i < n)%nat -> Rabs (z 0%nat i) <= X /\ Rabs (z 1%nat i) <= X.

Local Notation dot := (any_order op32 k N).
Local Notation sp := (mk_spec false IBP Box n).

(** the slopes chosen by the run *)
Definition run_opts (i : nat) : bopts :=
  match nth_error net i, c_nodes r i with
  | Some (Some (NActivation Arelu m), _), [u; l] =>
      mk_bopts O_SLOPE (Some (zero_vec, fun j => h_wl (hull_fn ke (bo_slope (bo i)) (option_map (fun v : vec * vec => snd v j) (bo_ft (bo i))) (u 0%nat j) (l 0%nat j))))
  | _, _ => bo i
  end.

Hypothesis Hr : exists o, float_crown op32 dot ke X A n opts bo net o z r.

(** the inputs of a relu are results of operations in binary32 *)
Lemma relu_inputs : forall i m ps, nth_error net i = Some (Some (NActivation Arelu m), ps) ->
  exists u l, c_nodes r i = [u; l] /\ forall j, (j < m)%nat -> rnd32 (u 0%nat j) = u 0%nat j /\ Rabs (l 0%nat j) <= A.
Proof using Hnet Hlay Hcl Hr.
  clear - Hnet Hlay Hcl Hr.
  intros i m ps E. destruct Hr as (o & Hfwd & _ & Hnodes & _). destruct (bnet_unary sp bo net Hnet Hlay i _ ps E) as (p & -> & Em). cbn [nl_in] in Em. injection Em as Em.
  specialize (Hnodes i _ _ E). cbn in Hnodes. destruct (c_fwd r) as [f|].
  { assert (Hp : (p < length net)%nat) by (destruct (Hnet i _ [p] E) as [Hp _]; specialize (Hp p (or_introl eq_refl)); assert (i < length net)%nat by (apply nth_error_Some; rewrite E; discriminate); lia).
    destruct Hfwd as (Hrun & _ & Hz & H). destruct (H p Hp) as (u & l & Ef & Hj). exists u, l. rewrite Hnodes. split; [exact Ef|]. intros j Hjm. rewrite Em in Hjm. destruct (Hj j Hjm) as (_ & Q).
    split; [|exact Q]. assert (Hz1 : forall a, (a < n)%nat -> rnd32 (z 1%nat a) = z 1%nat a) by (intros a Ha; destruct (Hz a Ha) as [_ O]; unfold op32, fop in O; symmetry; exact O).
    destruct (forward_numbers _ _ _ _ _ _ _ _ _ _ _ Hnet Hlay Hcl Hz1 Hrun p Hp) as (u' & l' & Ef' & V). cbn [r_nodes] in Ef'. rewrite Ef in Ef'. injection Ef' as <- <-. exact (V j Hjm). }
  destruct Hnodes as (B & u & l & _ & Et & H). exists u, l. split; [exact Et|]. intros j Hj. rewrite Em in Hj. destruct (H j Hj) as ((s & _ & O) & _ & _ & _ & _ & Q).
  split; [|exact Q]. unfold op32, fop in O. rewrite O. apply rnd32_idem.
Qed.
Lemma ft_each : forall i L ps j g, nth_error net i = Some (Some L, ps) -> (j < nl_out L)%nat -> option_map (fun v : vec * vec => snd v j) (bo_ft (bo i)) = Some g -> 0 <= g <= 1.
Proof.
  intros i L ps j g E Hj H. destruct (Hlay i L ps E) as [_ F]. destruct (bo_ft (bo i)) as [v|]; [|discriminate H]. cbn in H, F. injection H as <-. apply F. exact Hj.
Qed.
Lemma opts_ok : blayers_ok run_opts net.
Proof.
  intros i L ps E. destruct (Hlay i L ps E) as [HL HF]. split; [exact HL|]. unfold run_opts. rewrite E. destruct L; try exact HF. destruct a; try exact HF.
  destruct (relu_inputs i m ps E) as (u & l & Ec & H). rewrite Ec. cbn [bo_ft option_map snd ft_ok nl_out]. intros j Hj. destruct (H j Hj) as [Hu Hl].
  eapply hull_close; [exact Hke|exact Hek|exact Hu| |exact Hl|apply hull_fn_ok]. intros g Hg. exact (ft_each i _ ps j g E Hj Hg).
Qed.
Lemma float_backward_close : forall i L ps B B0, nth_error net i = Some (Some L, ps) -> float_backward op32 ke n (bo i) L (c_nodes r i) B ->
  backward_call ke sp (run_opts i) L (c_nodes r i) = Ok B0 -> bb_close (nth 0 (nl_in L) O) (nl_out L) d B0 B.
Proof.
  intros i L ps B B0 E HB E0. destruct Hd as (D1 & D2 & D3).
  assert (K : forall L', (forall m, L' <> NActivation Arelu m) -> (forall pre kk post axis gamma beta mean var eps, L' <> NBatchNorm pre kk post axis gamma beta mean var eps) -> L = L' -> bb_close (nth 0 (nl_in L) O) (nl_out L) d B0 B).
  { intros L' HL' HB' EL. assert (Hb : backward_call ke sp (bo i) L (c_nodes r i) = Ok B).
    { subst L'. destruct L; try exact HB; [contradiction (HB' _ _ _ _ _ _ _ _ _ eq_refl)|]. destruct a; try exact HB. contradiction (HL' m eq_refl). }
    assert (Ro : run_opts i = bo i). { unfold run_opts. rewrite E. subst L'. destruct L; try reflexivity. destruct a; try reflexivity. contradiction (HL' m eq_refl). }
    rewrite Ro, Hb in E0. injection E0 as <-. apply bb_close_same. exact D3. }
  assert (Z0 : forall x : R, Rabs (x - x) <= d) by (intros x; rewrite Rminus_diag_eq, Rabs_R0 by reflexivity; exact D3).
  destruct L; try (eapply K; [| |reflexivity]; intros; discriminate).
  { clear K. cbn [float_backward] in HB. destruct HB as (w & b & Hw & EB). cbn [backward_call] in E0. unfold run_opts in E0. injection E0 as <-. cbv zeta in EB. subst B. cbn [nl_in nl_out nth].
    set (sh := pre ++ k0 :: post) in *. destruct (Hlay i _ ps E) as [[HV Hax] _].
    assert (Hc : forall j, (j < prodn sh)%nat -> (bn_chan sh (length pre) j < k0)%nat) by (intros j Hj; apply (P_FloatNet.chan_lt pre k0 post (pos_axis pre) (length pre) j); [left; reflexivity|apply P_Axis.b_axis_pos|exact Hj]).
    assert (C : forall c, (c < k0)%nat -> Rabs (w c - opt_vec 1 gamma c / sqrt (var c + eps)) <= d /\ Rabs (b c - (opt_vec 0 beta c - opt_vec 1 gamma c / sqrt (var c + eps) * mean c)) <= d).
    { intros c Hck. destruct (Hbn i _ _ _ _ _ _ _ _ _ ps c E Hck) as (S1 & S2 & S3). pose proof (Hsc i _ _ _ _ _ _ _ _ _ ps E) as HS.
      assert (HF : fl_bn_line (rounded u32 eta32) (opt_vec 1 gamma c) (opt_vec 0 beta c) (mean c) (var c) eps (w c) (b c)).
      { destruct (Hw c Hck) as (s1 & t1 & p1 & F1 & F2 & F3 & F4 & F5). exists s1, t1, p1. repeat (split; [apply op32_rounded; assumption|]). apply op32_rounded; assumption. }
      destruct (bn_line_near u32 eta32 A _ _ _ _ _ _ _ u32_100 P_FloatMerge.eta32_pos (HV c Hck) S1 S2 S3 HF) as [N1 N2]. split; eapply Rle_trans; eassumption. }
    assert (C' : forall i0 j, (j < prodn sh)%nat -> (i0 < prodn sh)%nat -> Rabs ((if Nat.eqb i0 j then 1 else 0) * w (bn_chan sh (length pre) i0) - (if Nat.eqb i0 j then 1 else 0) * (opt_vec 1 gamma (bn_chan sh (length pre) i0) / sqrt (var (bn_chan sh (length pre) i0) + eps))) <= d).
    { intros i0 j Hj Hi0. destruct (C _ (Hc i0 Hi0)) as [C1 _]. destruct (Nat.eqb i0 j); [rewrite !Rmult_1_l; exact C1|rewrite !Rmult_0_l; apply Z0]. }
    unfold backward_bn, bb_close, entries_close. cbn [bb_wu bb_bu bb_wl bb_bl]. split; [|split; [|split]].
    - intros i0 j Hi0 Hj. apply C'; assumption.
    - intros j Hj. exact (proj2 (C _ (Hc j Hj))).
    - intros i0 j Hi0 Hj. apply C'; assumption.
    - intros j Hj. exact (proj2 (C _ (Hc j Hj))). }
  destruct a; try (eapply K; [| |reflexivity]; intros; discriminate). clear K.
  destruct (relu_inputs i m ps E) as (u & l & Ec & H). cbn [float_backward] in HB. rewrite Ec in HB. destruct HB as (hl & -> & Hh).
  cbn [backward_call backward_act] in E0. unfold run_opts in E0. rewrite E, Ec in E0. cbn [bo_slope bo_ft] in E0. rewrite backward_relu_ibp in E0. injection E0 as <-.
  cbn [nl_in nl_out nth option_map snd]. unfold bb_close, hull_bb. cbn [bb_wu bb_bu bb_wl bb_bl].
  assert (C : forall j, (j < m)%nat -> let h0 := hull_relu ke O_SLOPE (Some (h_wl (hull_fn ke (bo_slope (bo i)) (option_map (fun v : vec * vec => snd v j) (bo_ft (bo i))) (u 0%nat j) (l 0%nat j)))) (u 0%nat j) (l 0%nat j) in
    Rabs (h_wu (hl j) - h_wu h0) <= hull_error u32 eta32 A /\ Rabs (h_bu (hl j) - h_bu h0) <= hull_error u32 eta32 A /\ h_wl (hl j) = h_wl h0 /\ h_bl (hl j) = h_bl h0 /\ 0 <= h_wl (hl j) <= 1).
  { intros j Hj. destruct (H j Hj) as [Hu Hl]. rewrite <- (hull_det _ _ _ _ _ _ (Hh j Hj)). eapply hull_close; [exact Hke|exact Hek|exact Hu| |exact Hl|exact (Hh j Hj)]. intros g Hg. exact (ft_each i _ ps j g E Hj Hg). }
  split; [|split; [|split]].
  - intros a j Ha Hj. destruct (C j Hj) as (C1 & _). unfold diag. destruct (Nat.eqb a j); [eapply Rle_trans; [exact C1|exact D2]|apply Z0].
  - intros j Hj. destruct (C j Hj) as (_ & C2 & _). eapply Rle_trans; [exact C2|exact D2].
  - intros a j Ha Hj. destruct (C j Hj) as (_ & _ & C3 & _). unfold diag. destruct (Nat.eqb a j); [rewrite C3; apply Z0|apply Z0].
  - intros j Hj. destruct (C j Hj) as (_ & _ & _ & C4 & _). rewrite C4. apply Z0.
Qed.

Local Notation g := (backward_net ke sp run_opts n net).
Lemma merged_close : forall m L B back M, ly_model L = false -> float_merged op32 dot A (ly_in L) (ly_out L) m B back M -> merged d m L B back M.
Proof.
  intros m L B back M HL H. unfold merged. destruct back as [C|]; [|exact H]. rewrite HL. destruct H as [H1 H2]. eapply bb_close_le; [exact (proj1 Hd)|]. exact (float_merge_close k N A _ _ _ _ _ _ H1 H2).
Qed.
Lemma fcrown_rcrown : forall m i back F, fcrown op32 dot ke A n bo net (c_nodes r) m i back F -> rcrown IBP g (c_nodes r) d m i back F.
Proof.
  intros m i back F H. induction H as [i back M E HM|i L p back B M F E HB HM _ IH].
  - pose proof (bnet_node ke sp run_opts net i None [] E) as Eg. cbn [sp_n] in Eg. destruct Hd as (_ & _ & D3).
    eapply rc_input; [exact Eg| |apply merged_close; [reflexivity|exact HM]|].
    + intros B0 Q. cbn in Q. injection Q as <-. apply bb_close_same. exact D3.
    + intros F0 Q. cbn in Q. injection Q as <-. apply bb_close_same. exact D3.
  - pose proof (bnet_node ke sp run_opts net i (Some L) [p] E) as Eg. cbn [sp_n] in Eg.
    eapply rc_layer; [exact Eg| |apply merged_close; [reflexivity|exact HM]|exact IH].
    intros B0 Q. cbn [blayer_of backward_layer ly_in ly_out ly_bwd] in Q |- *. exact (float_backward_close i L [p] B B0 E HB Q).
Qed.
Lemma fnode_rnode : forall p ts, c_inputs r = [vt (z 1%nat); vt (z 0%nat)] -> (p < length net)%nat ->
  fnode op32 dot ke X A n bo net (c_nodes r) (c_inputs r) p ts -> rnode IBP Box n g (c_nodes r) (c_inputs r) d p ts.
Proof.
  intros p ts Ei Hp (B & u & l & HB & -> & H) L ps Eg. destruct (bnet_node_inv ke sp run_opts net p L ps Eg) as (q & En & ->).
  rewrite (blayer_out ke sp run_opts net p q ps En). cbn [sp_n]. exists B. split; [exact (fcrown_rcrown _ _ _ _ HB)|].
  intros out Q. rewrite Ei in Q. cbn in Q. injection Q as <-. destruct Hd as (D1 & _ & _).
  rewrite Ei in H. unfold box_of in H. cbn [nth] in H.
  assert (HX' : forall i, (i < n)%nat -> Rabs (z 1%nat i) <= X /\ Rabs (z 0%nat i) <= X) by (intros i Hi; destruct (HX i Hi); auto).
  cbn [close]. split; intros i j Hi Hj; destruct (H j Hj) as (HU & HL & SU & SL & _); (eapply Rle_trans; [|exact D1]); replace i with O by lia.
  - exact (fl_bound_error u32 eta32 k N n _ _ _ _ _ X A (proj1 u32_8) P_FloatMerge.eta32_pos HX' (fl_bound32 _ _ _ _ _ _ _ _ HU) SU).
  - exact (fl_bound_error u32 eta32 k N n _ _ _ _ _ X A (proj1 u32_8) P_FloatMerge.eta32_pos HX (fl_bound32 _ _ _ _ _ _ _ _ HL) SL).
Qed.
Lemma float_is_rounded : forall o, (o < length net)%nat -> float_crown op32 dot ke X A n opts bo net o z r -> rounded_crown ke Box n IBP IBP opts run_opts net o z d r.
Proof.
  intros o Ho (Hf & Ei & Hnodes & Hlast & Eo). destruct Hd as (_ & _ & D3). assert (Ei' : c_inputs r = [vt (z 1%nat); vt (z 0%nat)]) by (cbn in Ei; injection Ei as <-; reflexivity).
  unfold rounded_crown. cbv zeta. split; [|split; [|split; [|split]]].
  - intros its Q. rewrite Ei in Q. injection Q as <-. cbn [inputs_close]. rewrite Ei'. apply close_same; [lra|reflexivity].
  - destruct (c_fwd r) as [f|] eqn:Ef in Hf |- *; [|exact I]. destruct Hf as (Hf1 & Hf2 & _ & _).
    assert (Hf4 : forall i L ps, nth_error net i = Some (Some L, ps) -> float_layer_linear L) by (intros i L ps E; specialize (Hcl i L ps E); destruct L; try contradiction; cbn; auto).
    assert (Hf5 : merges_within (Nat.min k N) net) by (intros i L ps E Q; specialize (Hcl i L ps E); destruct L; try contradiction; contradiction Q; reflexivity).
    destruct (P_FloatNet.all_rounded u32 eta32 k N ke n opts net o z _ _ A d u32_100 P_FloatMerge.eta32_pos HA Hnet Hf4 Ho Hf5 (P_FloatNet.all_impl op32 _ _ _ _ _ _ _ _ _ _ _ _ op32_rounded Hf1) (Herr f o Ef Hf2)) as (_ & _ & R2 & _).
    intros i q ps E. exact (R2 i q ps E).
  - intros i L ps Eg. destruct (bnet_node_inv ke sp run_opts net i L ps Eg) as (q & En & _). specialize (Hnodes i q ps En). destruct ps as [|p [|]]; [exact Hnodes| |exact I].
    destruct (c_fwd r) as [f|] in Hnodes |- *; [exact Hnodes|]. apply fnode_rnode; [exact Ei'| |exact Hnodes]. destruct (Hnet i q [p] En) as [Hp _]. specialize (Hp p (or_introl eq_refl)). assert (i < length net)%nat by (apply nth_error_Some; rewrite En; discriminate). lia.
  - apply fnode_rnode; assumption.
  - intros out Q. rewrite Eo. destruct Hlast as (B & u & l & _ & El & _). rewrite El in *. cbn in Q. injection Q as <-. apply close_same; [exact D3|reflexivity].
Qed.
End Run.

Lemma crown_no_bn : forall A net, (forall i L ps, nth_error net i = Some (Some L, ps) -> crown_layer L) -> bn_size u32 eta32 A net.
Proof. intros A net H i pre k post axis gamma beta mean var eps ps c E. contradiction (H i _ ps E). Qed.
Lemma crown_layer_more : forall L, crown_layer L -> crown_layer_bn L.
Proof. intros L H. destruct L; try exact H; try contradiction. Qed.
Lemma float_crown_run : forall k N ke X A n opts bo net o z r,
  0 < ke -> eta32 <= u32 * ke -> 0 <= A -> net_ok n net -> blayers_ok bo net -> (o < length net)%nat -> (forall i L ps, nth_error net i = Some (Some L, ps) -> crown_layer L) ->
  (forall i, (i < n)%nat -> Rabs (z 0%nat i) <= X /\ Rabs (z 1%nat i) <= X) -> float_crown op32 (any_order op32 k N) ke X A n opts bo net o z r ->
  exists bo', blayers_ok bo' net /\ rounded_crown ke Box n IBP IBP opts bo' net o z (call_error u32 eta32 k N A) r.
Proof.
  intros k N ke X A n opts bo net o z r Hke Hek HA Hnet Hlay Ho Hcl HX Hr.
  exists (run_opts ke bo net r). split.
  - apply (opts_ok k N ke X A n opts bo net z r Hke Hek Hnet Hlay (fun i L ps E => crown_layer_more L (Hcl i L ps E))). exists o. exact Hr.
  - eapply float_is_rounded; eauto.
    + intros i L ps E. apply crown_layer_more. exact (Hcl i L ps E).
    + intros f o' _ Hs. split; [exact Hs|]. split; [apply call_parts; exact HA|]. intros i L ps E. specialize (Hcl i L ps E). destruct L; try contradiction; exact I.
    + apply crown_no_bn. exact Hcl.
    + intros i pre kk post axis gamma beta mean var eps ps E. contradiction (Hcl i _ ps E).
    + apply call_parts. exact HA.
Qed.
(** with BatchNormalization *)
Lemma float_crown_run_bn : forall k N ke X A E n opts bo net o z r,
  0 < ke -> eta32 <= u32 * ke -> 0 <= A -> net_ok n net -> blayers_ok bo net -> (o < length net)%nat -> (forall i L ps, nth_error net i = Some (Some L, ps) -> crown_layer_bn L) ->
  bn_size u32 eta32 A net -> 0 <= E -> (forall f, c_fwd r = Some f -> errors_within u32 eta32 k N A E net (fun _ _ => []) (mk_run (c_inputs r) f (f o))) ->
  (forall i, (i < n)%nat -> Rabs (z 0%nat i) <= X /\ Rabs (z 1%nat i) <= X) -> float_crown op32 (any_order op32 k N) ke X A n opts bo net o z r ->
  exists bo', blayers_ok bo' net /\ rounded_crown ke Box n IBP IBP opts bo' net o z (call_error u32 eta32 k N A + scale_error u32 eta32 A + E) r.
Proof.
  intros k N ke X A E n opts bo net o z r Hke Hek HA Hnet Hlay Ho Hcl Hbn HE Hf HX Hr. pose proof (scale_error_pos A HA) as S0. destruct (call_parts k N A HA) as (D1 & D2 & D3).
  exists (run_opts ke bo net r). split.
  - apply (opts_ok k N ke X A n opts bo net z r Hke Hek Hnet Hlay Hcl). exists o. exact Hr.
  - apply (float_is_rounded k N ke X A (call_error u32 eta32 k N A + scale_error u32 eta32 A + E) n opts bo net z r Hke Hek HA Hnet Hlay Hcl); auto; [| |split; [lra|]; split; lra|exists o; exact Hr].
    + intros f o' Ef _. destruct (Hf f Ef) as (F1 & F2 & F3). split; [exact F1|]. split; [lra|]. intros i L ps En. specialize (F3 i L ps En). specialize (Hcl i L ps En). destruct L; try contradiction; try exact I.
      intros a uc lc j Ea Ec Hj. destruct (F3 a uc lc j Ea Ec Hj) as (G1 & G2 & G3 & G4). cbv zeta. split; [exact G1|]. split; [exact G2|]. split; [exact G3|]. eapply Rle_trans; [exact G4|]. lra.
    + intros i pre kk post axis gamma beta mean var eps ps En. lra.
Qed.
