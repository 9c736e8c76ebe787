(** The method crown in interval mode on a box in floating-point arithmetic: the theorems, a refutation and an example. *)
From Coq Require Import Reals List Arith Bool ZArith Lra Lia Permutation.
From Flocq Require Import Core.
From Verif Require Import RLib Spec Spec_Layers Spec_Backward Spec_Near Spec_Rounding Spec_RoundingCrown Spec_Float Spec_FloatMerge Spec_FloatNet Spec_FloatAffine Spec_FloatCrown M_Core M_Utils M_MergeLayers M_Ops M_Layers M_Pool M_Backward M_Crown M_Convert M_Network M_Rounding M_RoundingCrown M_Float M_FloatMerge M_FloatNet M_FloatHull M_FloatAffine M_FloatCrown.
From Verif Require Import P_Core P_Utils P_Convert P_Near P_Network P_NetworkCrown P_NetworkForward P_NetworkThm P_Rounding P_Lipschitz P_RoundingThm P_RoundingCrown P_RoundingCrownThm P_Float P_FloatThm P_FloatMerge P_FloatHull P_FloatAffine P_FloatAffineThm P_FloatCrown.
From Verif Require P_FloatNet.
From Verif Require Import Spec_Network.
Import ListNotations.
Local Open Scope R_scope.

Lemma crown_piecewise : forall L, crown_layer L -> nl_piecewise L.
Proof. intros L H. destruct L; try contradiction; cbn; auto. Qed.

Lemma crown_piecewise_bn : forall L, crown_layer_bn L -> nl_piecewise L.
Proof. intros L H. destruct L; try contradiction; cbn; auto. Qed.

Lemma float_crown_bounds : forall k N ke X A n opts bo net v o z r W Y,
  0 < ke -> eta32 <= u32 * ke -> 0 <= A -> (0 < n)%nat -> net_ok n net -> net_value net v -> blayers_ok bo net -> (c_fwd r <> None -> layers_ok IBP opts net) -> (o < length net)%nat ->
  (forall i L ps, nth_error net i = Some (Some L, ps) -> crown_layer L) ->
  (forall i, (i < n)%nat -> Rabs (z 0%nat i) <= X /\ Rabs (z 1%nat i) <= X) -> 0 <= Y -> nodes_within (in_dom Box n z) n net v W Y ->
  float_crown op32 (any_order op32 k N) ke X A n opts bo net o z r ->
  exists u l, c_out r = [u; l] /\ forall y j, in_dom Box n z y -> (j < net_dim n net o)%nat ->
    let d := call_error u32 eta32 k N A in let e := crown_error (INR W * d) net * (ke + d * (1 + INR W * Y)) in
    l 0%nat j - e <= v o y j <= u 0%nat j + e.
Proof.
  intros k N ke X A n opts bo net v o z r W Y Hke Hek HA Hn Hnet Hval Hlay Hf Ho Hcl HX HY HW Hr.
  destruct (float_crown_run k N ke X A n opts bo net o z r Hke Hek HA Hnet Hlay Ho Hcl HX Hr) as (bo' & Hlay' & Hr').
  assert (D0 : 0 <= call_error u32 eta32 k N A) by (apply call_parts; exact HA).
  apply (crown_constants ke Box n IBP z opts bo' net v o _ W Y r Hke Hn I (fun _ => eq_refl) Hnet Hval Hlay'); auto.
  - intros i L ps E. apply crown_piecewise. exact (Hcl i L ps E).
Qed.

Lemma float_crown_bounds_bn : forall k N ke X A E n opts bo net v o z r W Y,
  0 < ke -> eta32 <= u32 * ke -> 0 <= A -> (0 < n)%nat -> net_ok n net -> net_value net v -> blayers_ok bo net -> (o < length net)%nat ->
  (forall i L ps, nth_error net i = Some (Some L, ps) -> crown_layer_bn L) ->
  bn_size u32 eta32 A net -> 0 <= E -> (forall f, c_fwd r = Some f -> layers_ok IBP opts net /\ errors_within u32 eta32 k N A E net (fun _ _ => []) (mk_run (c_inputs r) f (f o))) ->
  (forall i, (i < n)%nat -> Rabs (z 0%nat i) <= X /\ Rabs (z 1%nat i) <= X) -> 0 <= Y -> nodes_within (in_dom Box n z) n net v W Y ->
  float_crown op32 (any_order op32 k N) ke X A n opts bo net o z r ->
  exists u l, c_out r = [u; l] /\ forall y, in_dom Box n z y ->
    let d := call_error u32 eta32 k N A + scale_error u32 eta32 A + E in let e := crown_error (INR W * d) net * (ke + d * (1 + INR W * Y)) in
    (forall j, (j < net_dim n net o)%nat -> l 0%nat j - e <= v o y j <= u 0%nat j + e) /\
    forall d' a, 0 <= d' -> rounded_values net d' y a -> forall j, (j < net_dim n net o)%nat -> l 0%nat j - (e + net_slack net * d') <= a o j <= u 0%nat j + (e + net_slack net * d').
Proof.
  intros k N ke X A E n opts bo net v o z r W Y Hke Hek HA Hn Hnet Hval Hlay Ho Hcl Hbn HE Hf HX HY HW Hr.
  destruct (float_crown_run_bn k N ke X A E n opts bo net o z r Hke Hek HA Hnet Hlay Ho Hcl Hbn HE (fun f Q => proj2 (Hf f Q)) HX Hr) as (bo' & Hlay' & Hr').
  assert (D0 : 0 <= call_error u32 eta32 k N A + scale_error u32 eta32 A + E) by (apply Rplus_le_le_0_compat; [apply Rplus_le_le_0_compat; [apply call_parts; exact HA|apply scale_error_pos; exact HA]|exact HE]).
  assert (Hlf : c_fwd r <> None -> layers_ok IBP opts net) by (destruct (c_fwd r) as [f|]; [intros _; exact (proj1 (Hf f eq_refl))|intros Q; contradiction Q; reflexivity]).
  assert (Hp : forall i L ps, nth_error net i = Some (Some L, ps) -> nl_piecewise L) by (intros i L ps En; apply crown_piecewise_bn; exact (Hcl i L ps En)).
  destruct (crown_constants ke Box n IBP z opts bo' net v o _ W Y r Hke Hn I (fun _ => eq_refl) Hnet Hval Hlay' Hlf Ho Hp D0 HY HW Hr') as (u & l & Eo & V).
  exists u, l. split; [exact Eo|]. intros y Hy d e. split; [intros j Hj; exact (V y j Hy Hj)|]. intros d' a Hd' Ha j Hj.
  destruct (crown_network ke Box n IBP z opts bo' net v o _ d' W Y r y a Hke Hn I (fun _ => eq_refl) Hnet Hval Hlay' Hlf Ho Hp D0 Hd' HY HW Hr' Hy Ha) as (u' & l' & Eo' & V').
  rewrite Eo in Eo'. injection Eo' as <- <-. exact (V' j Hj).
Qed.

Lemma crown_values : forall k N A n net y a, 0 <= A -> net_ok n net -> (forall i L ps, nth_error net i = Some (Some L, ps) -> crown_layer L) ->
  float_values op32 (any_order op32 k N) net y a -> values_size A net a -> rounded_values net (float_error u32 eta32 k N A) y a.
Proof.
  intros k N A n net y a HA Hnet Hcl Ha Hs. apply (float_values_rounded u32 eta32 k N n); auto; [exact (proj1 u32_8)|exact P_FloatMerge.eta32_pos| |].
  - intros i L ps E Q. specialize (Hcl i L ps E). destruct L; try contradiction; contradiction Q; reflexivity.
  - apply (float_values_impl op32 (rounded u32 eta32) (any_order op32 k N) (any_order (rounded u32 eta32) k N) (fun _ => True) net y a op32_rounded); auto.
    + intros; eapply any_order_impl; [exact op32_rounded|eassumption].
    + intros i L ps F _ _. exact I.
Qed.

Lemma float_crown_predictions : forall k N ke X A A' n opts bo net v o z r W Y y a,
  0 < ke -> eta32 <= u32 * ke -> 0 <= A -> 0 <= A' -> (0 < n)%nat -> net_ok n net -> net_value net v -> blayers_ok bo net -> (c_fwd r <> None -> layers_ok IBP opts net) -> (o < length net)%nat ->
  (forall i L ps, nth_error net i = Some (Some L, ps) -> crown_layer L) ->
  (forall i, (i < n)%nat -> Rabs (z 0%nat i) <= X /\ Rabs (z 1%nat i) <= X) -> 0 <= Y -> nodes_within (in_dom Box n z) n net v W Y ->
  float_crown op32 (any_order op32 k N) ke X A n opts bo net o z r ->
  in_dom Box n z y -> float_values op32 (any_order op32 k N) net y a -> values_size A' net a ->
  exists u l, c_out r = [u; l] /\ forall j, (j < net_dim n net o)%nat ->
    let d := call_error u32 eta32 k N A in let e := crown_error (INR W * d) net * (ke + d * (1 + INR W * Y)) + net_slack net * float_error u32 eta32 k N A' in
    l 0%nat j - e <= a o j <= u 0%nat j + e.
Proof.
  intros k N ke X A A' n opts bo net v o z r W Y y a Hke Hek HA HA' Hn Hnet Hval Hlay Hf Ho Hcl HX HY HW Hr Hy Ha Hs.
  destruct (float_crown_run k N ke X A n opts bo net o z r Hke Hek HA Hnet Hlay Ho Hcl HX Hr) as (bo' & Hlay' & Hr').
  assert (D0 : 0 <= call_error u32 eta32 k N A) by (apply call_parts; exact HA).
  assert (D1 : 0 <= float_error u32 eta32 k N A') by (apply float_error_pos; [exact (proj1 u32_8)|exact P_FloatMerge.eta32_pos|exact HA']).
  apply (crown_network ke Box n IBP z opts bo' net v o _ _ W Y r y a Hke Hn I (fun _ => eq_refl) Hnet Hval Hlay'); auto.
  - intros i L ps E. apply crown_piecewise. exact (Hcl i L ps E).
  - exact (crown_values k N A' n net y a HA' Hnet Hcl Ha Hs).
Qed.

Lemma float_crown_decision : forall k N ke X A A' n opts bo net v o z r W Y u l j j',
  0 < ke -> eta32 <= u32 * ke -> 0 <= A -> 0 <= A' -> (0 < n)%nat -> net_ok n net -> net_value net v -> blayers_ok bo net -> (c_fwd r <> None -> layers_ok IBP opts net) -> (o < length net)%nat ->
  (forall i L ps, nth_error net i = Some (Some L, ps) -> crown_layer L) ->
  (forall i, (i < n)%nat -> Rabs (z 0%nat i) <= X /\ Rabs (z 1%nat i) <= X) -> 0 <= Y -> nodes_within (in_dom Box n z) n net v W Y ->
  float_crown op32 (any_order op32 k N) ke X A n opts bo net o z r -> c_out r = [u; l] -> (j < net_dim n net o)%nat -> (j' < net_dim n net o)%nat ->
  (let d := call_error u32 eta32 k N A in
   2 * (crown_error (INR W * d) net * (ke + d * (1 + INR W * Y)) + net_slack net * float_error u32 eta32 k N A') < l 0%nat j - u 0%nat j') ->
  forall y, in_dom Box n z y -> v o y j' < v o y j /\ forall a, float_values op32 (any_order op32 k N) net y a -> values_size A' net a -> a o j' < a o j.
Proof.
  intros k N ke X A A' n opts bo net v o z r W Y u l j j' Hke Hek HA HA' Hn Hnet Hval Hlay Hf Ho Hcl HX HY HW Hr Eo Hj Hj' Hgap y Hy.
  destruct (float_crown_run k N ke X A n opts bo net o z r Hke Hek HA Hnet Hlay Ho Hcl HX Hr) as (bo' & Hlay' & Hr').
  assert (D0 : 0 <= call_error u32 eta32 k N A) by (apply call_parts; exact HA).
  assert (D1 : 0 <= float_error u32 eta32 k N A') by (apply float_error_pos; [exact (proj1 u32_8)|exact P_FloatMerge.eta32_pos|exact HA']).
  assert (Hp : forall i L ps, nth_error net i = Some (Some L, ps) -> nl_piecewise L) by (intros i L ps E; apply crown_piecewise; exact (Hcl i L ps E)).
  destruct (crown_decision ke Box n IBP z opts bo' net v o _ _ W Y r u l j j' Hke Hn I (fun _ => eq_refl) Hnet Hval Hlay' Hf Ho Hp D0 D1 HY HW Hr' Eo Hj Hj' Hgap y Hy) as [V P].
  split; [exact V|]. intros a Ha Hs. apply P. exact (crown_values k N A' n net y a HA' Hnet Hcl Ha Hs).
Qed.

(** ** without rounding *)
Lemma crown_exact_calls : forall ke n o L u l B, crown_layer_bn L -> backward_call ke (mk_spec false IBP Box n) o L [u; l] = Ok B -> float_backward exact ke n o L [u; l] B.
Proof.
  intros ke n o L u l B HL H. destruct L; try exact H.
  - cbn [backward_call] in H. injection H as <-. cbn [float_backward]. exists (fun c => opt_vec 1 gamma c / sqrt (var c + eps)), (fun c => opt_vec 0 beta c - opt_vec 1 gamma c / sqrt (var c + eps) * mean c).
    split; [|reflexivity]. intros c Hc. do 3 eexists. unfold exact. repeat (split; [reflexivity|]). reflexivity.
  - destruct HL as [-> | ->]; [exact H|]. cbn [backward_call backward_act] in H. rewrite backward_relu_ibp in H. injection H as <-.
    cbn [float_backward]. eexists. split; [reflexivity|]. intros j Hj. cbv beta. apply hull_exact.
Qed.
Lemma merge_exact_neuron : forall n_h m (w : mat) b (x y : vec) j,
  float_neuron exact exact_dot (merge_lin n_h m w b) x y j (rsum n_h (fun c => x c * Rmax (w c j) 0) + rsum n_h (fun c => y c * Rmin (w c j) 0) + opt_vec 0 b j).
Proof.
  intros n_h m w b x y j. pose proof (neuron_exact (merge_lin n_h m w b) x y j) as Q. unfold P_FloatAffine.lin_value in Q. cbn [merge_lin ln_d ln_src ln_w ln_bias ln_unit px] in Q.
  rewrite (rsum_ext n_h (fun c => x c * Rmax 0 (w c j)) (fun c => x c * Rmax (w c j) 0)) in Q by (intros c Hc; rewrite Rmax_comm; reflexivity).
  rewrite (rsum_ext n_h (fun c => y c * Rmin 0 (w c j)) (fun c => y c * Rmin (w c j) 0)) in Q by (intros c Hc; rewrite Rmin_comm; reflexivity). exact Q.
Qed.
Lemma crown_exact_merge : forall n_in n_h k B C, float_merge_bb exact exact_dot n_in n_h k B C (merge_bb n_h B C).
Proof.
  intros n_in n_h k B C j Hj. unfold merge_bb, merge_with_previous. cbn [bb_wu bb_bu bb_wl bb_bl full_w]. unfold mm, vm, mpos, mneg. split; [|split].
  - intros i Hi. pose proof (merge_exact_neuron n_h k (bb_wu C) None (bb_wu B i) (bb_wl B i) j) as Q1. pose proof (merge_exact_neuron n_h k (bb_wl C) None (bb_wl B i) (bb_wu B i) j) as Q2.
    cbn [opt_vec] in Q1, Q2. rewrite Rplus_0_r in Q1, Q2. split; assumption.
  - apply (merge_exact_neuron n_h k (bb_wu C) (Some (bb_bu C))).
  - apply (merge_exact_neuron n_h k (bb_wl C) (Some (bb_bl C))).
Qed.
Lemma crown_exact_convert : forall n its B ts, length its = 2%nat -> convert2backward IBP Box n its B = Ok ts -> exists u l, ts = [u; l] /\
  forall j, fl_upper exact exact_dot n (box_of its) (bb_wu B) (vt (bb_bu B)) j (u 0%nat j) /\ fl_lower exact exact_dot n (box_of its) (bb_wl B) (vt (bb_bl B)) j (l 0%nat j).
Proof.
  intros n its B ts Hl H. destruct its as [|uc [|lc [|]]]; try discriminate Hl. cbn in H. injection H as <-. do 2 eexists. split; [reflexivity|]. intros j. split; apply bound_exact.
Qed.

(** ** relu on [-1, 9]: the upper bound is below relu(9) *)
Definition seam_bo : nat -> bopts := fun _ => mk_bopts Z_SLOPE None.
Definition cst (x : R) : tensor := fun _ _ => x.
Definition seam_crown : crun := mk_crun [vt (seam_box 1%nat); vt (seam_box 0%nat)] None (fun i => match i with O => [vt (seam_box 1%nat); vt (seam_box 0%nat)] | _ => [cst 9; cst (-1)] end)
  [cst (9437183 / 1048576); cst 0] [cst (9437183 / 1048576); cst 0].
Definition line1 (wu bu wl bl : R) : bb := mk_bb (fun _ _ => wu) (fun _ => bu) (fun _ _ => wl) (fun _ => bl).

Lemma neuron1 : forall w b (x y : vec) p q s v, op32 (x 0%nat * Rmax 0 (w 0%nat 0%nat)) p -> op32 (y 0%nat * Rmin 0 (w 0%nat 0%nat)) q -> op32 (p + q) s -> plus_bias op32 b 0 s v ->
  float_neuron op32 (any_order op32 2 3) (merge_lin 1 1 w b) x y 0 v.
Proof. intros w b x y p q s v H1 H2 H3 H4. exists p, q, s. split; [apply dot_one; exact H1|]. split; [apply dot_one; exact H2|]. split; [exact H3|exact H4]. Qed.
(** the identity, then a line with weights in [0, ...) *)
Lemma merge_line : forall (B C : bb) (a b c e w w' : R), 0 <= bb_wu C 0%nat 0%nat -> 0 <= bb_wl C 0%nat 0%nat ->
  op32 (bb_wu B 0%nat 0%nat * bb_wu C 0%nat 0%nat) w -> op32 (bb_wl B 0%nat 0%nat * bb_wl C 0%nat 0%nat) w' -> op32 (bb_bu B 0%nat * bb_wu C 0%nat 0%nat) a -> op32 (bb_bl B 0%nat * bb_wl C 0%nat 0%nat) c ->
  op32 (a + bb_bu C 0%nat) b -> op32 (c + bb_bl C 0%nat) e -> float_merge_bb op32 (any_order op32 2 3) 1 1 1 B C (line1 w b w' e).
Proof.
  intros B C a b c e w w' Pu Pl H1 H2 H3 H4 H5 H6 j Hj. replace j with O by lia. pose proof rnd32_0 as Z0. cbn [line1 bb_wu bb_bu bb_wl bb_bl].
  assert (I : forall x y, op32 x y -> op32 (y + 0) y) by (intros x y Q; unfold op32, fop in *; rewrite Rplus_0_r, Q; symmetry; apply rnd32_idem).
  assert (Z : forall x, op32 (x * 0) 0) by (intros x; apply op_at; [exact Z0|ring]).
  split; [|split].
  - intros i Hi. replace i with O by lia. split; eapply neuron1; rewrite ?(Rmax_right 0), ?(Rmin_left 0) by assumption; cbn [plus_bias]; eauto.
  - eapply neuron1; rewrite ?(Rmax_right 0), ?(Rmin_left 0) by assumption; cbn [plus_bias]; eauto.
  - eapply neuron1; rewrite ?(Rmax_right 0), ?(Rmin_left 0) by assumption; cbn [plus_bias]; eauto.
Qed.
Lemma bound1 : forall (a b w : vec) c p y, 0 <= w 0%nat -> op32 (a 0%nat * w 0%nat) p -> op32 (p + c) y -> fl_bound op32 (any_order op32 2 3) 1 a b w c y.
Proof.
  intros a b w c p y Pw H1 H2. exists p. split; [|exact H2]. apply (dot_two _ _ p p); cbn.
  - rewrite Rmax_left by exact Pw. exact H1.
  - apply op_at; [exact rnd32_0|]. rewrite Rmin_right by exact Pw. ring.
  - unfold op32, fop in *. rewrite H1. symmetry. apply rnd32_idem.
Qed.
(** the bounds of the input, through the identity *)
Lemma input_node : forall ke X A bo net cn (z : tensor), nth_error net 0 = Some (None, []) -> rnd32 (z 0%nat 0%nat) = z 0%nat 0%nat -> rnd32 (z 1%nat 0%nat) = z 1%nat 0%nat ->
  0 <= X <= A -> Rabs (z 0%nat 0%nat) <= X -> Rabs (z 1%nat 0%nat) <= X ->
  fnode op32 (any_order op32 2 3) ke X A 1 bo net cn [vt (z 1%nat); vt (z 0%nat)] 0 [cst (z 1%nat 0%nat); cst (z 0%nat 0%nat)].
Proof.
  intros ke X A bo net cn z E Z0 Z1 HX H0 H1. exists backward_identity. do 2 eexists. split; [apply fc_input; [exact E|reflexivity]|]. split; [reflexivity|].
  unfold net_dim. rewrite E. intros j Hj. replace j with O by lia. unfold box_of, cst. cbn [nth Nat.eqb]. split; [|split; [|split; [|split; [|split]]]].
  - apply (bound1 _ _ _ _ (z 1%nat 0%nat)); cbn; try lra; apply op_at; try assumption; unfold vt; cbn; try ring. unfold zero_vec. ring.
  - apply (bound1 _ _ _ _ (z 0%nat 0%nat)); cbn; try lra; apply op_at; try assumption; unfold vt; cbn; try ring. unfold zero_vec. ring.
  - unfold line_size. cbn. unfold zero_vec. rewrite Rabs_R0, Rabs_R1. lra.
  - unfold line_size. cbn. unfold zero_vec. rewrite Rabs_R0, Rabs_R1. lra.
  - lra.
  - lra.
Qed.
Lemma a9_pos : 0 <= a9 <= 1. Proof. unfold a9. lra. Qed.
Lemma seam_last : forall ke r, 0 < ke <= 1 -> c_inputs r = [vt (seam_box 1%nat); vt (seam_box 0%nat)] -> c_nodes r 1%nat = [cst 9; cst (-1)] ->
  fnode op32 (any_order op32 2 3) ke 9 20 1 seam_bo seam_net (c_nodes r) (c_inputs r) 1 [cst (9437183 / 1048576); cst 0].
Proof.
  intros ke r Hke Ei E1. pose proof rnd_9 as Z9. pose proof rnd32_m1 as Zm. pose proof rnd32_0 as Z0. pose proof a9_pos as Ha.
  exists (line1 a9 a9 0 0). do 2 eexists. split; [|split; [reflexivity|]].
    + eapply (fc_layer _ _ _ _ _ _ _ _ _ 1 (NActivation Arelu 1) 0 None (hull_bb (fun _ => mk_hull a9 a9 0 0))); [reflexivity| |reflexivity|].
      * cbn [float_backward]. rewrite E1. eexists. split; [reflexivity|]. intros j Hj. cbn [seam_bo bo_slope bo_ft option_map]. unfold cst.
        exists 9, 10, a9, (- a9), a9, 0, 0. rewrite (Rmax_left 9 0), (Rmax_right (-1) 0), (Rmax_right ke 10) by lra. rewrite index_linear_0, index_dead_0 by lra.
        split; [r32; rewrite Rminus_0_r; exact rnd_9|]. split; [r32; replace (9 - -1) with 10 by lra; exact rnd_10|]. split; [r32; exact rnd_9_10|].
        split; [r32; replace (a9 * -1) with (- a9) by ring; rewrite rnd32_opp, rnd_a9; reflexivity|]. split; [r32; replace (0 - - a9) with a9 by ring; exact rnd_a9|].
        split; [reflexivity|]. split; [reflexivity|]. f_equal; ring.
      * apply fc_input; [reflexivity|]. split.
        -- apply (merge_line _ _ 0 a9 0 0 a9 0); unfold hull_bb, backward_identity, identity_lirpa, diag, zero_vec, id_mat; cbn; try lra; apply op_at; first [exact rnd_a9|exact Z0|ring].
        -- intros j Hj. cbn in Hj. replace j with O by lia. unfold hull_bb, backward_identity, identity_lirpa, diag, zero_vec, id_mat. cbn. rewrite (Rabs_right a9), !Rabs_R0, (Rmax_left 0 0) by lra.
           split; [intros i Hi; replace i with O by lia; cbn; rewrite Rabs_R1, (Rmax_left 1 1) by lra; lra|]. lra.
    + intros j Hj. cbn in Hj. replace j with O by lia. unfold box_of, cst, fl_upper, fl_lower. rewrite Ei. cbn [nth Nat.eqb line1 bb_wu bb_bu bb_wl bb_bl vt]. split; [|split; [|split; [|split; [|split]]]].
      * apply (bound1 _ _ _ _ (8493465 / 1048576)); [lra| |]; unfold vt, seam_box; cbn; [r32; rewrite Rmult_comm; exact rnd_9a9|r32; exact rnd_sum9].
      * apply (bound1 _ _ _ _ 0); [lra| |]; unfold vt, seam_box; cbn; apply op_at; first [exact Z0|ring].
      * unfold line_size. cbn. rewrite (Rabs_right a9) by lra. lra.
      * unfold line_size. cbn. rewrite Rabs_R0. lra.
      * rewrite Rabs_right by lra. lra.
      * rewrite Rabs_R0. lra.
Qed.
Lemma seam_is_crown : forall ke, 0 < ke <= 1 -> float_crown op32 (any_order op32 2 3) ke 9 20 1 seam_opts seam_bo seam_net 1 seam_box seam_crown.
Proof.
  intros ke Hke. pose proof rnd_9 as Z9. pose proof rnd32_m1 as Zm. pose proof rnd32_0 as Z0. pose proof a9_pos as Ha.
  split; [exact I|]. split; [reflexivity|]. split; [|split; [|reflexivity]].
  - intros i q ps E. unfold seam_net in E. each_node E; [reflexivity|]. cbn [seam_crown c_nodes c_inputs].
    apply (input_node ke 9 20 seam_bo seam_net _ seam_box); unfold seam_box; cbn; auto; try lra; [rewrite Rabs_left by lra; lra|rewrite Rabs_right by lra; lra].
  - eapply seam_last; [exact Hke|reflexivity|reflexivity].
Qed.
(** the same bounds by crown-forward-ibp *)
Definition seam_fwd (i : nat) : list tensor :=
  match i with O => [vt (seam_box 1%nat); vt (seam_box 0%nat)] | _ => [fun _ _ => Rrelu 9; fun _ _ => Rrelu (-1)] end.
Definition seam_crown_forward : crun := mk_crun [vt (seam_box 1%nat); vt (seam_box 0%nat)] (Some seam_fwd)
  (fun i => match i with O => [vt (seam_box 1%nat); vt (seam_box 0%nat)] | S p => seam_fwd p end) [cst (9437183 / 1048576); cst 0] [cst (9437183 / 1048576); cst 0].
Lemma seam_is_forward : forall ke, 0 < ke <= 1 -> float_crown op32 (any_order op32 2 3) ke 9 20 1 seam_opts seam_bo seam_net 1 seam_box seam_crown_forward.
Proof.
  intros ke Hke. assert (R1 : Rrelu 9 = 9) by (unfold Rrelu; apply Rmax_left; lra). assert (R2 : Rrelu (-1) = 0) by (unfold Rrelu; apply Rmax_right; lra). pose proof rnd_9 as Z9. pose proof rnd32_m1 as Zm.
  split; [|split; [reflexivity|split; [|split; [|reflexivity]]]].
  - cbn [c_fwd seam_crown_forward c_inputs]. split; [|split; [|split]].
    + split; [reflexivity|]. split; [|reflexivity]. intros i q ps E. unfold seam_net in E. each_node E; reflexivity.
    + intros i L ps E. unfold seam_net in E. each_node E; exact I.
    + intros i Hi. unfold seam_box. cbn. split; r32; [exact Zm|exact Z9].
    + intros p Hp. cbn in Hp. assert (Cp : p = 0%nat \/ p = 1%nat) by lia. destruct Cp as [-> | ->]; cbn [seam_fwd]; do 2 eexists; (split; [reflexivity|]); intros j Hj; unfold vt, seam_box; cbn; rewrite ?R1, ?R2, ?Rabs_R0, ?(Rabs_left (-1)), ?(Rabs_right 9) by lra; lra.
  - intros i q ps E. unfold seam_net in E. each_node E; reflexivity.
  - eapply seam_last; [exact Hke|reflexivity|reflexivity].
Qed.
Lemma crown_refuted : forall ke r, 0 < ke <= 1 -> r = seam_crown \/ r = seam_crown_forward ->
  float_crown op32 (any_order op32 2 3) ke 9 20 1 seam_opts seam_bo seam_net 1 seam_box r /\ net_ok 1 seam_net /\ net_value seam_net seam_value /\ blayers_ok seam_bo seam_net /\
  layers_ok IBP seam_opts seam_net /\
  exists y u l, in_dom Box 1 seam_box y /\ c_out r = [u; l] /\ u 0%nat 0%nat < seam_value 1 y 0%nat /\
    exists a, float_values op32 (any_order op32 2 3) seam_net y a /\ u 0%nat 0%nat < a 1%nat 0%nat.
Proof.
  intros ke r Hke Hr. destruct seam_ok as (H1 & H2 & _ & _). split; [destruct Hr as [-> | ->]; [exact (seam_is_crown ke Hke)|exact (seam_is_forward ke Hke)]|]. split; [exact H1|]. split; [exact H2|].
  split; [intros i L ps E; unfold seam_net in E; each_node E; cbn; auto|]. split; [intros i L ps E; unfold seam_net in E; each_node E; cbn; auto|].
  exists (fun _ => 9), (cst (9437183 / 1048576)), (cst 0). split; [intros i Hi; unfold seam_box; cbn; lra|]. split; [destruct Hr as [-> | ->]; reflexivity|]. split; [unfold cst; cbn; rewrite Rmax_left by lra; lra|].
  exists (fun _ _ => 9). split; [|unfold cst; lra]. intros i q ps E. unfold seam_net in E. each_node E; [reflexivity|]. cbn. intros j Hj. rewrite Rmax_left by lra. reflexivity.
Qed.

(** ** example: relu(2 x - 1) on [0, 1] *)
Definition ramp_bo : nat -> bopts := fun _ => mk_bopts V_SLOPE None.
Definition ramp_crown : crun := mk_crun [vt (unit_box 1%nat); vt (unit_box 0%nat)] None
  (fun i => match i with O => [vt (unit_box 1%nat); vt (unit_box 0%nat)] | 1%nat => [cst (unit_box 1%nat 0%nat); cst (unit_box 0%nat 0%nat)] | _ => [cst 1; cst (-1)] end)
  [cst 1; cst 0] [cst 1; cst 0].
Lemma ramp_last : forall ke r a b, 0 < ke <= 1 -> c_inputs r = [vt (unit_box 1%nat); vt (unit_box 0%nat)] -> c_nodes r 1%nat = [a; b] -> c_nodes r 2%nat = [cst 1; cst (-1)] ->
  fnode op32 (any_order op32 2 3) ke 1 4 1 ramp_bo ramp_net (c_nodes r) (c_inputs r) 2 [cst 1; cst 0].
Proof.
  intros ke r a b Hke Ei E1 E2. assert (Hh : rnd32 (/ 2) = / 2) by exact rnd_half. assert (Hm : rnd32 (- / 2) = - / 2) by (rewrite rnd32_opp, Hh; reflexivity).
  pose proof rnd32_0 as Z0. pose proof rnd32_1 as Z1. pose proof rnd32_m1 as Zm. pose proof rnd_2 as Z2.
  exists (line1 1 0 0 0). do 2 eexists. split; [|split; [reflexivity|]].
  + eapply (fc_layer _ _ _ _ _ _ _ _ _ 2 (NActivation Arelu 1) 1 None (hull_bb (fun _ => mk_hull (/ 2) (/ 2) 0 0))); [reflexivity| |reflexivity|].
    * cbn [float_backward]. rewrite E2. eexists. split; [reflexivity|]. intros j Hj. cbn [ramp_bo bo_slope bo_ft option_map]. unfold cst.
      exists 1, 2, (/ 2), (- / 2), (/ 2), 0, 0. rewrite (Rmax_left 1 0), (Rmax_right (-1) 0), (Rmax_right ke 2) by lra. rewrite index_linear_0, index_dead_0 by lra.
      split; [apply op_at; [exact Z1|ring]|]. split; [apply op_at; [exact Z2|ring]|]. split; [apply op_at; [exact Hh|field]|].
      split; [apply op_at; [exact Hm|ring]|]. split; [apply op_at; [exact Hh|ring]|].
      split; [|split; [reflexivity|f_equal; ring]]. exists 0. split; [apply op_at; [exact Z0|ring]|]. unfold Rclip, Rsgn. destruct (Rlt_dec 0 0); [lra|]. destruct (Rlt_dec 0 0); [lra|]. rewrite Rmax_left, Rmin_left by lra. lra.
    * eapply (fc_layer _ _ _ _ _ _ _ _ _ 1 _ 0 _ _ (line1 1 0 0 0)); [reflexivity|rewrite E1; reflexivity| |].
      -- split.
         ++ apply (merge_line _ _ (- / 2) 0 0 0 1 0); unfold hull_bb, diag, tile, zero_vec; cbn; try lra; apply op_at; first [exact Z1|exact Z0|exact Hm|unfold tile; cbn; field].
         ++ intros j Hj. cbn in Hj. replace j with O by lia. unfold hull_bb, diag, zero_vec. cbn. unfold tile. replace (Rabs (-1)) with 1 by (rewrite Rabs_left; lra). rewrite (Rabs_right (/ 2)), !Rabs_R0, (Rmax_left 1 1) by lra.
            split; [intros i Hi; replace i with O by lia; cbn; rewrite (Rabs_right 2), (Rmax_left 2 2) by lra; lra|]. lra.
      -- apply fc_input; [reflexivity|]. split.
         ++ apply (merge_line _ _ 0 0 0 0 1 0); unfold backward_identity, identity_lirpa, zero_vec, id_mat; cbn; try lra; apply op_at; first [exact Z1|exact Z0|ring].
         ++ intros j Hj. cbn in Hj. replace j with O by lia. unfold backward_identity, identity_lirpa, zero_vec, id_mat. cbn. rewrite !Rabs_R0, !Rabs_R1, (Rmax_left 0 0) by lra.
            split; [intros i Hi; replace i with O by lia; cbn; rewrite Rabs_R1, (Rmax_left 1 1) by lra; lra|]. lra.
  + intros j Hj. cbn in Hj. replace j with O by lia. unfold box_of, cst, fl_upper, fl_lower. rewrite Ei. cbn [nth Nat.eqb line1 bb_wu bb_bu bb_wl bb_bl vt]. split; [|split; [|split; [|split; [|split]]]].
    * apply (bound1 _ _ _ _ 1); [lra| |]; unfold vt, unit_box; cbn; apply op_at; first [exact Z1|ring].
    * apply (bound1 _ _ _ _ 0); [lra| |]; unfold vt, unit_box; cbn; apply op_at; first [exact Z0|ring].
    * unfold line_size. cbn. rewrite Rabs_R0, Rabs_R1. lra.
    * unfold line_size. cbn. rewrite Rabs_R0. lra.
    * rewrite Rabs_R1. lra.
    * rewrite Rabs_R0. lra.
Qed.
Lemma ramp_is_crown : forall ke, 0 < ke <= 1 -> float_crown op32 (any_order op32 2 3) ke 1 4 1 seam_opts ramp_bo ramp_net 2 unit_box ramp_crown.
Proof.
  intros ke Hke. assert (Hh : rnd32 (/ 2) = / 2) by exact rnd_half. assert (Hm : rnd32 (- / 2) = - / 2) by (rewrite rnd32_opp, Hh; reflexivity).
  pose proof rnd32_0 as Z0. pose proof rnd32_1 as Z1. pose proof rnd32_m1 as Zm. pose proof rnd_2 as Z2.
  split; [exact I|]. split; [reflexivity|]. split; [|split; [|reflexivity]].
  - intros i q ps E. unfold ramp_net in E. each_node E; [reflexivity| |]; cbn [ramp_crown c_nodes c_inputs].
    + apply (input_node ke 1 4 ramp_bo ramp_net _ unit_box); unfold unit_box; cbn; auto; try lra; [rewrite Rabs_R0; lra|rewrite Rabs_R1; lra].
    + exists (line1 2 (-1) 2 (-1)). do 2 eexists. split; [|split; [reflexivity|]].
      * eapply (fc_layer _ _ _ _ _ _ _ _ _ 1 _ 0 None); [reflexivity|reflexivity|reflexivity|]. apply fc_input; [reflexivity|]. split.
        -- apply (merge_line _ _ 0 (-1) 0 (-1) 2 2); unfold backward_identity, identity_lirpa, zero_vec, id_mat; cbn; try lra; apply op_at; first [exact Z2|exact Z0|exact Zm|unfold tile; cbn; ring].
        -- intros j Hj. cbn in Hj. replace j with O by lia. unfold backward_identity, identity_lirpa, zero_vec, id_mat. cbn. unfold tile. replace (Rabs (-1)) with 1 by (rewrite Rabs_left; lra). rewrite (Rabs_right 2), !Rabs_R0, (Rmax_left 0 0) by lra.
           split; [intros i Hi; replace i with O by lia; cbn; rewrite Rabs_R1, (Rmax_left 1 1) by lra; lra|]. lra.
      * intros j Hj. cbn in Hj. replace j with O by lia. unfold box_of, cst, fl_upper, fl_lower. cbn [ramp_crown c_inputs nth Nat.eqb line1 bb_wu bb_bu bb_wl bb_bl vt]. split; [|split; [|split; [|split; [|split]]]].
        -- apply (bound1 _ _ _ _ 2); [lra| |]; unfold vt, unit_box; cbn; apply op_at; first [exact Z2|exact Z1|ring].
        -- apply (bound1 _ _ _ _ 0); [lra| |]; unfold vt, unit_box; cbn; apply op_at; first [exact Z0|exact Zm|ring].
        -- unfold line_size. cbn. replace (Rabs (-1)) with 1 by (rewrite Rabs_left; lra). rewrite (Rabs_right 2) by lra. lra.
        -- unfold line_size. cbn. replace (Rabs (-1)) with 1 by (rewrite Rabs_left; lra). rewrite (Rabs_right 2) by lra. lra.
        -- rewrite Rabs_R1. lra.
        -- rewrite Rabs_left by lra. lra.
  - eapply ramp_last; [exact Hke|reflexivity|reflexivity|reflexivity].
Qed.
(** the same bounds by crown-forward-ibp *)
Definition ramp_fwd (i : nat) : list tensor :=
  match i with
  | O => [vt (unit_box 1%nat); vt (unit_box 0%nat)]
  | 1%nat => [cst 1; cst (-1)]
  | _ => [fun _ _ => Rrelu 1; fun _ _ => Rrelu (-1)]
  end.
Definition ramp_crown_forward : crun := mk_crun [vt (unit_box 1%nat); vt (unit_box 0%nat)] (Some ramp_fwd)
  (fun i => match i with O => [vt (unit_box 1%nat); vt (unit_box 0%nat)] | S p => ramp_fwd p end) [cst 1; cst 0] [cst 1; cst 0].
Lemma relu_ends : Rrelu 1 = 1 /\ Rrelu (-1) = 0.
Proof. unfold Rrelu. split; [apply Rmax_left; lra|apply Rmax_right; lra]. Qed.
Lemma ramp_is_forward : forall ke, 0 < ke <= 1 -> float_crown op32 (any_order op32 2 3) ke 1 4 1 seam_opts ramp_bo ramp_net 2 unit_box ramp_crown_forward.
Proof.
  intros ke Hke. pose proof rnd32_0 as Z0. pose proof rnd32_1 as Z1. pose proof rnd32_m1 as Zm. pose proof rnd_2 as Z2. destruct relu_ends as [R1 R2].
  split; [|split; [reflexivity|split; [|split; [|reflexivity]]]].
  - cbn [c_fwd ramp_crown_forward c_inputs]. split; [|split; [|split]].
    + split; [reflexivity|]. split; [|reflexivity]. intros i q ps E. unfold ramp_net in E. each_node E; [reflexivity| |reflexivity].
      cbn. intros j Hj. replace j with O by lia. unfold cst, vt, unit_box. cbn.
      split; (do 3 eexists; split; [apply dot_one|split; [apply dot_one|split]]; cbn; rewrite ?(Rmax_right 0 2), ?(Rmin_left 0 2) by lra).
      * apply (op_at _ 2); [exact Z2|ring].
      * apply (op_at _ 0); [exact Z0|ring].
      * apply (op_at _ 2); [exact Z2|ring].
      * apply op_at; [exact Z1|ring].
      * apply (op_at _ 0); [exact Z0|ring].
      * apply (op_at _ 0); [exact Z0|ring].
      * apply (op_at _ 0); [exact Z0|ring].
      * apply op_at; [exact Zm|ring].
    + intros i L ps E. unfold ramp_net in E. each_node E; cbn; [|exact I]. intros uc lc Q j Hj. injection Q as <- <-. unfold lin_size, vt, unit_box. cbn. rewrite (Rabs_right 2), Rabs_R1, Rabs_R0, (Rmax_left 1 0), (Rabs_left (-1)) by lra. lra.
    + intros i Hi. unfold unit_box. cbn. split; apply op_at; first [exact Z0|exact Z1|reflexivity].
    + intros p Hp. cbn in Hp. assert (Cp : p = 0%nat \/ p = 1%nat \/ p = 2%nat) by lia. destruct Cp as [->|[->| ->]]; cbn [ramp_fwd]; do 2 eexists; (split; [reflexivity|]); intros j Hj; unfold cst, vt, unit_box; cbn; rewrite ?R1, ?R2, ?Rabs_R1, ?Rabs_R0, ?(Rabs_left (-1)) by lra; lra.
  - intros i q ps E. unfold ramp_net in E. each_node E; reflexivity.
  - eapply ramp_last; [exact Hke|reflexivity|reflexivity|reflexivity].
Qed.
Lemma ramp_within : nodes_within (in_dom Box 1 unit_box) 1 ramp_net ramp_value 1 1.
Proof.
  assert (D : forall y, in_dom Box 1 unit_box y -> 0 <= y 0%nat <= 1) by (intros y Hy; specialize (Hy O ltac:(lia)); unfold unit_box in Hy; cbn in Hy; exact Hy).
  split; [lia|]. split.
  - intros y j Hy Hj. replace j with O by lia. specialize (D y Hy). apply le_abs. lra.
  - intros i Hi. cbn in Hi. assert (Ci : i = 0%nat \/ i = 1%nat \/ i = 2%nat) by lia. split; [destruct Ci as [->|[->| ->]]; cbn; lia|]. intros y j Hy Hj. specialize (D y Hy). apply le_abs.
    destruct Ci as [->|[->| ->]]; cbn in Hj |- *; [replace j with O by lia; lra|lra|unfold Rmax; destruct (Rle_dec (2 * y 0%nat - 1) 0); lra].
Qed.
Lemma ramp_crown_example : forall ke, 0 < ke <= / 100000 -> eta32 <= u32 * ke ->
  float_crown op32 (any_order op32 2 3) ke 1 4 1 seam_opts ramp_bo ramp_net 2 unit_box ramp_crown /\ c_out ramp_crown = [cst 1; cst 0] /\
  float_crown op32 (any_order op32 2 3) ke 1 4 1 seam_opts ramp_bo ramp_net 2 unit_box ramp_crown_forward /\ c_out ramp_crown_forward = [cst 1; cst 0] /\
  let d := call_error u32 eta32 2 3 4 in let e := crown_error (INR 1 * d) ramp_net * (ke + d * (1 + INR 1 * 1)) in
  e <= / 100 /\ forall y, in_dom Box 1 unit_box y -> 0 - e <= ramp_value 2 y 0%nat <= 1 + e.
Proof.
  intros ke Hke Hek. assert (Hr : float_crown op32 (any_order op32 2 3) ke 1 4 1 seam_opts ramp_bo ramp_net 2 unit_box ramp_crown) by (apply ramp_is_crown; lra).
  split; [exact Hr|]. split; [reflexivity|]. split; [apply ramp_is_forward; lra|]. split; [reflexivity|]. intros d e. destruct ramp_ok as (H1 & H2 & _ & _). split.
  - assert (A1 : u32 <= / 1048576) by (unfold u32; change (/ 1048576) with (bpow radix2 (-20)); apply bpow_le; lia).
    assert (A2 : eta32 <= / 1048576) by (unfold eta32; change (/ 1048576) with (bpow radix2 (-20)); apply bpow_le; lia). pose proof (proj1 u32_8) as P1. pose proof P_FloatMerge.eta32_pos as P2.
    assert (De : 0 <= d <= 9 / 100000).
    { split; [apply call_parts; lra|]. unfold d, call_error, hull_error.
      pose proof (float_error_linear u32 eta32 2 3 4 P1 P2 ltac:(lra)) as Q. replace (INR (2 + 2)) with 4 in Q by (cbn; ring). replace (INR (3 + 1)) with 4 in Q by (cbn; ring). specialize (Q ltac:(lra)). lra. }
    unfold e. clearbody d. clear -De Hke. rewrite !Rmult_1_r. change (INR 1) with 1. rewrite Rmult_1_l. set (K := crown_error d ramp_net).
    assert (HK : 0 <= K <= 50).
    { unfold K, crown_error, crown_state, ramp_net. cbn [fold_left crown_step fst snd nl_gain]. cbn. rewrite ?(Rabs_right 2) by lra. rewrite ?Rplus_0_l. rewrite ?(Rmax_right 1 2), ?(Rmax_left 1 1) by lra. 
      assert (dd : 0 <= d * d <= / 10000 * d) by (split; [apply Rmult_le_pos; lra|apply Rmult_le_compat_r; lra]). assert (ddd : 0 <= d * d * d <= / 10000 * (d * d)) by (split; [apply Rmult_le_pos; lra|replace (d * d * d) with (d * (d * d)) by ring; apply Rmult_le_compat_r; lra]).
      split; lra. }
    assert (S : 0 <= ke + d * (1 + 1) <= 19 / 100000) by lra. assert (K * (ke + d * (1 + 1)) <= 50 * (19 / 100000)) by (apply Rmult_le_compat; lra). lra.
  - intros y Hy. destruct (float_crown_bounds 2 3 ke 1 4 1 seam_opts ramp_bo ramp_net ramp_value 2 unit_box ramp_crown 1 1) with (1 := proj1 Hke) (2 := Hek) as (u & l & Eo & V); auto; try lra; try (cbn; lia).
    + intros i L ps E. unfold ramp_net in E. each_node E; cbn; auto.
    + intros Q. contradiction Q. reflexivity.
    + intros i L ps E. unfold ramp_net in E. each_node E; cbn; auto.
    + intros i Hi. unfold unit_box. cbn. rewrite Rabs_R0, Rabs_R1. lra.
    + exact ramp_within.
    + injection Eo as <- <-. exact (V y O Hy ltac:(cbn; lia)).
Qed.

(** ** example: the same function, 2 x - 1 being computed by a normalisation *)
Definition norm_net : network := [(None, []); (Some (NBatchNorm [] 1 [] (-1) (Some (fun _ => 4)) (Some (fun _ => 1)) (fun _ => 1) (fun _ => 3) 1), [0%nat]); (Some (NActivation Arelu 1), [1%nat])].
Definition norm_bb : bb := let w : mat := fun i j => (if Nat.eqb i j then 1 else 0) * 2 in mk_bb w (fun _ => -1) w (fun _ => -1).
Lemma norm_ok : net_ok 1 norm_net /\ net_value norm_net ramp_value /\ blayers_ok ramp_bo norm_net /\ bn_size u32 eta32 4 norm_net /\ (forall i L ps, nth_error norm_net i = Some (Some L, ps) -> crown_layer_bn L).
Proof.
  assert (E4 : sqrt (3 + 1) = 2) by (replace (3 + 1) with 4 by ring; exact P_FloatNet.sqrt_4). pose proof u32_8 as U8. pose proof P_FloatMerge.eta32_pos as P2.
  assert (EU : eta32 <= u32) by (unfold eta32, u32; apply bpow_le; lia).
  split; [|split; [|split; [|split]]].
  - intros i o ps E. unfold norm_net in E. each_node E; (split; [intros p Hp; cbn in Hp; lia|]); try reflexivity; (split; [discriminate|reflexivity]).
  - intros y i o ps E. unfold norm_net in E. each_node E; cbn [ramp_value]; [reflexivity| |].
    + intros p c q Hp Hq Hc. inversion Hp; subst. inversion Hq; subst. replace c with O by lia. cbn -[IZR sqrt Rmult Rdiv Rplus Rminus]. rewrite E4. field.
    + intros j Hj. reflexivity.
  - intros i L ps E. unfold norm_net in E. each_node E; cbn -[IZR]; (split; [|exact I]); [|exact I]. split; [intros; lra|right; reflexivity].
  - intros i pre k post axis gamma beta mean var eps ps c E Hc. unfold norm_net in E. each_node E. cbn [opt_vec]. rewrite E4, Rabs_R1, (Rabs_right 4) by lra. repeat split; lra.
  - intros i L ps E. unfold norm_net in E. each_node E; cbn; auto.
Qed.
Lemma norm_call : forall ke n o ts, float_backward op32 ke n o (NBatchNorm [] 1 [] (-1) (Some (fun _ => 4)) (Some (fun _ => 1)) (fun _ => 1) (fun _ => 3) 1) ts norm_bb.
Proof.
  intros ke n o ts. cbn [float_backward]. exists (fun _ => 2), (fun _ => -1). split; [|reflexivity]. intros c Hc. cbn [opt_vec]. exists 4, 2, 2.
  split; [apply op_at; [exact rnd_4|ring]|]. split; [apply op_at; [exact rnd_2|exact P_FloatNet.sqrt_4]|]. split; [apply op_at; [exact rnd_2|field]|]. split; [apply op_at; [exact rnd_2|ring]|]. apply op_at; [exact rnd32_m1|ring].
Qed.
Lemma norm_last : forall ke r, 0 < ke <= 1 -> c_inputs r = [vt (unit_box 1%nat); vt (unit_box 0%nat)] -> c_nodes r 2%nat = [cst 1; cst (-1)] ->
  fnode op32 (any_order op32 2 3) ke 1 4 1 ramp_bo norm_net (c_nodes r) (c_inputs r) 2 [cst 1; cst 0].
Proof.
  intros ke r Hke Ei E2. assert (Hh : rnd32 (/ 2) = / 2) by exact rnd_half. assert (Hm : rnd32 (- / 2) = - / 2) by (rewrite rnd32_opp, Hh; reflexivity).
  pose proof rnd32_0 as Z0. pose proof rnd32_1 as Z1. pose proof rnd32_m1 as Zm. pose proof rnd_2 as Z2.
  exists (line1 1 0 0 0). do 2 eexists. split; [|split; [reflexivity|]].
  + eapply (fc_layer _ _ _ _ _ _ _ _ _ 2 (NActivation Arelu 1) 1 None (hull_bb (fun _ => mk_hull (/ 2) (/ 2) 0 0))); [reflexivity| |reflexivity|].
    * cbn [float_backward]. rewrite E2. eexists. split; [reflexivity|]. intros j Hj. cbn [ramp_bo bo_slope bo_ft option_map]. unfold cst.
      exists 1, 2, (/ 2), (- / 2), (/ 2), 0, 0. rewrite (Rmax_left 1 0), (Rmax_right (-1) 0), (Rmax_right ke 2) by lra. rewrite index_linear_0, index_dead_0 by lra.
      split; [apply op_at; [exact Z1|ring]|]. split; [apply op_at; [exact Z2|ring]|]. split; [apply op_at; [exact Hh|field]|].
      split; [apply op_at; [exact Hm|ring]|]. split; [apply op_at; [exact Hh|ring]|].
      split; [|split; [reflexivity|f_equal; ring]]. exists 0. split; [apply op_at; [exact Z0|ring]|]. unfold Rclip, Rsgn. destruct (Rlt_dec 0 0); [lra|]. destruct (Rlt_dec 0 0); [lra|]. rewrite Rmax_left, Rmin_left by lra. lra.
    * eapply (fc_layer _ _ _ _ _ _ _ _ _ 1 _ 0 _ _ (line1 1 0 0 0)); [reflexivity|apply norm_call| |].
      -- split.
         ++ apply (merge_line _ _ (- / 2) 0 0 0 1 0); unfold norm_bb, hull_bb, diag, zero_vec; cbn; try lra; apply op_at; first [exact Z1|exact Z0|exact Hm|cbn; field].
         ++ intros j Hj. cbn in Hj. replace j with O by lia. unfold norm_bb, hull_bb, diag, zero_vec. cbn. replace (Rabs (-1)) with 1 by (rewrite Rabs_left; lra). rewrite (Rabs_right (/ 2)), !Rabs_R0, (Rmax_left 1 1) by lra.
            split; [intros i Hi; replace i with O by lia; cbn; rewrite (Rabs_right (1 * 2)), (Rmax_left (1 * 2) (1 * 2)) by lra; lra|]. lra.
      -- apply fc_input; [reflexivity|]. split.
         ++ apply (merge_line _ _ 0 0 0 0 1 0); unfold backward_identity, identity_lirpa, zero_vec, id_mat; cbn; try lra; apply op_at; first [exact Z1|exact Z0|ring].
         ++ intros j Hj. cbn in Hj. replace j with O by lia. unfold backward_identity, identity_lirpa, zero_vec, id_mat. cbn. rewrite !Rabs_R0, !Rabs_R1, (Rmax_left 0 0) by lra.
            split; [intros i Hi; replace i with O by lia; cbn; rewrite Rabs_R1, (Rmax_left 1 1) by lra; lra|]. lra.
  + intros j Hj. cbn in Hj. replace j with O by lia. unfold box_of, cst, fl_upper, fl_lower. rewrite Ei. cbn [nth Nat.eqb line1 bb_wu bb_bu bb_wl bb_bl vt]. split; [|split; [|split; [|split; [|split]]]].
    * apply (bound1 _ _ _ _ 1); [lra| |]; unfold vt, unit_box; cbn; apply op_at; first [exact Z1|ring].
    * apply (bound1 _ _ _ _ 0); [lra| |]; unfold vt, unit_box; cbn; apply op_at; first [exact Z0|ring].
    * unfold line_size. cbn. rewrite Rabs_R0, Rabs_R1. lra.
    * unfold line_size. cbn. rewrite Rabs_R0. lra.
    * rewrite Rabs_R1. lra.
    * rewrite Rabs_R0. lra.
Qed.
Lemma norm_is_crown : forall ke, 0 < ke <= 1 -> float_crown op32 (any_order op32 2 3) ke 1 4 1 seam_opts ramp_bo norm_net 2 unit_box ramp_crown.
Proof.
  intros ke Hke. assert (Hh : rnd32 (/ 2) = / 2) by exact rnd_half. assert (Hm : rnd32 (- / 2) = - / 2) by (rewrite rnd32_opp, Hh; reflexivity).
  pose proof rnd32_0 as Z0. pose proof rnd32_1 as Z1. pose proof rnd32_m1 as Zm. pose proof rnd_2 as Z2.
  split; [exact I|]. split; [reflexivity|]. split; [|split; [|reflexivity]].
  - intros i q ps E. unfold norm_net in E. each_node E; [reflexivity| |]; cbn [ramp_crown c_nodes c_inputs].
    + apply (input_node ke 1 4 ramp_bo norm_net _ unit_box); unfold unit_box; cbn; auto; try lra; [rewrite Rabs_R0; lra|rewrite Rabs_R1; lra].
    + exists (line1 2 (-1) 2 (-1)). do 2 eexists. split; [|split; [reflexivity|]].
      * eapply (fc_layer _ _ _ _ _ _ _ _ _ 1 _ 0 None); [reflexivity|apply norm_call|reflexivity|]. apply fc_input; [reflexivity|]. split.
        -- apply (merge_line _ _ 0 (-1) 0 (-1) 2 2); unfold norm_bb, backward_identity, identity_lirpa, zero_vec, id_mat; cbn; try lra; apply op_at; first [exact Z2|exact Z0|exact Zm|ring].
        -- intros j Hj. cbn in Hj. replace j with O by lia. unfold norm_bb, backward_identity, identity_lirpa, zero_vec, id_mat. cbn. replace (Rabs (-1)) with 1 by (rewrite Rabs_left; lra). rewrite (Rabs_right (1 * 2)), !Rabs_R0, (Rmax_left 0 0) by lra.
           split; [intros i Hi; replace i with O by lia; cbn; rewrite Rabs_R1, (Rmax_left 1 1) by lra; lra|]. lra.
      * intros j Hj. cbn in Hj. replace j with O by lia. unfold box_of, cst, fl_upper, fl_lower. cbn [ramp_crown c_inputs nth Nat.eqb line1 bb_wu bb_bu bb_wl bb_bl vt]. split; [|split; [|split; [|split; [|split]]]].
        -- apply (bound1 _ _ _ _ 2); [lra| |]; unfold vt, unit_box; cbn; apply op_at; first [exact Z2|exact Z1|ring].
        -- apply (bound1 _ _ _ _ 0); [lra| |]; unfold vt, unit_box; cbn; apply op_at; first [exact Z0|exact Zm|ring].
        -- unfold line_size. cbn. replace (Rabs (-1)) with 1 by (rewrite Rabs_left; lra). rewrite (Rabs_right 2) by lra. lra.
        -- unfold line_size. cbn. replace (Rabs (-1)) with 1 by (rewrite Rabs_left; lra). rewrite (Rabs_right 2) by lra. lra.
        -- rewrite Rabs_R1. lra.
        -- rewrite Rabs_left by lra. lra.
  - apply norm_last; [exact Hke|reflexivity|reflexivity].
Qed.
Lemma norm_within : nodes_within (in_dom Box 1 unit_box) 1 norm_net ramp_value 1 1.
Proof.
  assert (D : forall y, in_dom Box 1 unit_box y -> 0 <= y 0%nat <= 1) by (intros y Hy; specialize (Hy O ltac:(lia)); unfold unit_box in Hy; cbn in Hy; exact Hy).
  split; [lia|]. split.
  - intros y j Hy Hj. replace j with O by lia. specialize (D y Hy). apply le_abs. lra.
  - intros i Hi. cbn in Hi. assert (Ci : i = 0%nat \/ i = 1%nat \/ i = 2%nat) by lia. split; [destruct Ci as [->|[->| ->]]; cbn; lia|]. intros y j Hy Hj. specialize (D y Hy). apply le_abs.
    destruct Ci as [->|[->| ->]]; cbn in Hj |- *; [replace j with O by lia; lra|lra|unfold Rmax; destruct (Rle_dec (2 * y 0%nat - 1) 0); lra].
Qed.
(** the same bounds by crown-forward-ibp *)
Lemma norm_is_forward : forall ke, 0 < ke <= 1 -> float_crown op32 (any_order op32 2 3) ke 1 4 1 seam_opts ramp_bo norm_net 2 unit_box ramp_crown_forward.
Proof.
  intros ke Hke. pose proof rnd32_0 as Z0. pose proof rnd32_1 as Z1. pose proof rnd32_m1 as Zm. pose proof rnd_2 as Z2. destruct relu_ends as [R1 R2].
  assert (Hm : rnd32 (- / 2) = - / 2) by (rewrite rnd32_opp, rnd_half; reflexivity). assert (Zm2 : rnd32 (-2) = -2) by (replace (-2) with (- (2)) by ring; rewrite rnd32_opp, Z2; reflexivity).
  split; [|split; [reflexivity|split; [|split; [|reflexivity]]]].
  - cbn [c_fwd ramp_crown_forward c_inputs]. split; [|split; [|split]].
    + split; [reflexivity|]. split; [|reflexivity]. intros i q ps E. unfold norm_net in E. each_node E; [reflexivity| |reflexivity].
      cbn [float_call r_nodes r_inputs map concat app ramp_fwd]. unfold float_bn. cbn [b_axis app length]. cbn. intros j Hj. unfold vt, unit_box, cst. cbn [Nat.eqb].
      split.
      * exists 0, (-1), 4, 2, 0, (- / 2), 0, 0, 0. rewrite (Rmax_right 0 4), (Rmin_left 0 4) by lra.
        repeat split; apply op_at; first [exact Z0|exact Z1|exact Zm|exact Z2|exact rnd_4|exact Hm|exact P_FloatNet.sqrt_4|cbn; field].
      * exists (-1), 0, 4, 2, (- / 2), 0, (-2), 0, (-2). rewrite (Rmax_right 0 4), (Rmin_left 0 4) by lra.
        repeat split; apply op_at; first [exact Z0|exact Z1|exact Zm|exact Z2|exact Zm2|exact rnd_4|exact Hm|exact P_FloatNet.sqrt_4|cbn; field].
    + intros i L ps E. unfold norm_net in E. each_node E; cbn; exact I.
    + intros i Hi. unfold unit_box. cbn. split; apply op_at; first [exact Z0|exact Z1|reflexivity].
    + intros p Hp. cbn in Hp. assert (Cp : p = 0%nat \/ p = 1%nat \/ p = 2%nat) by lia. destruct Cp as [->|[->| ->]]; cbn [ramp_fwd]; do 2 eexists; (split; [reflexivity|]); intros j Hj; unfold cst, vt, unit_box; cbn; rewrite ?R1, ?R2, ?Rabs_R1, ?Rabs_R0, ?(Rabs_left (-1)) by lra; lra.
  - intros i q ps E. unfold norm_net in E. each_node E; reflexivity.
  - apply norm_last; [exact Hke|reflexivity|reflexivity].
Qed.
Definition norm_error : R := bn_error u32 eta32 1 4 2 1.
Lemma norm_error_small : 0 <= norm_error <= / 100000.
Proof.
  assert (A1 : u32 <= / 16777216) by (unfold u32; change (/ 16777216) with (bpow radix2 (-24)); apply bpow_le; lia).
  assert (A2 : eta32 <= / 16777216) by (unfold eta32; change (/ 16777216) with (bpow radix2 (-24)); apply bpow_le; lia). pose proof (proj1 u32_8) as P1. pose proof P_FloatMerge.eta32_pos as P2.
  assert (M : forall x, 0 <= x <= 10 -> 0 <= u32 * x <= / 16777216 * x) by (intros x Hx; split; [apply Rmult_le_pos; lra|apply Rmult_le_compat_r; lra]).
  unfold norm_error, bn_error. generalize dependent eta32. generalize dependent u32. intros u U1 U0 M t T1 T0.
  set (d := u * 1 + t). assert (B1 : 0 <= d <= 2 / 16777216) by (unfold d; lra). clearbody d.
  pose proof (M d ltac:(lra)) as M1. set (z := ((1 + 5 * u) * d + 5 * u * 1) / 2). assert (B2 : 0 <= z <= 5 / 16777216) by (unfold z; replace ((1 + 5 * u) * d) with (d + 5 * (u * d)) by ring; lra). clearbody z.
  pose proof (M (1 / 2 + z) ltac:(lra)) as M2. set (e := z + u * (1 / 2 + z) + t). assert (B3 : 0 <= e <= 7 / 16777216) by (unfold e; lra). clearbody e.
  pose proof (M (4 * (1 / 2 + e)) ltac:(lra)) as M3. set (p := 4 * e + u * (4 * (1 / 2 + e)) + t). assert (B4 : 0 <= p <= 32 / 16777216) by (unfold p; lra). clearbody p.
  pose proof (M (4 * (1 / 2) + p + t) ltac:(lra)) as M4. set (r := p + t + u * (4 * (1 / 2) + p + t) + t). assert (B5 : 0 <= r <= 37 / 16777216) by (unfold r; lra). clearbody r.
  pose proof (M (4 * (1 / 2) + r + 1) ltac:(lra)) as M5. lra.
Qed.
Lemma norm_errors : errors_within u32 eta32 2 3 4 (float_error u32 eta32 2 3 4 + norm_error) norm_net (fun _ _ => []) (mk_run (c_inputs ramp_crown_forward) ramp_fwd (ramp_fwd 2)).
Proof.
  assert (E4 : sqrt (3 + 1) = 2) by (replace (3 + 1) with 4 by ring; exact P_FloatNet.sqrt_4). pose proof u32_8 as U8. pose proof P_FloatMerge.eta32_pos as P2. pose proof norm_error_small as NE.
  assert (EU : eta32 <= u32) by (unfold eta32, u32; apply bpow_le; lia).
  assert (F0 : 0 <= float_error u32 eta32 2 3 4) by (apply float_error_pos; lra).
  split; [|split; [lra|]].
  - intros i L ps E. unfold norm_net in E. each_node E; cbn; exact I.
  - intros i L ps E. unfold norm_net in E. each_node E; [|exact I]. intros a uc lc j Ea Ec Hj. cbn [r_nodes map concat app ramp_fwd] in Ec. injection Ec as <- <-. cbv zeta. cbn [opt_vec].
    rewrite E4. split; [lra|]. split; [lra|]. split; [lra|].
    unfold vt, unit_box. cbn [Nat.eqb]. rewrite (Rminus_diag_eq 1 1), Rabs_R0 by reflexivity. replace (Rabs (0 - 1)) with 1 by (rewrite Rabs_left; lra). rewrite Rmax_right, (Rabs_right 4), Rabs_R1 by lra. fold norm_error. lra.
Qed.
Lemma norm_crown_example : forall ke, 0 < ke <= / 100000 -> eta32 <= u32 * ke ->
  float_crown op32 (any_order op32 2 3) ke 1 4 1 seam_opts ramp_bo norm_net 2 unit_box ramp_crown /\ c_out ramp_crown = [cst 1; cst 0] /\
  float_crown op32 (any_order op32 2 3) ke 1 4 1 seam_opts ramp_bo norm_net 2 unit_box ramp_crown_forward /\ c_out ramp_crown_forward = [cst 1; cst 0] /\ bn_size u32 eta32 4 norm_net /\
  exists E, errors_within u32 eta32 2 3 4 E norm_net (fun _ _ => []) (mk_run (c_inputs ramp_crown_forward) ramp_fwd (ramp_fwd 2)) /\
  let d := call_error u32 eta32 2 3 4 + scale_error u32 eta32 4 + E in let e := crown_error (INR 1 * d) norm_net * (ke + d * (1 + INR 1 * 1)) in
  e <= / 100 /\ forall y, in_dom Box 1 unit_box y -> 0 - e <= ramp_value 2 y 0%nat <= 1 + e.
Proof.
  intros ke Hke Hek. assert (Hr : float_crown op32 (any_order op32 2 3) ke 1 4 1 seam_opts ramp_bo norm_net 2 unit_box ramp_crown) by (apply norm_is_crown; lra).
  assert (Hr' : float_crown op32 (any_order op32 2 3) ke 1 4 1 seam_opts ramp_bo norm_net 2 unit_box ramp_crown_forward) by (apply norm_is_forward; lra).
  destruct norm_ok as (H1 & H2 & H3 & H4 & H5). split; [exact Hr|]. split; [reflexivity|]. split; [exact Hr'|]. split; [reflexivity|]. split; [exact H4|].
  exists (float_error u32 eta32 2 3 4 + norm_error). split; [exact norm_errors|]. pose proof norm_error_small as NE. assert (F0 : 0 <= float_error u32 eta32 2 3 4) by (apply float_error_pos; [exact (proj1 u32_8)|exact P_FloatMerge.eta32_pos|lra]). intros d e. split.
  - assert (A1 : u32 <= / 16777216) by (unfold u32; change (/ 16777216) with (bpow radix2 (-24)); apply bpow_le; lia).
    assert (A2 : eta32 <= / 16777216) by (unfold eta32; change (/ 16777216) with (bpow radix2 (-24)); apply bpow_le; lia). pose proof (proj1 u32_8) as P1. pose proof P_FloatMerge.eta32_pos as P2.
    assert (De : 0 <= d <= 9 / 100000).
    { split; [unfold d; apply Rplus_le_le_0_compat; [apply Rplus_le_le_0_compat; [apply call_parts; lra|apply scale_error_pos; lra]|lra]|]. unfold d, call_error, hull_error, scale_error.
      pose proof (float_error_linear u32 eta32 2 3 4 P1 P2 ltac:(lra)) as Q. replace (INR (2 + 2)) with 4 in Q by (cbn; ring). replace (INR (3 + 1)) with 4 in Q by (cbn; ring). specialize (Q ltac:(lra)). lra. }
    unfold e. clearbody d. clear -De Hke. rewrite !Rmult_1_r. change (INR 1) with 1. rewrite Rmult_1_l. set (K := crown_error d norm_net).
    assert (HK : 0 <= K <= 50).
    { assert (G : nl_gain (NBatchNorm [] 1 [] (-1) (Some (fun _ => 4)) (Some (fun _ => 1)) (fun _ => 1) (fun _ => 3) 1) = 2).
      { cbn [nl_gain rsum opt_vec]. replace (3 + 1) with 4 by ring. rewrite P_FloatNet.sqrt_4, (Rabs_right 4) by lra. field. }
      unfold K, crown_error, crown_state, norm_net. cbn [fold_left crown_step fst snd]. rewrite G. cbn [nl_gain]. rewrite ?(Rmax_right 1 2) by lra.
      assert (dd : 0 <= d * d <= / 10000 * d) by (split; [apply Rmult_le_pos; lra|apply Rmult_le_compat_r; lra]). assert (ddd : 0 <= d * d * d <= / 10000 * (d * d)) by (split; [apply Rmult_le_pos; lra|replace (d * d * d) with (d * (d * d)) by ring; apply Rmult_le_compat_r; lra]).
      split; lra. }
    assert (S : 0 <= ke + d * (1 + 1) <= 19 / 100000) by lra. assert (K * (ke + d * (1 + 1)) <= 50 * (19 / 100000)) by (apply Rmult_le_compat; lra). lra.
  - intros y Hy. destruct (float_crown_bounds_bn 2 3 ke 1 4 (float_error u32 eta32 2 3 4 + norm_error) 1 seam_opts ramp_bo norm_net ramp_value 2 unit_box ramp_crown_forward 1 1) with (1 := proj1 Hke) (2 := Hek) as (u & l & Eo & V); auto; try lra; try (cbn; lia).
    + intros f Q. injection Q as <-. split; [|exact norm_errors]. intros i L ps E. unfold norm_net in E. each_node E; cbn -[IZR]; (split; [|exact I]); [|exact I]. split; [intros; lra|right; reflexivity].
    + intros i Hi. unfold unit_box. cbn. rewrite Rabs_R0, Rabs_R1. lra.
    + exact norm_within.
    + injection Eo as <- <-. exact (proj1 (V y Hy) O ltac:(cbn; lia)).
Qed.
