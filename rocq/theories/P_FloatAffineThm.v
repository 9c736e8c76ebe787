(** Forward-affine mode on a box in floating-point arithmetic: the theorems, a refutation and an example. *)
From Coq Require Import Reals List Arith Bool ZArith Lra Lia Permutation.
From Flocq Require Import Core.
From Verif Require Import RLib Spec Spec_Layers Spec_Near Spec_Rounding Spec_Float Spec_FloatMerge Spec_FloatAffine M_Core M_Utils M_MergeLayers M_Ops M_Layers M_Backward M_Convert M_Network M_Rounding M_Float M_FloatHull M_FloatAffine.
From Verif Require Import P_Core P_Utils P_Convert P_Near P_Network P_NetworkForward P_NetworkThm P_Rounding P_Lipschitz P_RoundingThm P_Float P_FloatThm P_FloatMerge P_FloatHull P_FloatAffine.
From Verif Require Import Spec_Network.
Import ListNotations.
Local Open Scope R_scope.

Lemma affine_lines : forall k N ke n opts net v o z r X A E,
  0 < ke -> eta32 <= u32 * ke -> (0 < n)%nat -> net_ok n net -> net_value net v -> layers_ok AFFINE opts net -> (o < length net)%nat ->
  (forall i L ps, nth_error net i = Some (Some L, ps) -> affine_layer L) ->
  0 <= X -> (forall i, (i < n)%nat -> Rabs (z 0%nat i) <= X /\ Rabs (z 1%nat i) <= X) -> 0 <= E ->
  float_run_affine op32 (any_order op32 k N) ke n opts net z r -> affine_errors u32 eta32 k N ke n X A E net r ->
  exists wu bu wl bl, r_nodes r o = [z; wu; bu; wl; bl] /\ forall y j, in_dom Box n z y -> (j < net_dim n net o)%nat ->
    aff n wl (bl 0%nat) y j - net_error net * (ke + E) <= v o y j <= aff n wu (bu 0%nat) y j + net_error net * (ke + E).
Proof.
  intros k N ke n opts net v o z r X A E Hke Hek Hn Hnet Hval Hlay Ho Hal HX HXz HE Hrun Herr.
  destruct (affine_run_near k N ke n opts net v z r X A E Hke Hek Hn Hnet Hval Hlay Hal HX HXz HE Hrun Herr o Ho) as (V & wu & bu & wl & bl & Er).
  exists wu, bu, wl, bl. split; [exact Er|]. rewrite Er in V. destruct V as [_ V]. intros y j Hy Hj. specialize (V y j Hy Hj).
  assert (slack_from 1 (firstn (S o) net) * (ke + E) <= net_error net * (ke + E)) by (apply Rmult_le_compat_r; [lra|]; apply slack_from_all; [lra|exact Ho]). lra.
Qed.

Lemma affine_constants : forall k N ke n opts net v o z r X A E A' out,
  0 < ke -> eta32 <= u32 * ke -> (0 < n)%nat -> net_ok n net -> net_value net v -> layers_ok AFFINE opts net -> (o < length net)%nat ->
  (forall i L ps, nth_error net i = Some (Some L, ps) -> affine_layer L) ->
  0 <= X -> (forall i, (i < n)%nat -> Rabs (z 0%nat i) <= X /\ Rabs (z 1%nat i) <= X) -> 0 <= E ->
  float_run_affine op32 (any_order op32 k N) ke n opts net z r -> affine_errors u32 eta32 k N ke n X A E net r ->
  float_final_affine op32 (any_order op32 k N) n (net_dim n net o) IBP (r_nodes r o) out ->
  (forall x wu bu wl bl j, r_nodes r o = [x; wu; bu; wl; bl] -> (j < net_dim n net o)%nat -> line_size n X wu (bu 0%nat) j <= A' /\ line_size n X wl (bl 0%nat) j <= A') ->
  exists U L, out = [U; L] /\ forall y j, in_dom Box n z y -> (j < net_dim n net o)%nat ->
    L 0%nat j - (net_error net * (ke + E) + float_error u32 eta32 k N A') <= v o y j <= U 0%nat j + (net_error net * (ke + E) + float_error u32 eta32 k N A').
Proof.
  intros k N ke n opts net v o z r X A E A' out Hke Hek Hn Hnet Hval Hlay Ho Hal HX HXz HE Hrun Herr Hout HA.
  destruct (affine_lines k N ke n opts net v o z r X A E Hke Hek Hn Hnet Hval Hlay Ho Hal HX HXz HE Hrun Herr) as (wu & bu & wl & bl & Er & V).
  rewrite Er in Hout, HA. cbn [float_final_affine] in Hout. destruct out as [|U [|L [|]]]; try contradiction. exists U, L. split; [reflexivity|]. intros y j Hy Hj. specialize (V y j Hy Hj).
  destruct (Hout j Hj) as [HU HL]. destruct (HA _ _ _ _ _ j eq_refl Hj) as [AU AL]. unfold line_size in AU, AL.
  assert (HX' : forall i, (i < n)%nat -> Rabs (z 1%nat i) <= X /\ Rabs (z 0%nat i) <= X) by (intros i Hi; destruct (HXz i Hi); auto).
  pose proof (fl_bound_error u32 eta32 k N n _ _ _ _ _ X A' (proj1 u32_8) eta32_pos HX' (fl_bound32 _ _ _ _ _ _ _ _ HU) AU) as EU.
  pose proof (fl_bound_error u32 eta32 k N n _ _ _ _ _ X A' (proj1 u32_8) eta32_pos HXz (fl_bound32 _ _ _ _ _ _ _ _ HL) AL) as EL.
  pose proof (get_upper_box_sound n _ _ wu (bu 0%nat) y j Hy) as UU. pose proof (get_lower_box_sound n _ _ wl (bl 0%nat) y j Hy) as LL.
  unfold get_upper_box in UU. unfold get_lower_box in LL. cbv beta iota in UU, LL. apply abs_le in EU. apply abs_le in EL. lra.
Qed.

Lemma affine_predictions : forall k N ke n opts net v o z r X A E E' y a,
  0 < ke -> eta32 <= u32 * ke -> (0 < n)%nat -> net_ok n net -> net_value net v -> layers_ok AFFINE opts net -> (o < length net)%nat ->
  (forall i L ps, nth_error net i = Some (Some L, ps) -> affine_layer L) ->
  0 <= X -> (forall i, (i < n)%nat -> Rabs (z 0%nat i) <= X /\ Rabs (z 1%nat i) <= X) -> 0 <= E -> 0 <= E' ->
  float_run_affine op32 (any_order op32 k N) ke n opts net z r -> affine_errors u32 eta32 k N ke n X A E net r ->
  in_dom Box n z y -> rounded_values net E' y a ->
  exists wu bu wl bl, r_nodes r o = [z; wu; bu; wl; bl] /\ forall j, (j < net_dim n net o)%nat ->
    aff n wl (bl 0%nat) y j - net_error net * (ke + E + E') <= a o j <= aff n wu (bu 0%nat) y j + net_error net * (ke + E + E').
Proof.
  intros k N ke n opts net v o z r X A E E' y a Hke Hek Hn Hnet Hval Hlay Ho Hal HX HXz HE HE' Hrun Herr Hy Ha.
  destruct (affine_lines k N ke n opts net v o z r X A E Hke Hek Hn Hnet Hval Hlay Ho Hal HX HXz HE Hrun Herr) as (wu & bu & wl & bl & Er & V).
  exists wu, bu, wl, bl. split; [exact Er|]. intros j Hj. specialize (V y j Hy Hj).
  assert (Hpw : forall i L ps, nth_error net i = Some (Some L, ps) -> nl_piecewise L) by (intros i L ps Q; specialize (Hal i L ps Q); destruct L; try contradiction; cbn; auto).
  pose proof (rounded_values_near n AFFINE opts net v y a E' Hnet Hval Hlay Hpw HE' Ha o Ho j Hj) as Q. apply Rabs_both in Q.
  assert (K : net_slack (firstn (S o) net) <= net_error net).
  { change (slack_from 0 (firstn (S o) net) <= slack_from 1 net). eapply Rle_trans; [apply slack_from_all; [lra|exact Ho]|].
    clear. induction net as [|nod net IH] using rev_ind; [unfold slack_from; cbn; lra|]. rewrite !slack_from_step. destruct (fst nod) as [L|]; [|exact IH].
    pose proof (Rmax_l 1 (nl_gain L)). nra. }
  assert (net_slack (firstn (S o) net) * E' <= net_error net * E') by (apply Rmult_le_compat_r; lra). lra.
Qed.

(** ** without rounding *)
Lemma neuron_exact : forall F a b j, float_neuron exact exact_dot F a b j (lin_value F a b j + opt_vec 0 (ln_bias F) (ln_unit F j)).
Proof.
  intros F a b j. do 3 eexists. split; [reflexivity|]. split; [reflexivity|]. split; [reflexivity|]. unfold lin_value. destruct (ln_bias F) as [v|]; cbn [plus_bias opt_vec]; [reflexivity|apply Rplus_0_r].
Qed.
Lemma bound_exact : forall n a b w c, fl_bound exact exact_dot n a b w c (rsum n (fun i => Rmax (w i) 0 * a i + Rmin (w i) 0 * b i) + c).
Proof.
  intros n a b w c. eexists. split; [reflexivity|]. unfold exact. f_equal. rewrite rsum_app, rsum_plus. f_equal; apply rsum_ext; intros i Hi.
  - assert (E : (i <? n) = true) by (apply Nat.ltb_lt; lia). rewrite E. ring.
  - assert (E : (n + i <? n) = false) by (apply Nat.ltb_ge; lia). rewrite E. replace (n + i - n)%nat with i by lia. ring.
Qed.
Lemma affine_exact : forall ke n o L x wu bu wl bl out, affine_layer L ->
  decomon_layer ke (mk_spec false AFFINE Box n) o L [x; wu; bu; wl; bl] = Ok out -> float_call_affine exact exact_dot ke n o L [x; wu; bu; wl; bl] out.
Proof.
  intros ke n o L x wu bu wl bl out HL E. unfold float_call_affine. destruct (lin_of L) as [F|] eqn:HF.
  - destruct (lin_exact_affine ke n o L F x wu bu wl bl HF) as (wu' & bu' & wl' & bl' & E' & _ & V). rewrite E in E'. injection E' as ->. split; [reflexivity|]. intros j Hj. destruct (V j) as (Vw & Vu & Vl).
    split; [|split].
    + intros i Hi. destruct (Vw i) as [Q1 Q2]. rewrite Q1, Q2. pose proof (neuron_exact (no_bias F) (wu i) (wl i) j) as N1. pose proof (neuron_exact (no_bias F) (wl i) (wu i) j) as N2.
      cbn [no_bias ln_bias opt_vec] in N1, N2. rewrite Rplus_0_r in N1, N2. split; [exact N1|exact N2].
    + rewrite Vu. apply neuron_exact.
    + rewrite Vl. apply neuron_exact.
  - destruct L as [| | | | | | |a m0| | | | | | | | |]; try contradiction HL; try exact E. destruct HL as [-> | ->]; [exact E|]. cbn in E. injection E as <-.
    split; [reflexivity|]. intros j Hj.
    exists (get_upper_box n false (x 0%nat) (x 1%nat) wu (bu 0%nat) j), (get_lower_box n false (x 0%nat) (x 1%nat) wl (bl 0%nat) j). do 3 eexists.
    split; [apply bound_exact|]. split; [apply bound_exact|]. split; [apply hull_exact|]. split; [intros i Hi; split; reflexivity|]. repeat split; reflexivity.
Qed.

(** ** relu on [-1, 9]: the line of the upper bound, and the upper bound, are below relu(9) *)
Definition seam_net : network := [(None, []); (Some (NActivation Arelu 1), [0%nat])].
Definition seam_value (i : nat) (y : vec) : vec := match i with O => y | _ => fun j => Rmax (y j) 0 end.
Definition seam_box : tensor := fun k _ => if Nat.eqb k 0 then -1 else 9.
Definition seam_opts : nat -> lopts := fun _ => mk_opts Z_SLOPE None false.
Definition seam_lines (k : nat) : list tensor := if Nat.eqb k 0 then [seam_box; id_mat; vt zero_vec; id_mat; vt zero_vec] else [seam_box; (fun _ _ => a9); (fun _ _ => a9); (fun _ _ => 0); (fun _ _ => 0)].
Definition seam_run : run := mk_run (seam_lines 0) seam_lines (seam_lines 1).
Definition seam_out : list tensor := [(fun _ _ => 9437183 / 1048576); (fun _ _ => 0)].
Lemma seam_ok : net_ok 1 seam_net /\ net_value seam_net seam_value /\ layers_ok AFFINE seam_opts seam_net /\ (forall i L ps, nth_error seam_net i = Some (Some L, ps) -> affine_layer L).
Proof.
  split; [|split; [|split]].
  - intros i o ps E. unfold seam_net in E. each_node E; (split; [intros p Hp; cbn in Hp; lia|]); try reflexivity; (split; [discriminate|reflexivity]).
  - intros y i o ps E. unfold seam_net in E. each_node E; cbn [seam_value]; [reflexivity|]. intros j Hj. reflexivity.
  - intros i L ps E. unfold seam_net in E. each_node E; cbn; auto.
  - intros i L ps E. unfold seam_net in E. each_node E; cbn; auto.
Qed.
(** the sum of a product and of a product by 0 *)
Definition two_terms : dtree := TAdd (TProd 0) (TProd 1).
Lemma dot_two : forall x w p y, op32 (x 0%nat * w 0%nat) p -> op32 (x 1%nat * w 1%nat) 0 -> op32 p y -> any_order op32 2 3 2 x w y.
Proof.
  intros x w p y H1 H2 H3. exists two_terms. split; [reflexivity|]. split; [cbn; lia|]. split; [cbn; lia|]. unfold two_terms.
  apply (dv_add op32 x w (TProd 0) (TProd 1) p 0 y); [constructor; exact H1|constructor; exact H2|]. rewrite Rplus_0_r. exact H3.
Qed.
Lemma seam_is_run : forall ke, 0 < ke <= 1 -> float_run_affine op32 (any_order op32 2 3) ke 1 seam_opts seam_net seam_box seam_run.
Proof.
  intros ke Hke. split; [reflexivity|]. intros i q ps E. unfold seam_net in E. each_node E; [reflexivity|].
  cbn [float_call_affine lin_of map concat seam_run r_nodes app]. split; [reflexivity|]. intros j Hj. replace j with O by lia.
  exists 9, (-1), (mk_hull a9 a9 0 0), 0, 0. cbn [h_wu h_bu h_wl h_bl]. unfold fl_upper, fl_lower, fl_bound, id_mat, vt, zero_vec. cbn [Nat.eqb].
  split; [exists 9; split; [apply (dot_two _ _ 9 9); unfold seam_box; cbn; apply op_at; first [exact rnd_9|exact rnd32_0|idtac]|apply op_at; [exact rnd_9|ring]]|].
  1: rewrite Rmax_left by lra; ring. 1: rewrite Rmin_right by lra; ring. 1: reflexivity.
  split; [exists (-1); split; [apply (dot_two _ _ (-1) (-1)); unfold seam_box; cbn; apply op_at; first [exact rnd32_m1|exact rnd32_0|idtac]|apply op_at; [exact rnd32_m1|ring]]|].
  1: rewrite Rmax_left by lra; ring. 1: rewrite Rmin_right by lra; ring. 1: reflexivity.
  split; [|split; [|split; [|split; [|split]]]].
  - exists 9, 10, a9, (- a9), a9, 0, 0. rewrite (Rmax_left 9 0), (Rmax_right (-1) 0), (Rmax_right ke 10) by lra. rewrite index_linear_0, index_dead_0 by lra.
    split; [r32; rewrite Rminus_0_r; exact rnd_9|]. split; [r32; replace (9 - -1) with 10 by lra; exact rnd_10|]. split; [r32; exact rnd_9_10|].
    split; [r32; replace (a9 * -1) with (- a9) by ring; rewrite rnd32_opp, rnd_a9; reflexivity|]. split; [r32; replace (0 - - a9) with a9 by ring; exact rnd_a9|].
    split; [reflexivity|]. split; [reflexivity|]. f_equal; ring.
  - intros i Hi. replace i with O by lia. cbn [Nat.eqb]. split; apply op_at; first [exact rnd_a9|exact rnd32_0|ring].
  - apply op_at; [exact rnd32_0|ring].
  - apply op_at; [exact rnd_a9|ring].
  - apply op_at; [exact rnd32_0|ring].
  - apply op_at; [exact rnd32_0|ring].
Qed.
Lemma seam_final : float_final_affine op32 (any_order op32 2 3) 1 1 IBP (r_nodes seam_run 1) seam_out.
Proof.
  intros j Hj. unfold fl_upper, fl_lower, fl_bound, seam_box. cbn [Nat.eqb]. split.
  - exists (8493465 / 1048576). split; [apply (dot_two _ _ (8493465 / 1048576)); cbn|].
    + r32. rewrite (Rmax_left a9 0) by (unfold a9; lra). rewrite Rmult_comm. exact rnd_9a9.
    + apply op_at; [exact rnd32_0|]. rewrite Rmin_right by (unfold a9; lra). ring.
    + r32. rewrite <- rnd_9a9. apply rnd32_idem.
    + r32. exact rnd_sum9.
  - exists 0. split; [apply (dot_two _ _ 0 0); cbn; apply op_at; first [exact rnd32_0|idtac]|apply op_at; [exact rnd32_0|ring]].
    + rewrite Rmax_left by lra. ring.
    + rewrite Rmin_left by lra. ring.
    + reflexivity.
Qed.
Lemma seam_refuted : forall ke, 0 < ke <= 1 ->
  float_run_affine op32 (any_order op32 2 3) ke 1 seam_opts seam_net seam_box seam_run /\
  float_final_affine op32 (any_order op32 2 3) 1 1 IBP (r_nodes seam_run 1) seam_out /\
  exists y, in_dom Box 1 seam_box y /\
    (forall x wu bu wl bl, r_nodes seam_run 1 = [x; wu; bu; wl; bl] -> aff 1 wu (bu 0%nat) y 0%nat < seam_value 1 y 0%nat) /\
    (forall U L, seam_out = [U; L] -> U 0%nat 0%nat < seam_value 1 y 0%nat).
Proof.
  intros ke Hke. split; [exact (seam_is_run ke Hke)|]. split; [exact seam_final|]. exists (fun _ => 9). split; [|split].
  - intros i Hi. unfold seam_box. cbn. lra.
  - intros x wu bu wl bl E. cbn in E. injection E as <- <- <- <- <-. unfold aff, RLib.dot. cbn. unfold a9. rewrite Rmax_left by lra. lra.
  - intros U L E. unfold seam_out in E. injection E as <- <-. cbn. rewrite Rmax_left by lra. lra.
Qed.

(** ** example: relu(2 x - 1) on [0, 1] is at most x *)
Definition ramp_net : network := [(None, []); (Some (NDense 1 1 1 (fun _ _ => 2) (Some (fun _ => -1))), [0%nat]); (Some (NActivation Arelu 1), [1%nat])].
Definition ramp_value (i : nat) (y : vec) : vec := match i with O => y | 1%nat => fun j => 2 * y 0%nat - 1 | _ => fun j => Rmax (2 * y 0%nat - 1) 0 end.
Definition ramp_opts : nat -> lopts := fun _ => mk_opts V_SLOPE None false.
Definition ramp_lines (i : nat) : list tensor :=
  match i with
  | O => [unit_box; id_mat; vt zero_vec; id_mat; vt zero_vec]
  | 1%nat => [unit_box; (fun _ _ => 2); (fun _ _ => -1); (fun _ _ => 2); (fun _ _ => -1)]
  | _ => [unit_box; (fun _ _ => 1); (fun _ _ => 0); (fun _ _ => 0); (fun _ _ => 0)]
  end.
Definition ramp_run : run := mk_run (ramp_lines 0) ramp_lines (ramp_lines 2).
Lemma ramp_ok : net_ok 1 ramp_net /\ net_value ramp_net ramp_value /\ layers_ok AFFINE ramp_opts ramp_net /\ (forall i L ps, nth_error ramp_net i = Some (Some L, ps) -> affine_layer L).
Proof.
  split; [|split; [|split]].
  - intros i o ps E. unfold ramp_net in E. each_node E; (split; [intros p Hp; cbn in Hp; lia|]); try reflexivity; (split; [discriminate|reflexivity]).
  - intros y i o ps E. unfold ramp_net in E. each_node E; cbn [ramp_value]; [reflexivity| |].
    + intros p u Hp Hu. replace p with O by lia. replace u with O by lia. cbn. ring.
    + intros j Hj. reflexivity.
  - intros i L ps E. unfold ramp_net in E. each_node E; cbn; auto.
  - intros i L ps E. unfold ramp_net in E. each_node E; cbn; auto.
Qed.
Lemma dot_one : forall x w y, op32 (x 0%nat * w 0%nat) y -> any_order op32 2 3 1 x w y.
Proof. intros x w y H. exists (TProd 0). split; [reflexivity|]. split; [cbn; lia|]. split; [cbn; lia|]. constructor. exact H. Qed.
Lemma ramp_is_run : forall ke, 0 < ke <= 1 -> float_run_affine op32 (any_order op32 2 3) ke 1 ramp_opts ramp_net unit_box ramp_run.
Proof.
  intros ke Hke. assert (Hh : rnd32 (/ 2) = / 2) by exact rnd_half. assert (Hm : rnd32 (- / 2) = - / 2) by (rewrite rnd32_opp, Hh; reflexivity).
  pose proof rnd32_0 as Z0. pose proof rnd32_1 as Z1. pose proof rnd32_m1 as Zm. pose proof rnd_2 as Z2.
  assert (M2 : Rmax 0 2 = 2) by (apply Rmax_right; lra). assert (N2 : Rmin 0 2 = 0) by (apply Rmin_left; lra). assert (M2' : Rmax 2 0 = 2) by (apply Rmax_left; lra). assert (N2' : Rmin 2 0 = 0) by (apply Rmin_right; lra).
  split; [reflexivity|]. intros i q ps E. unfold ramp_net in E. each_node E; [reflexivity| |].
  - cbn [float_call_affine lin_of map concat ramp_run r_nodes app]. split; [reflexivity|]. intros j Hj. cbn in Hj. replace j with O by lia. split; [|split].
    + intros i Hi. replace i with O by lia. split; exists 2, 0, 2; cbn; rewrite M2, N2; (split; [apply dot_one; apply op_at; [exact Z2|cbn; ring]|]); (split; [apply dot_one; apply op_at; [exact Z0|cbn; ring]|]); (split; [apply op_at; [exact Z2|ring]|reflexivity]).
    + exists 0, 0, 0. cbn. unfold vt, zero_vec. rewrite M2, N2. (split; [apply dot_one; apply op_at; [exact Z0|cbn; ring]|]). (split; [apply dot_one; apply op_at; [exact Z0|cbn; ring]|]). split; apply op_at; first [exact Z0|exact Zm|ring].
    + exists 0, 0, 0. cbn. unfold vt, zero_vec. rewrite M2, N2. (split; [apply dot_one; apply op_at; [exact Z0|cbn; ring]|]). (split; [apply dot_one; apply op_at; [exact Z0|cbn; ring]|]). split; apply op_at; first [exact Z0|exact Zm|ring].
  - cbn [float_call_affine lin_of map concat ramp_run r_nodes app]. split; [reflexivity|]. intros j Hj. replace j with O by lia.
    exists 1, (-1), (mk_hull (/ 2) (/ 2) 0 0), (- / 2), 0. cbn [h_wu h_bu h_wl h_bl]. unfold fl_upper, fl_lower, fl_bound, unit_box. cbn [Nat.eqb].
    split; [exists 2; split; [apply (dot_two _ _ 2 2); cbn; rewrite ?M2', ?N2'; (apply op_at; [first [exact Z2|exact Z0]|ring])|apply op_at; [exact Z1|ring]]|].
    split; [exists 0; split; [apply (dot_two _ _ 0 0); cbn; rewrite ?M2', ?N2'; (apply op_at; [exact Z0|ring])|apply op_at; [exact Zm|ring]]|].
    split; [|split; [|split; [|split; [|split]]]].
    + exists 1, 2, (/ 2), (- / 2), (/ 2), 0, 0. rewrite (Rmax_left 1 0), (Rmax_right (-1) 0), (Rmax_right ke 2) by lra. rewrite index_linear_0, index_dead_0 by lra.
      split; [apply op_at; [exact Z1|ring]|]. split; [apply op_at; [exact Z2|ring]|]. split; [apply op_at; [exact Hh|field]|].
      split; [apply op_at; [exact Hm|ring]|]. split; [apply op_at; [exact Hh|ring]|].
      split; [|split; [reflexivity|f_equal; ring]]. exists 0. split; [apply op_at; [exact Z0|ring]|]. unfold Rclip, Rsgn. destruct (Rlt_dec 0 0); [lra|]. destruct (Rlt_dec 0 0); [lra|]. rewrite Rmax_left, Rmin_left by lra. lra.
    + intros i Hi. split; apply op_at; first [exact Z1|exact Z0|field].
    + apply op_at; [exact Hm|field].
    + apply op_at; [exact Z0|field].
    + apply op_at; [exact Z0|ring].
    + apply op_at; [exact Z0|ring].
Qed.
Lemma ramp_errors : forall ke, 0 < ke <= / 10000 -> affine_errors u32 eta32 2 3 ke 1 1 3 (/ 1000) ramp_net ramp_run.
Proof.
  intros ke Hke. assert (A1 : u32 <= / 1048576) by (unfold u32; change (/ 1048576) with (bpow radix2 (-20)); apply bpow_le; lia).
  assert (A2 : eta32 <= / 1048576) by (unfold eta32; change (/ 1048576) with (bpow radix2 (-20)); apply bpow_le; lia). pose proof (proj1 u32_8) as P1. pose proof eta32_pos as P2.
  assert (FE : 0 <= float_error u32 eta32 2 3 3 <= / 10000).
  { unfold float_error. set (u := u32) in *. set (h := eta32) in *. replace (INR (2 * 3 + 2)) with 8 by (cbn [Nat.mul Nat.add INR]; lra). cbn [Nat.add pow].
    assert (U2 : 0 <= u * u <= / 1048576 * u) by (split; [apply Rmult_le_pos; lra|apply Rmult_le_compat_r; lra]).
    set (s := (1 + u) * (1 + u)). assert (S1 : 1 <= s <= 1 + 3 * u) by (unfold s; lra).
    replace ((1 + u) * ((1 + u) * ((1 + u) * ((1 + u) * 1)))) with (s * s) by (unfold s; ring).
    assert (S2 : 1 <= s * s <= 1 + 7 * u) by (split; nra). split; nra. }
  intros i L ps E x wu bu wl bl Q. unfold ramp_net in E. each_node E; cbn in Q; injection Q as <- <- <- <- <-.
  - cbn [lin_of]. split; [cbn [INR]; lra|]. intros j Hj. cbn in Hj. replace j with O by lia. unfold lin_size. cbn. unfold vt, zero_vec.
    replace (Rabs (-1)) with 1 by (rewrite Rabs_left; lra). rewrite (Rabs_right 2), !Rabs_R0 by lra. split; [rewrite Rmax_left by lra; lra|]. intros i Hi. replace i with O by lia. cbn. rewrite Rabs_R1, Rmax_left by lra. lra.
  - cbn [lin_of]. split.
    + unfold relu_error. cbn [INR]. set (d := float_error u32 eta32 2 3 3) in *. set (u := u32) in *. set (h := eta32) in *. nra.
    + intros j Hj. unfold line_size. cbn. replace (Rabs (-1)) with 1 by (rewrite Rabs_left; lra). rewrite (Rabs_right 2) by lra. lra.
Qed.
Lemma ramp_example : forall ke, 0 < ke <= / 10000 -> eta32 <= u32 * ke ->
  float_run_affine op32 (any_order op32 2 3) ke 1 ramp_opts ramp_net unit_box ramp_run /\ affine_errors u32 eta32 2 3 ke 1 1 3 (/ 1000) ramp_net ramp_run /\
  (forall y, in_dom Box 1 unit_box y -> 0 - net_error ramp_net * (ke + / 1000) <= ramp_value 2 y 0%nat <= y 0%nat + net_error ramp_net * (ke + / 1000)).
Proof.
  intros ke Hke Hek. pose proof (ramp_is_run ke ltac:(lra)) as HR. pose proof (ramp_errors ke Hke) as HE. split; [exact HR|]. split; [exact HE|]. intros y Hy. destruct ramp_ok as (H1 & H2 & H3 & H4).
  destruct (affine_lines 2 3 ke 1 ramp_opts ramp_net ramp_value 2 unit_box ramp_run 1 3 (/ 1000) ltac:(lra) Hek ltac:(lia) H1 H2 H3 ltac:(cbn; lia) H4 ltac:(lra)) as (wu & bu & wl & bl & Er & V); auto.
  - intros i Hi. unfold unit_box. cbn. rewrite Rabs_R0, Rabs_R1. lra.
  - lra.
  - cbn in Er. injection Er as <- <- <- <-. specialize (V y 0%nat Hy ltac:(cbn; lia)). unfold aff, RLib.dot in V. cbn [rsum] in V. lra.
Qed.
