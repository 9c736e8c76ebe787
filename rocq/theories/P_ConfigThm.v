(** Witnesses for C77 *)
From Coq Require Import String List Bool ZArith Reals Lia Lra.
From Verif Require Import RLib Spec Spec_Layers M_Core M_State M_Utils M_MergeLayers M_Layers M_Ops M_Pool M_Network M_Domain M_Config P_Core P_Utils P_Ops P_BackwardMore P_Network P_Domain P_InclusionThm P_Config P_ConfigMore.
From Verif Require Import Spec_Network Spec_Config.
Import ListNotations.
Local Open Scope string_scope.
Local Open Scope list_scope.
Local Open Scope R_scope.

Definition relu_kw (m : fmode) : dict := [("activation", VStr "relu"); ("mode", VMode m); ("slope", VStr "zero-lb"); ("name", VStr "a")].
Definition keras_relu : dict := [("name", VStr "a"); ("trainable", VNone); ("dtype", VNone); ("activation", VStr "relu")].
Definition relu_attrs (m : fmode) (s : slope) : attrs := mk_attrs CActivation keras_relu Box false m false false true [("slope", VSlope s)] (false, m, Box).
Lemma relu_init : forall m, layer_init CActivation (relu_kw m) = Ok (relu_attrs m Z_SLOPE).
Proof. intros []; reflexivity. Qed.
Lemma relu_again : forall m, rebuild (relu_attrs m Z_SLOPE) = Ok (relu_attrs m V_SLOPE).
Proof. intros []; reflexivity. Qed.

Lemma zero_down : forall ke u l, 0 < ke -> ke <= u - l -> l < 0 -> 0 < u -> h_wl (hull_relu ke Z_SLOPE None u l) = 0 /\ h_bl (hull_relu ke Z_SLOPE None u l) = 0.
Proof.
  intros ke u l Hke Hg Hl Hu. unfold hull_relu. cbn. assert (index_linear l = 0) as ->; [|assert (index_dead u = 0) as ->].
  - unfold index_linear, Rclip, Rsgn. repeat destruct (Rlt_dec _ _); unfold Rmin, Rmax; repeat destruct (Rle_dec _ _); lra.
  - unfold index_dead, Rclip, Rsgn. repeat destruct (Rlt_dec _ _); unfold Rmin, Rmax; repeat destruct (Rle_dec _ _); lra.
  - split; ring.
Qed.
Definition line_in : list tensor := [seg (-1) 2; (fun _ _ => 1); (fun _ _ => 0); (fun _ _ => 1); (fun _ _ => 0)].
(** the slope is lost: on [-1, 2] the rebuilt layer gives the lower line y instead of 0 *)
Theorem slope_lost : forall ke, 0 < ke <= 1 -> exists kw a b x wu bu wl bl x' wu' bu' wl' bl',
  layer_init CActivation kw = Ok a /\ rebuild a = Ok b /\ a <> b /\
  attr_call ke 1 (NActivation Arelu 1) (fun _ => 0) a line_in = Ok [x; wu; bu; wl; bl] /\
  attr_call ke 1 (NActivation Arelu 1) (fun _ => 0) b line_in = Ok [x'; wu'; bu'; wl'; bl'] /\
  wl 0%nat 0%nat = 0 /\ bl 0%nat 0%nat = 0 /\ wl' 0%nat 0%nat = 1 /\ bl' 0%nat 0%nat = 0.
Proof.
  intros ke Hke. exists (relu_kw AFFINE), (relu_attrs AFFINE Z_SLOPE), (relu_attrs AFFINE V_SLOPE). do 10 eexists.
  split; [reflexivity|]. split; [reflexivity|]. split; [discriminate|]. split; [run|]. split; [run|].
  destruct (zero_down ke 2 (-1)) as [Z1 Z2]; try lra.
  open_net. hulls ke.
  repeat match goal with |- context [Rmax ?a ?b] => first [rewrite (Rmax_left a b) by lra | rewrite (Rmax_right a b) by lra]
    | |- context [Rmin ?a ?b] => first [rewrite (Rmin_left a b) by lra | rewrite (Rmin_right a b) by lra] end.
  replace (0 + (1 * 2 + 0 * -1) + 0) with 2 by ring. replace (0 + (1 * -1 + 0 * 2) + 0) with (-1) by ring. fold (h_wl (hull_relu ke Z_SLOPE None 2 (-1))).
  fold (h_bl (hull_relu ke Z_SLOPE None 2 (-1))). rewrite Z1, Z2. repeat split; ring.
Qed.
(** the full statement, refuted *)
Theorem rebuild_refuted : exists c kw a b, layer_init c kw = Ok a /\ rebuild a = Ok b /\ ~ same_options a b.
Proof. exists CActivation, (relu_kw HYBRID). do 2 eexists. split; [reflexivity|]. split; [reflexivity|]. discriminate. Qed.

(** a dense layer with every option *)
Definition dense_kw : dict :=
  [("units", VInt 3); ("activation", VStr "relu"); ("kernel_constraint", VRaw 1); ("use_bias", VBool true); ("name", VStr "d"); ("mode", VStr "affine");
   ("perturbation_domain", VDomain (Ball 1 (Pnum 2))); ("slope", VStr "no-such-slope"); ("dc_decomp", VBool true); ("fast", VBool false)].
Definition dense_attrs : attrs :=
  mk_attrs CDense [("name", VStr "d"); ("trainable", VNone); ("dtype", VNone); ("units", VInt 3); ("activation", VNone); ("use_bias", VBool true); ("kernel_initializer", VNone);
    ("bias_initializer", VNone); ("kernel_regularizer", VNone); ("bias_regularizer", VNone); ("activity_regularizer", VNone); ("kernel_constraint", VNone); ("bias_constraint", VNone)]
    (Ball 1 (Pnum 2)) true AFFINE false false false [] (true, AFFINE, Ball 1 (Pnum 2)).
Theorem dense_built : layer_init CDense dense_kw = Ok dense_attrs /\ rebuild dense_attrs = Ok dense_attrs /\ rebuild (with_domain dense_attrs (Ball 4 Pinf)) = Ok (for_domain dense_attrs (Ball 4 Pinf)).
Proof. repeat split. Qed.
(** arguments which are refused *)
Theorem init_refused : layer_init CDense [("units", VInt 3); ("unit", VInt 3)] = Err ValueError /\ layer_init CDense [] = Err TypeError /\
  layer_init CDense [("units", VInt 3); ("mode", VStr "crown")] = Err ValueError /\ layer_init CActivation [("activation", VStr "relu"); ("slope", VStr "no-such-slope")] = Err ValueError /\
  layer_init CRadiusRobust [("mode", VMode IBP)] = Err NotImplementedError.
Proof. repeat split. Qed.

(** to_decomon *)
Definition some_options : toptions := mk_toptions (VStr "adaptative-slope") false (Some (Ball 1 Pinf)) true true false true false.
Theorem to_decomon_example : exists a, to_decomon_attrs true CActivation keras_relu (VStr "a_decomon") some_options = Ok a /\ slope_attr a = A_SLOPE /\ at_mode a = IBP /\
  at_domain a = Ball 1 Pinf /\ at_finetune a = true /\ at_shared a = true /\ at_fast a = false.
Proof. eexists. split; [reflexivity|]. repeat split. Qed.
Theorem keras_relu_init : keras_init (keras_params CActivation) (keras_required CActivation) keras_relu = Ok keras_relu.
Proof. reflexivity. Qed.

(** backward layers: dc_decomp of a layer converted from a Keras layer *)
Definition keras_dense : dict := at_keras dense_attrs.
Theorem backward_dc_lost : exists b b', backward_init BDense (WKeras CDense keras_dense) (VStr "d_decomon") [("dc_decomp", VBool true); ("mode", VMode AFFINE)] = Ok b /\
  backward_rebuild (VStr "d_decomon") b = Ok b' /\ bt_dc b = true /\ bt_dc b' = false.
Proof. do 2 eexists. split; [reflexivity|]. split; [reflexivity|]. split; reflexivity. Qed.
Theorem backward_relu : exists b, to_backward_attrs BActivation (WDecomon (relu_attrs AFFINE Z_SLOPE)) (VStr "a_backward") (VStr "float32") (VStr "same-slope") (VMode HYBRID) (Some (Ball 2 Pinf)) true [] = Ok b /\
  bt_mode b = AFFINE /\ bt_domain b = Box /\ bt_own b = Some (S_SLOPE, true) /\
  exists b', backward_rebuild (VStr "") b = Ok b' /\ bt_own b' = Some (S_SLOPE, true) /\ bt_layer b' = WDecomon (relu_attrs AFFINE V_SLOPE).
Proof. eexists. split; [reflexivity|]. do 3 (split; [reflexivity|]). eexists. split; [reflexivity|]. split; reflexivity. Qed.

(** Convert2Mode: the announced shape of x *)
Theorem input_dim_lost : exists kw a b, convert2mode_init kw = Ok a /\ convert2mode_init (convert2mode_config [("name", VStr "c")] a) = Ok b /\
  x_shape_of (ct_domain a) (ct_input_dim a) = [2; 5]%Z /\ x_shape_of (ct_domain b) (ct_input_dim b) = [2; -1]%Z.
Proof. exists [("mode_from", VStr "ibp"); ("mode_to", VStr "affine"); ("perturbation_domain", VDomain Box); ("input_dim", VInt 5)]. do 2 eexists. repeat split. Qed.
Theorem conversion_layers : exists m a, convert2backward_init [("mode", VStr "affine"); ("perturbation_domain", VDomain (Ball 1 Pinf))] = Ok m /\ convert2backward_init (convert2backward_config [("name", VStr "c")] m) = Ok m /\
  metric_init [("ibp", VBool true); ("affine", VBool false); ("mode", VBool true); ("perturbation_domain", VDomain Box)] = Ok a /\ metric_init (metric_config [("name", VStr "c")] a) = Ok a.
Proof. do 2 eexists. repeat split. Qed.
Theorem domains : made (PBox Lagrangian) /\ made (PBall 1 (Pnum 2) Milp) /\ domain_config (PBall 1 Pinf Lagrangian) = [("opt_option", DOpt Lagrangian); ("eps", DReal 1); ("p", DInf)] /\
  ball_init [("eps", DReal 1); ("p", DInt 0)] = Err ValueError /\ ball_init [("eps", DReal 1); ("p", DFloat 2)] = Err ValueError.
Proof.
  split; [exists [("opt_option", DOpt Lagrangian)]; reflexivity|]. split; [apply ball_made; discriminate|]. repeat split.
Qed.
(** bounds of a layer rebuilt after set_domain: hypotheses of rebuilt_sound *)
Theorem rebuilt_sound_example : exists b, layer_init CActivation (relu_kw HYBRID) = Ok (relu_attrs HYBRID Z_SLOPE) /\ rebuild (with_domain (relu_attrs HYBRID Z_SLOPE) (Ball 1 Pinf)) = Ok b /\
  at_domain b = Ball 1 Pinf /\ at_spec b = (false, HYBRID, Ball 1 Pinf) /\ dom_ok (Ball 1 Pinf) HYBRID /\ nl_ok HYBRID true (NActivation Arelu 1) /\ ft_ok 1 (Some (fun _ => 0)).
Proof.
  eexists. split; [reflexivity|]. split; [reflexivity|]. do 2 (split; [reflexivity|]). split; [exact I|split].
  - cbn. auto.
  - intros j _. cbn. lra.
Qed.
