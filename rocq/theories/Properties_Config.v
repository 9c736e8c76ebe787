(** Theorems C77: options of the layers, and layers rebuilt from their configuration. *)
From Coq Require Import String List Bool ZArith Reals.
From Verif Require Import RLib Spec Spec_Layers M_Core M_State M_Utils M_MergeLayers M_Layers M_Ops M_Pool M_Network M_Domain M_Config P_Core P_Utils P_Network P_Domain P_InclusionThm P_Config P_ConfigMore P_ConfigThm.
From Verif Require Import Spec_Network Spec_Config.
Import ListNotations.
Local Open Scope string_scope.
Local Open Scope list_scope.
Local Open Scope R_scope.

(** from_config(get_config()) gives back the layer, for every class but Activation *)
Theorem C77_rebuild : forall c kw a, layer_init c kw = Ok a -> c <> CActivation -> exists b, rebuild a = Ok b /\ same_options a b.
Proof. exact rebuild_same. Qed.
Print Assumptions C77_rebuild.

(** the full statement, for every class: refuted by an activation *)
Theorem C77_rebuild_refuted : exists c kw a b, layer_init c kw = Ok a /\ rebuild a = Ok b /\ ~ same_options a b.
Proof. exact rebuild_refuted. Qed.
Print Assumptions C77_rebuild_refuted.

(** activations: everything but the slope *)
Theorem C77_activation : forall kw a, layer_init CActivation kw = Ok a ->
  exists b, rebuild a = Ok b /\ same_but_own a b /\ at_own b = [("slope"%string, VSlope V_SLOPE)].
Proof. exact rebuild_activation. Qed.
Print Assumptions C77_activation.

Theorem C77_activation_iff : forall kw a, layer_init CActivation kw = Ok a -> (rebuild a = Ok a <-> slope_attr a = V_SLOPE).
Proof. exact rebuild_slope_kept. Qed.
Print Assumptions C77_activation_iff.

(** the bounds change: on [-1, 2] relu rebuilt from slope zero-lb has the lower line y *)
Theorem C77_slope_refuted : forall ke, 0 < ke <= 1 -> exists kw a b x wu bu wl bl x' wu' bu' wl' bl',
  layer_init CActivation kw = Ok a /\ rebuild a = Ok b /\ a <> b /\
  attr_call ke 1 (NActivation Arelu 1) (fun _ => 0) a line_in = Ok [x; wu; bu; wl; bl] /\
  attr_call ke 1 (NActivation Arelu 1) (fun _ => 0) b line_in = Ok [x'; wu'; bu'; wl'; bl'] /\
  wl 0%nat 0%nat = 0 /\ bl 0%nat 0%nat = 0 /\ wl' 0%nat 0%nat = 1 /\ bl' 0%nat 0%nat = 0.
Proof. exact slope_lost. Qed.
Print Assumptions C77_slope_refuted.

(** they do not in ibp mode and for the other activations than relu and softplus *)
Theorem C77_activation_bounds : forall kw a b ke n act m ft ts, layer_init CActivation kw = Ok a -> rebuild a = Ok b -> ~ reads_slope (at_mode a) act \/ slope_attr a = V_SLOPE ->
  attr_call ke n (NActivation act m) ft b ts = attr_call ke n (NActivation act m) ft a ts.
Proof. exact rebuilt_activation_bounds. Qed.
Print Assumptions C77_activation_bounds.

Theorem C77_rebuild_twice : forall c kw a b, layer_init c kw = Ok a -> rebuild a = Ok b -> rebuild b = Ok b.
Proof. exact rebuild_stable. Qed.
Print Assumptions C77_rebuild_twice.

(** after set_domain, the rebuilt layer is the one of the new domain: the object which reads the inputs follows, which set_domain does not do (C72) *)
Theorem C77_set_domain : forall c kw a D, layer_init c kw = Ok a -> c <> CActivation -> (c = CRadiusRobust -> D = Box) ->
  rebuild (with_domain a D) = Ok (for_domain a D) /\ coherent (for_domain a D).
Proof. exact rebuild_set_domain. Qed.
Print Assumptions C77_set_domain.

(** its bounds are those of a layer made for the new domain *)
Theorem C77_bounds : forall c kw a D b ke n L ft ts, layer_init c kw = Ok a -> rebuild (with_domain a D) = Ok b ->
  attr_call ke n L ft b ts = decomon_layer ke (mk_spec (at_dc a) (at_mode a) D n) (attr_opts b ft) L ts /\ at_fast b = at_fast a /\ at_finetune b = at_finetune a.
Proof. exact rebuilt_call. Qed.
Print Assumptions C77_bounds.

(** and they are valid. Missing: inputs which do not meet nl_gaps (C64) *)
Theorem C77_sound_partial : forall c kw a D b ke n L ft, layer_init c kw = Ok a -> rebuild (with_domain a D) = Ok b -> 0 < ke -> (0 < n)%nat -> at_dc a = false ->
  dom_ok D (at_mode a) -> nl_ok (at_mode a) (at_fast a) L -> ft_ok (nl_out L) (Some ft) ->
  forall (S : vec -> Prop) gs tss g, let sp := mk_spec false (at_mode a) D n in
    (at_mode a = IBP \/ exists z, S z) -> Forall2 (fun mg ts => valid (sp_dom sp) (sp_mode sp) (sp_dc sp) S (sp_n sp) (fst mg) (snd mg) ts) (combine (nl_in L) gs) tss -> length gs = length (nl_in L) ->
    nl_gaps ke sp (attr_opts b ft) L (concat tss) -> (forall z, computes L (map (fun h => h z) gs) (g z)) ->
    exists out, attr_call ke n L ft b (concat tss) = Ok out /\ valid (sp_dom sp) (sp_mode sp) (sp_dc sp) S (sp_n sp) (nl_out L) g out.
Proof. exact rebuilt_sound. Qed.
Print Assumptions C77_sound_partial.

Example C77_dense_example : layer_init CDense dense_kw = Ok dense_attrs /\ rebuild dense_attrs = Ok dense_attrs /\ rebuild (with_domain dense_attrs (Ball 4 Pinf)) = Ok (for_domain dense_attrs (Ball 4 Pinf)).
Proof. exact dense_built. Qed.

Example C77_sound_example : exists b, layer_init CActivation (relu_kw HYBRID) = Ok (relu_attrs HYBRID Z_SLOPE) /\ rebuild (with_domain (relu_attrs HYBRID Z_SLOPE) (Ball 1 Pinf)) = Ok b /\
  at_domain b = Ball 1 Pinf /\ at_spec b = (false, HYBRID, Ball 1 Pinf) /\ dom_ok (Ball 1 Pinf) HYBRID /\ nl_ok HYBRID true (NActivation Arelu 1) /\ ft_ok 1 (Some (fun _ => 0)).
Proof. exact rebuilt_sound_example. Qed.

Example C77_refused : layer_init CDense [("units", VInt 3); ("unit", VInt 3)] = Err ValueError /\ layer_init CDense [] = Err TypeError /\
  layer_init CDense [("units", VInt 3); ("mode", VStr "crown")] = Err ValueError /\ layer_init CActivation [("activation", VStr "relu"); ("slope", VStr "no-such-slope")] = Err ValueError /\
  layer_init CRadiusRobust [("mode", VMode IBP)] = Err NotImplementedError.
Proof. exact init_refused. Qed.

(** to_decomon on a built layer of a known class honours every option, and keeps the parameters of the layer but its name, its activation function (outside Activation) and what the constructor removes *)
Theorem C77_to_decomon : forall c kw k name o, keras_class c -> keras_init (keras_params c) (keras_required c) kw = Ok k ->
  (c = CActivation -> exists s, as_slope (to_slope o) = Ok s) ->
  exists a, to_decomon_attrs true c k name o = Ok a /\ honours c o name a /\
    forall p, In p (keras_params c) -> ~ In p (popped c) -> p <> "name"%string -> (p = "activation"%string -> c = CActivation) -> lookup p (at_keras a) = lookup p k.
Proof. exact to_decomon_ok. Qed.
Print Assumptions C77_to_decomon.

(** a wrong slope is refused on activations only, as a layer which is not implemented *)
Theorem C77_to_decomon_slope : forall c kw k name o, keras_class c -> keras_init (keras_params c) (keras_required c) kw = Ok k ->
  (forall s, as_slope (to_slope o) <> Ok s) ->
  (c = CActivation -> to_decomon_attrs true c k name o = Err NotImplementedError) /\
  (c <> CActivation -> exists a, to_decomon_attrs true c k name o = Ok a /\ honours c o name a).
Proof. exact to_decomon_slope. Qed.
Print Assumptions C77_to_decomon_slope.

Example C77_to_decomon_example : exists a, to_decomon_attrs true CActivation keras_relu (VStr "a_decomon") some_options = Ok a /\ slope_attr a = A_SLOPE /\ at_mode a = IBP /\
  at_domain a = Ball 1 Pinf /\ at_finetune a = true /\ at_shared a = true /\ at_fast a = false.
Proof. exact to_decomon_example. Qed.

Example C77_to_decomon_keras : keras_init (keras_params CActivation) (keras_required CActivation) keras_relu = Ok keras_relu.
Proof. exact keras_relu_init. Qed.

(** backward layers: what from_config gives, exactly *)
Theorem C77_backward : forall c w name kw b name', from_init w -> backward_init c w name kw = Ok b ->
  backward_rebuild name' b = Ok (mk_battrs c (wrapped_again (bt_layer b)) (bt_keras b) (bt_rec b) (bt_mode b) (bt_domain b) (if dc_lost w b then false else bt_dc b) (bt_own b)
    (if dc_lost w b then false else bt_dc b, bt_mode b, bt_domain b)).
Proof. exact backward_rebuilt. Qed.
Print Assumptions C77_backward.

(** the same layer, when the wrapped layer has the default slope and dc_decomp is not lost *)
Theorem C77_backward_same : forall c w name kw b name', from_init w -> backward_init c w name kw = Ok b -> default_slope (bt_layer b) -> (bt_dc b = false \/ dc_lost w b = false) ->
  backward_rebuild name' b = Ok b.
Proof. exact backward_same. Qed.
Print Assumptions C77_backward_same.

(** the slope and finetune of a backward activation are kept *)
Theorem C77_backward_activation : forall w name kw b name', from_init w -> backward_init BActivation w name kw = Ok b ->
  exists b', backward_rebuild name' b = Ok b' /\ bt_own b' = bt_own b /\ bt_mode b' = bt_mode b /\ bt_domain b' = bt_domain b /\ bt_dc b' = bt_dc b /\ bt_rec b' = bt_rec b.
Proof. exact backward_slope_kept. Qed.
Print Assumptions C77_backward_activation.

(** a BackwardDense made from a Keras layer with dc_decomp=True is rebuilt with False *)
Theorem C77_backward_dc_refuted : exists b b', backward_init BDense (WKeras CDense keras_dense) (VStr "d_decomon") [("dc_decomp", VBool true); ("mode", VMode AFFINE)] = Ok b /\
  backward_rebuild (VStr "d_decomon") b = Ok b' /\ bt_dc b = true /\ bt_dc b' = false.
Proof. exact backward_dc_lost. Qed.
Print Assumptions C77_backward_dc_refuted.

(** to_backward on a decomon layer: the mode and the domain given are not read *)
Theorem C77_backward_inherits : forall c a name dtype sl mode D ft b, from_init (WDecomon a) -> to_backward_attrs c (WDecomon a) name dtype sl mode D ft [] = Ok b ->
  bt_mode b = at_mode a /\ bt_domain b = at_domain a /\ bt_dc b = at_dc a /\ bt_layer b = WDecomon a.
Proof. exact to_backward_inherits. Qed.
Print Assumptions C77_backward_inherits.

(** to_backward on a Keras layer honours the options *)
Theorem C77_to_backward : forall c lc k name dtype sl m D ft s, c <> BMaxPooling2D -> keras_class lc -> from_init (WKeras lc k) -> as_mode m = Ok s ->
  (c = BActivation -> exists q, as_slope sl = Ok q) -> (converts c = true -> lc <> CActivation) ->
  exists b, to_backward_attrs c (WKeras lc k) name dtype sl m D ft [] = Ok b /\ bt_class b = c /\ bt_mode b = s /\ bt_domain b = (match D with Some D => D | None => Box end) /\ bt_dc b = false /\
    bt_rec b = 1%Z /\ (forall q, c = BActivation -> as_slope sl = Ok q -> bt_own b = Some (q, ft)) /\ lookup "name" (bt_keras b) = Some name /\ lookup "dtype" (bt_keras b) = Some dtype.
Proof. exact to_backward_ok. Qed.
Print Assumptions C77_to_backward.

(** no backward max pooling *)
Theorem C77_backward_pool : forall w name kw b, backward_init BMaxPooling2D w name kw <> Ok b.
Proof. exact backward_pool. Qed.
Print Assumptions C77_backward_pool.

Example C77_backward_example : exists b, to_backward_attrs BActivation (WDecomon (relu_attrs AFFINE Z_SLOPE)) (VStr "a_backward") (VStr "float32") (VStr "same-slope") (VMode HYBRID) (Some (Ball 2 Pinf)) true [] = Ok b /\
  bt_mode b = AFFINE /\ bt_domain b = Box /\ bt_own b = Some (S_SLOPE, true) /\
  exists b', backward_rebuild (VStr "") b = Ok b' /\ bt_own b' = Some (S_SLOPE, true) /\ bt_layer b' = WDecomon (relu_attrs AFFINE V_SLOPE).
Proof. exact backward_relu. Qed.

(** Convert2Mode: the dimension of the input goes back to -1 *)
Theorem C77_convert2mode : forall kw base a, convert2mode_init kw = Ok a -> outside ["mode_from"; "mode_to"; "perturbation_domain"; "input_dim"] base ->
  convert2mode_init (convert2mode_config base a) = Ok (mk_cattrs (ct_from a) (ct_to a) (ct_domain a) (-1)).
Proof. exact convert2mode_rebuilt. Qed.
Print Assumptions C77_convert2mode.

(** and the announced shape of x with it *)
Theorem C77_convert2mode_refuted : exists kw a b, convert2mode_init kw = Ok a /\ convert2mode_init (convert2mode_config [("name", VStr "c")] a) = Ok b /\
  x_shape_of (ct_domain a) (ct_input_dim a) = [2; 5]%Z /\ x_shape_of (ct_domain b) (ct_input_dim b) = [2; -1]%Z.
Proof. exact input_dim_lost. Qed.
Print Assumptions C77_convert2mode_refuted.

Theorem C77_convert2backward : forall kw base a, convert2backward_init kw = Ok a -> outside ["mode"; "perturbation_domain"] base ->
  convert2backward_init (convert2backward_config base a) = Ok a.
Proof. exact convert2backward_rebuilt. Qed.
Print Assumptions C77_convert2backward.

Theorem C77_metric : forall kw base a, metric_init kw = Ok a -> outside ["ibp"; "affine"; "mode"; "perturbation_domain"] base ->
  metric_init (metric_config base a) = Ok a.
Proof. exact metric_rebuilt. Qed.
Print Assumptions C77_metric.

Example C77_conversion_example : exists m a, convert2backward_init [("mode", VStr "affine"); ("perturbation_domain", VDomain (Ball 1 Pinf))] = Ok m /\ convert2backward_init (convert2backward_config [("name", VStr "c")] m) = Ok m /\
  metric_init [("ibp", VBool true); ("affine", VBool false); ("mode", VBool true); ("perturbation_domain", VDomain Box)] = Ok a /\ metric_init (metric_config [("name", VStr "c")] a) = Ok a.
Proof. exact conversion_layers. Qed.

(** perturbation domains *)
Theorem C77_domain : forall D, made D -> domain_init D (domain_config D) = Ok D.
Proof. exact domain_rebuilt. Qed.
Print Assumptions C77_domain.

(** the orders of norm which BallDomain accepts *)
Theorem C77_ball : forall e p o, made (PBall e p o) <-> p <> Pnum 0.
Proof. exact ball_made. Qed.
Print Assumptions C77_ball.

Example C77_domain_example : made (PBox Lagrangian) /\ made (PBall 1 (Pnum 2) Milp) /\ domain_config (PBall 1 Pinf Lagrangian) = [("opt_option", DOpt Lagrangian); ("eps", DReal 1); ("p", DInf)] /\
  ball_init [("eps", DReal 1); ("p", DInt 0)] = Err ValueError /\ ball_init [("eps", DReal 1); ("p", DFloat 2)] = Err ValueError.
Proof. exact domains. Qed.

