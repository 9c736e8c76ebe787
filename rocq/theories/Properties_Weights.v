(** Theorems C80: the weights of a converted model. *)
From Coq Require Import String Reals List Arith Bool ZArith.
From Verif Require Import RLib Spec Spec_Layers M_Core M_Utils M_MergeLayers M_Ops M_Layers M_Convert M_State Spec_State M_Weights P_Weights.
From Verif Require Import Spec_Backward Spec_Convert M_Network P_NetworkForward P_Network P_NetworkSpec P_NetworkCrown P_NetworkThm Spec_Network Spec_Weights P_WeightsThm.
Import ListNotations.
Local Open Scope R_scope.

(** a model whose layers are built is converted *)
Theorem C80_converts : forall shared init ds origs h, all_built h ds origs -> exists news h',
  convert_layers shared init (pairs ds origs) h = Ok (news, h') /\ length news = length ds.
Proof. exact conversion_exists. Qed.
Print Assumptions C80_converts.

(** a layer that is not built is refused *)
Theorem C80_not_built : forall k shared init orig h, wl_built orig = false -> to_decomon_weights k shared init orig h = Err ValueError.
Proof. exact conversion_not_built. Qed.
Print Assumptions C80_not_built.

(** the converted layers compute with the values of the Keras model, shared or not, and these values are left as they were *)
Theorem C80_values : forall shared init ds origs news h h', all_built h ds origs -> convert_layers shared init (pairs ds origs) h = Ok (news, h') ->
  forall nodes,
  net_at (wh_store h') ds news nodes = net_at (wh_store h) ds origs nodes /\
  net_at (wh_store h') ds origs nodes = net_at (wh_store h) ds origs nodes.
Proof. exact conversion_values. Qed.
Print Assumptions C80_values.

(** shared (the default of clone), without BatchNormalization: the two models agree whatever values the variables take later *)
Theorem C80_shared : forall shared init ds origs news h h', all_built h ds origs -> convert_layers shared init (pairs ds origs) h = Ok (news, h') ->
  shared = true -> (forall d, In d ds -> has_batchnorm d = false) -> forall st nodes, net_at st ds news nodes = net_at st ds origs nodes.
Proof. exact conversion_shared. Qed.
Print Assumptions C80_shared.

(** not shared: later values of the variables of the Keras model do not reach the converted model *)
Theorem C80_copy : forall shared init ds origs news h h', all_built h ds origs -> convert_layers shared init (pairs ds origs) h = Ok (news, h') ->
  shared = false -> forall st nodes, (forall v, (wh_next h <= v < wh_next h')%nat -> st v = wh_store h' v) ->
  net_at st ds news nodes = net_at (wh_store h) ds origs nodes.
Proof. exact conversion_copy. Qed.
Print Assumptions C80_copy.

(** nor do those of the variables created by the conversion reach the Keras model *)
Theorem C80_apart : forall shared init ds origs news h h', all_built h ds origs -> convert_layers shared init (pairs ds origs) h = Ok (news, h') ->
  forall st nodes, (forall v, (v < wh_next h)%nat -> st v = wh_store h' v) ->
  net_at st ds origs nodes = net_at (wh_store h) ds origs nodes.
Proof. exact conversion_apart. Qed.
Print Assumptions C80_apart.

(** so a model converted once has valid bounds after any training of the Keras model: interval mode *)
Theorem C80_bounds_ibp : forall shared init ds origs news h h', all_built h ds origs -> convert_layers shared init (pairs ds origs) h = Ok (news, h') ->
  shared = true -> (forall d, In d ds -> has_batchnorm d = false) -> forall ke D n z opts st nodes v o,
  0 < ke -> (0 < n)%nat -> norm_ok D -> net_ok n (net_at st ds origs nodes) -> net_value (net_at st ds origs nodes) v ->
  layers_ok IBP opts (net_at st ds origs nodes) -> single_output (net_at st ds origs nodes) o ->
  exists u l, clone_forward D n IBP IBP (decomon_net ke (mk_spec false IBP D n) opts (net_at st ds news nodes)) [o] z = Ok [u; l] /\
    forall y j, in_dom D n z y -> (j < net_dim n (net_at st ds origs nodes) o)%nat -> l 0%nat j <= v o y j <= u 0%nat j.
Proof. exact conversion_bounds. Qed.
Print Assumptions C80_bounds_ibp.

(** the three modes, layers that need no condition (C64_free) *)
Theorem C80_bounds_free : forall shared init ds origs news h h', all_built h ds origs -> convert_layers shared init (pairs ds origs) h = Ok (news, h') ->
  shared = true -> (forall d, In d ds -> has_batchnorm d = false) -> forall ke D n mode final z opts st nodes v o,
  0 < ke -> (0 < n)%nat -> norm_ok D -> (mode = IBP -> final = IBP) -> (exists y, in_dom D n z y) ->
  net_ok n (net_at st ds origs nodes) -> net_value (net_at st ds origs nodes) v ->
  layers_ok mode opts (net_at st ds origs nodes) -> single_output (net_at st ds origs nodes) o ->
  (forall i L ps, nth_error (net_at st ds origs nodes) i = Some (Some L, ps) -> nl_free (lo_fast (opts i)) L) ->
  exists ts, clone_forward D n mode final (decomon_net ke (mk_spec false mode D n) opts (net_at st ds news nodes)) [o] z = Ok ts /\
    valid D final false (in_dom D n z) n (net_dim n (net_at st ds origs nodes) o) (v o) ts.
Proof. exact conversion_bounds_free. Qed.
Print Assumptions C80_bounds_free.

(** BatchNormalization is copied even when shared: after an update of gamma the bounds exclude values of the model *)
Theorem C80_batchnorm_refuted : forall ke init, exists news h' st v y u l,
  convert_layers true init (pairs [bn_desc] [bn_layer]) bn_heap = Ok (news, h') /\
  (forall x, x <> ov bn_layer "gamma" -> st x = wh_store h' x) /\ net_value (net_at st [bn_desc] [bn_layer] bn_nodes) v /\
  clone_forward Box 1 IBP IBP (decomon_net ke (mk_spec false IBP Box 1) (fun _ => mk_opts V_SLOPE None false) (net_at st [bn_desc] news bn_nodes)) [1%nat] unit_pair = Ok [u; l] /\
  in_dom Box 1 unit_pair y /\ u 0%nat 0%nat < v 1%nat y 0%nat.
Proof. exact batchnorm_stale. Qed.
Print Assumptions C80_batchnorm_refuted.

(** a Dense layer called twice, relu, Dense; any values at the time of the conversion, any values later *)
Example C80_example : forall d init ke z st, 0 < ke -> exists news h' v u l,
  convert_layers true init (pairs tied_descs tied_layers) (tied_heap d) = Ok (news, h') /\ net_value (net_at st tied_descs tied_layers tied_nodes) v /\
  clone_forward Box 2 IBP IBP (decomon_net ke (mk_spec false IBP Box 2) (fun _ => mk_opts V_SLOPE None false) (net_at st tied_descs news tied_nodes)) [4%nat] z = Ok [u; l] /\
  forall y, in_dom Box 2 z y -> l 0%nat 0%nat <= v 4%nat y 0%nat <= u 0%nat 0%nat.
Proof. exact tied_bounds. Qed.

