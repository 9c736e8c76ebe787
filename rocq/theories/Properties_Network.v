(** Theorems C64-C66: conversion of whole networks. *)
From Coq Require Import Reals List Arith Bool ZArith.
From Verif Require Import RLib Spec Spec_Layers Spec_Backward Spec_Convert Spec_Network M_Core M_Utils M_Ops M_Backward M_Crown M_Convert M_Network.
From Verif Require Import P_Core P_Graph P_Crown P_Convert P_Network P_NetworkSpec P_NetworkCrown P_NetworkThm P_NetworkExact P_NetworkForward P_NetworkExactThm.
Import ListNotations.
Local Open Scope R_scope.

(** C64, one layer: seventeen kinds of layers, their attributes and weights. Missing: intervals narrower than epsilon, S-shaped functions across 0 and softplus outside ibp mode (nl_gaps; refuted without it, see C08, C10, C14-C16, C24) *)
Theorem C64_layer_partial : forall ke D mode n o L (S : vec -> Prop) gs tss g,
  0 < ke -> (0 < n)%nat -> dom_ok D mode -> nl_ok mode (lo_fast o) L -> ft_ok (nl_out L) (lo_ft o) -> (mode = IBP \/ exists z, S z) ->
  length gs = length (nl_in L) -> Forall2 (fun mg ts => valid D mode false S n (fst mg) (snd mg) ts) (combine (nl_in L) gs) tss ->
  nl_gaps ke (mk_spec false mode D n) o L (concat tss) -> (forall z, computes L (map (fun h => h z) gs) (g z)) ->
  exists out, decomon_layer ke (mk_spec false mode D n) o L (concat tss) = Ok out /\ valid D mode false S n (nl_out L) g out.
Proof. exact layer_sound_full. Qed.
Print Assumptions C64_layer_partial.

(** every network has one value at each node *)
Theorem C64_value_exists : forall n net, net_ok n net ->
  (forall i L ps, nth_error net i = Some (Some L, ps) -> exists mode fast, nl_ok mode fast L) -> net_value net (net_fn net).
Proof. exact net_value_exists. Qed.
Print Assumptions C64_value_exists.

Theorem C64_value_unique : forall n net v v', net_ok n net ->
  (forall i L ps, nth_error net i = Some (Some L, ps) -> exists mode fast, nl_ok mode fast L) ->
  net_value net v -> net_value net v' ->
  forall y i, (i < length net)%nat -> agree (net_dim n net i) (v i y) (v' i y).
Proof. exact net_value_unique. Qed.
Print Assumptions C64_value_unique.

(** ibp mode: any network of these layers, any sizes, any depth *)
Theorem C64_ibp : forall ke D n z opts net v o,
  0 < ke -> (0 < n)%nat -> norm_ok D -> net_ok n net -> net_value net v -> layers_ok IBP opts net -> single_output net o ->
  exists u l, clone_forward D n IBP IBP (decomon_net ke (mk_spec false IBP D n) opts net) [o] z = Ok [u; l] /\
    forall y j, in_dom D n z y -> (j < net_dim n net o)%nat -> l 0%nat j <= v o y j <= u 0%nat j.
Proof. exact net_clone_ibp. Qed.
Print Assumptions C64_ibp.

(** the three modes. Missing: as above *)
Theorem C64_forward_partial : forall ke D n mode final z opts net v o,
  0 < ke -> (0 < n)%nat -> norm_ok D -> (mode = IBP -> final = IBP) -> (mode = IBP \/ exists y, in_dom D n z y) ->
  net_ok n net -> net_value net v -> layers_ok mode opts net -> single_output net o ->
  (forall its i L ps vs, get_input_tensors (Some D) mode n z = Ok its -> nth_error net i = Some (Some L, ps) ->
     evaluates (firstn i (decomon_net ke (mk_spec false mode D n) opts net)) no_map its vs ->
     nl_gaps ke (mk_spec false mode D n) (opts i) L (concat (map vs ps))) ->
  exists ts, clone_forward D n mode final (decomon_net ke (mk_spec false mode D n) opts net) [o] z = Ok ts /\
    valid D final false (in_dom D n z) n (net_dim n net o) (v o) ts.
Proof. exact net_clone. Qed.
Print Assumptions C64_forward_partial.

(** without condition when no layer needs one: Dense, Conv2D, BatchNormalization, reshapes, Add, Average, Subtract, Multiply, Dot, Concatenate, fast MaxPooling2D *)
Theorem C64_free : forall ke D n mode final z opts net v o,
  0 < ke -> (0 < n)%nat -> norm_ok D -> (mode = IBP -> final = IBP) -> (exists y, in_dom D n z y) ->
  net_ok n net -> net_value net v -> layers_ok mode opts net -> single_output net o ->
  (forall i L ps, nth_error net i = Some (Some L, ps) -> nl_free (lo_fast (opts i)) L) ->
  exists ts, clone_forward D n mode final (decomon_net ke (mk_spec false mode D n) opts net) [o] z = Ok ts /\
    valid D final false (in_dom D n z) n (net_dim n net o) (v o) ts.
Proof. exact net_clone_free. Qed.
Print Assumptions C64_free.

(** a single relu on a small interval *)
Theorem C64_refuted : forall ke, 0 < ke -> exists u l y,
  clone_forward Box 1 AFFINE IBP (decomon_net ke (mk_spec false AFFINE Box 1) (fun _ => mk_opts V_SLOPE None false) relu_net) [1%nat] (small_box ke) = Ok [u; l] /\
  in_dom Box 1 (small_box ke) y /\ u 0%nat 0%nat < relu_value 1 y 0%nat.
Proof. exact relu_net_affine_wrong. Qed.
Print Assumptions C64_refuted.

Example C64_example_image : forall ke D opts kernel bias gamma mean dense z, 0 < ke -> norm_ok D -> (forall i, plain (opts i)) -> exists v u l,
  net_value (image_net kernel bias gamma mean dense) v /\
  clone_forward D 9 IBP IBP (decomon_net ke (mk_spec false IBP D 9) opts (image_net kernel bias gamma mean dense)) [8%nat] z = Ok [u; l] /\
  forall y j, in_dom D 9 z y -> (j < 3)%nat -> l 0%nat j <= v 8%nat y j <= u 0%nat j.
Proof. exact image_clone. Qed.

Example C64_example_residual : forall ke D n mode opts kernel bias z, 0 < ke -> (0 < n)%nat -> norm_ok D -> (exists y, in_dom D n z y) -> (forall i, plain (opts i)) ->
  exists ts, clone_forward D n mode mode (decomon_net ke (mk_spec false mode D n) opts (lin_net n kernel bias)) [2%nat] z = Ok ts /\
    valid D mode false (in_dom D n z) n n (fun y j => keras_dense n n kernel (opt_vec 0 bias) y j + y j) ts.
Proof. exact lin_clone. Qed.

(** C65, one backward layer *)
Theorem C65_layer_partial : forall ke sp o L, 0 < ke -> (0 < sp_n sp)%nat -> dom_ok (sp_dom sp) (sp_mode sp) -> sp_dc sp = false ->
  bl_ok L -> ft_ok (nl_out L) (option_map snd (bo_ft o)) ->
  bwd_sound sp (bl_gaps ke sp L) (backward_layer ke sp o L) (fun y => layer_fn L [y]).
Proof. exact bwd_layer_sound. Qed.
Print Assumptions C65_layer_partial.

(** crown. Missing: bl_gaps, as above *)
Theorem C65_crown_partial : forall ke D n mode final z ids bo net v o,
  0 < ke -> (0 < n)%nat -> norm_ok D -> (mode = IBP -> D = Box) ->
  net_ok n net -> net_value net v -> blayers_ok bo net -> single_output net o ->
  length ids = length net -> NoDup ids ->
  (forall its i L ps imap ts, get_input_tensors (Some D) mode n z = Ok its -> nth_error net i = Some (Some L, ps) ->
     let g := backward_net ke (mk_spec false mode D n) bo n net in
     get_input_nodes mode D n its no_map g (firstn i g) [] = Ok imap -> node_inputs mode D n its no_map g imap ps = Ok ts ->
     bl_gaps ke (mk_spec false mode D n) L ts) ->
  exists ts, clone_backward D n mode final None ids (backward_net ke (mk_spec false mode D n) bo n net) [o] None z = Ok ts /\
    valid D final false (in_dom D n z) n (net_dim n net o) (v o) ts.
Proof. exact net_clone_crown. Qed.
Print Assumptions C65_crown_partial.

Theorem C65_crown_free : forall ke D n mode final z ids bo net v o,
  0 < ke -> (0 < n)%nat -> norm_ok D -> (mode = IBP -> D = Box) ->
  net_ok n net -> net_value net v -> blayers_ok bo net -> single_output net o ->
  length ids = length net -> NoDup ids ->
  (forall i L ps, nth_error net i = Some (Some L, ps) -> bl_free L) ->
  exists ts, clone_backward D n mode final None ids (backward_net ke (mk_spec false mode D n) bo n net) [o] None z = Ok ts /\
    valid D final false (in_dom D n z) n (net_dim n net o) (v o) ts.
Proof. exact net_clone_crown_free. Qed.
Print Assumptions C65_crown_free.

(** crown-forward-ibp, -affine, -hybrid *)
Theorem C65_crown_forward_partial : forall ke D n mode final z ids opts bo net v o,
  0 < ke -> (0 < n)%nat -> norm_ok D -> (mode = IBP -> D = Box) -> (mode = IBP \/ exists y, in_dom D n z y) ->
  net_ok n net -> net_value net v -> layers_ok mode opts net -> blayers_ok bo net -> single_output net o ->
  length ids = length net -> NoDup ids ->
  (forall its i L ps vs, get_input_tensors (Some D) mode n z = Ok its -> nth_error net i = Some (Some L, ps) ->
     evaluates (firstn i (decomon_net ke (mk_spec false mode D n) opts net)) no_map its vs ->
     nl_gaps ke (mk_spec false mode D n) (opts i) L (concat (map vs ps))) ->
  (forall its om i L ps imap ts, get_input_tensors (Some D) mode n z = Ok its -> nth_error net i = Some (Some L, ps) ->
     let g := backward_net ke (mk_spec false mode D n) bo n net in
     convert_nodes (decomon_net ke (mk_spec false mode D n) opts net) no_map its = Ok om ->
     get_input_nodes mode D n its om g (firstn i g) [] = Ok imap -> node_inputs mode D n its om g imap ps = Ok ts ->
     bl_gaps ke (mk_spec false mode D n) L ts) ->
  exists ts, clone_backward D n mode final (Some (decomon_net ke (mk_spec false mode D n) opts net)) ids (backward_net ke (mk_spec false mode D n) bo n net) [o] None z = Ok ts /\
    valid D final false (in_dom D n z) n (net_dim n net o) (v o) ts.
Proof. exact net_clone_crown_forward. Qed.
Print Assumptions C65_crown_forward_partial.

Theorem C65_refuted : forall ke, 0 < ke -> exists u l y,
  clone_backward Box 1 IBP IBP None [0%nat; 1%nat] (backward_net ke (mk_spec false IBP Box 1) (fun _ => mk_bopts V_SLOPE None) 1 relu_net) [1%nat] None (small_box ke) = Ok [u; l] /\
  in_dom Box 1 (small_box ke) y /\ u 0%nat 0%nat < relu_value 1 y 0%nat.
Proof. exact relu_net_crown_wrong. Qed.
Print Assumptions C65_refuted.

Example C65_example : forall ke, 0 < ke <= 1 -> exists u l,
  clone_backward Box 1 IBP IBP None [0%nat; 1%nat; 2%nat; 3%nat] (backward_net ke (mk_spec false IBP Box 1) (fun _ => mk_bopts V_SLOPE None) 1 chain_net) [3%nat] None unit_box = Ok [u; l] /\
  forall y, -1 <= y 0%nat <= 1 -> l 0%nat 0%nat <= 3 * Rmax (2 * y 0%nat) 0 <= u 0%nat 0%nat.
Proof. exact chain_crown. Qed.

(** C66, crown: the weights are those of the network, the constant bounds its extrema over the domain *)
Theorem C66_crown : forall ke D n mode final z ids bo net v o,
  0 < ke -> (0 < n)%nat -> norm_ok D -> (mode = IBP -> D = Box) -> dom_nonempty D n z -> (mode = IBP -> final = IBP) ->
  net_ok n net -> net_value net v -> blayers_ok bo net -> single_output net o -> length ids = length net -> NoDup ids ->
  (forall i L ps, nth_error net i = Some (Some L, ps) -> bl_free L) ->
  exists ts, clone_backward D n mode final None ids (backward_net ke (mk_spec false mode D n) bo n net) [o] None z = Ok ts /\
    exact_result D n (net_dim n net o) z final (v o) ts.
Proof. exact net_crown_exact. Qed.
Print Assumptions C66_crown.

(** forward-affine and forward-hybrid, merges included *)
Theorem C66_forward : forall ke D n mode final z opts net v o,
  0 < ke -> (0 < n)%nat -> norm_ok D -> mode <> IBP -> dom_nonempty D n z ->
  net_ok n net -> net_value net v -> layers_ok mode opts net -> single_output net o ->
  (forall i L ps, nth_error net i = Some (Some L, ps) -> nl_affine L) ->
  exists ts, clone_forward D n mode final (decomon_net ke (mk_spec false mode D n) opts net) [o] z = Ok ts /\
    exact_on D n (net_dim n net o) z final (v o) ts.
Proof. exact net_forward_exact. Qed.
Print Assumptions C66_forward.

(** forward-ibp: x - x is bounded by 2 over [-1, 1] *)
Theorem C66_ibp_refuted : forall ke opts, (forall i, plain (opts i)) -> exists u l,
  clone_forward Box 1 IBP IBP (decomon_net ke (mk_spec false IBP Box 1) opts zero_net) [1%nat] unit_box = Ok [u; l] /\
  (forall y j, zero_value 1 y j = 0) /\ u 0%nat 0%nat = 2 /\ l 0%nat 0%nat = -2.
Proof. exact interval_loses. Qed.
Print Assumptions C66_ibp_refuted.

Example C66_example_crown : forall ke D n mode final k1 k2 z, 0 < ke -> (0 < n)%nat -> norm_ok D -> (mode = IBP -> D = Box /\ final = IBP) -> dom_nonempty D n z ->
  exists ts, clone_backward D n mode final None [0%nat; 1%nat; 2%nat] (backward_net ke (mk_spec false mode D n) (fun _ => mk_bopts V_SLOPE None) n (dd_net n k1 k2)) [2%nat] None z = Ok ts /\
    exact_result D n (1 * n) z final (net_fn (dd_net n k1 k2) 2) ts.
Proof. exact dd_crown_exact. Qed.

Example C66_example_forward : forall ke D n mode final opts kernel bias z, 0 < ke -> (0 < n)%nat -> norm_ok D -> mode <> IBP -> dom_nonempty D n z -> (forall i, plain (opts i)) ->
  exists ts, clone_forward D n mode final (decomon_net ke (mk_spec false mode D n) opts (lin_net n kernel bias)) [2%nat] z = Ok ts /\
    exact_on D n n z final (fun y j => keras_dense n n kernel (opt_vec 0 bias) y j + y j) ts.
Proof. exact lin_exact. Qed.

Example C66_example_zero : forall ke opts, 0 < ke -> (forall i, plain (opts i)) -> exists u l,
  clone_forward Box 1 AFFINE IBP (decomon_net ke (mk_spec false AFFINE Box 1) opts zero_net) [1%nat] unit_box = Ok [u; l] /\ u 0%nat 0%nat = 0 /\ l 0%nat 0%nat = 0.
Proof. exact affine_keeps. Qed.

