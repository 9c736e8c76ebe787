(** Theorems C64 and C65 for networks with several outputs. *)
From Coq Require Import Reals List Arith Bool ZArith.
From Verif Require Import RLib Spec Spec_Layers Spec_Backward Spec_Convert M_Core M_Utils M_Backward M_Crown M_Convert M_Network.
From Verif Require Import P_Core P_Graph P_Crown P_Convert P_Network P_NetworkSpec P_NetworkCrown P_InclusionThm P_NetworkOutputs.
From Verif Require Import Spec_Network Spec_Outputs.
Import ListNotations.
Local Open Scope R_scope.

(** some output is at the end of a longest path *)
Theorem C64_outputs_exist : forall n net outs, net_ok n net -> net <> [] -> outputs_of net outs -> exists o, first_longest net outs o.
Proof. exact first_longest_exists. Qed.
Print Assumptions C64_outputs_exist.

(** forward methods, any list of outputs: the clone returns valid bounds of the first output at the end of a longest path. Missing: the bounds of the other outputs (refuted below), the conditions nl_gaps *)
Theorem C64_outputs_partial : forall ke D n mode final z opts net v outs o,
  0 < ke -> (0 < n)%nat -> norm_ok D -> (mode = IBP -> final = IBP) -> (mode = IBP \/ exists y, in_dom D n z y) ->
  net_ok n net -> net_value net v -> layers_ok mode opts net ->
  (forall o, In o outs -> (o < length net)%nat) -> first_longest net outs o ->
  (forall its i L ps vs, get_input_tensors (Some D) mode n z = Ok its -> nth_error net i = Some (Some L, ps) ->
     evaluates (firstn i (decomon_net ke (mk_spec false mode D n) opts net)) no_map its vs ->
     nl_gaps ke (mk_spec false mode D n) (opts i) L (concat (map vs ps))) ->
  exists ts, clone_forward D n mode final (decomon_net ke (mk_spec false mode D n) opts net) outs z = Ok ts /\
    valid D final false (in_dom D n z) n (net_dim n net o) (v o) ts.
Proof. exact net_clone_outputs. Qed.
Print Assumptions C64_outputs_partial.

(** forward-ibp: the same without condition on the bounds met on the way *)
Theorem C64_outputs_ibp : forall ke D n z opts net v outs o,
  0 < ke -> (0 < n)%nat -> norm_ok D -> net_ok n net -> net_value net v -> layers_ok IBP opts net ->
  (forall o, In o outs -> (o < length net)%nat) -> first_longest net outs o ->
  exists u l, clone_forward D n IBP IBP (decomon_net ke (mk_spec false IBP D n) opts net) outs z = Ok [u; l] /\
    forall y j, in_dom D n z y -> (j < net_dim n net o)%nat -> l 0%nat j <= v o y j <= u 0%nat j.
Proof. exact net_clone_outputs_ibp. Qed.
Print Assumptions C64_outputs_ibp.

(** outputs y and 2 y over [1, 2]: two tensors, and 2 y exceeds the upper bound *)
Theorem C64_second_output_refuted : forall ke, exists u l v y,
  outputs_of two_heads [1%nat; 2%nat] /\ net_value two_heads v /\ in_dom Box 1 (seg 1 2) y /\
  clone_forward Box 1 IBP IBP (decomon_net ke (mk_spec false IBP Box 1) (plain_o true) two_heads) [1%nat; 2%nat] (seg 1 2) = Ok [u; l] /\
  u 0%nat 0%nat < v 2%nat y 0%nat.
Proof. exact second_output_lost. Qed.
Print Assumptions C64_second_output_refuted.

(** two dense layers on the same input *)
Example C64_example_outputs : forall ke D n mode final k1 k2 b1 b2 z, 0 < ke -> (0 < n)%nat -> norm_ok D -> (mode = IBP -> final = IBP) -> (exists y, in_dom D n z y) ->
  exists v ts, net_value (heads n k1 k2 b1 b2) v /\
    clone_forward D n mode final (decomon_net ke (mk_spec false mode D n) (plain_o true) (heads n k1 k2 b1 b2)) [1%nat; 2%nat] z = Ok ts /\
    valid D final false (in_dom D n z) n (1 * n) (v 1%nat) ts.
Proof. exact heads_clone. Qed.

(** crown, any list of outputs. Missing: as for C64_outputs_partial *)
Theorem C65_outputs_partial : forall ke D n mode final z ids bo net v outs o,
  0 < ke -> (0 < n)%nat -> norm_ok D -> (mode = IBP -> D = Box) ->
  net_ok n net -> net_value net v -> blayers_ok bo net ->
  (forall o, In o outs -> (o < length net)%nat) -> first_longest net outs o ->
  length ids = length net -> NoDup ids ->
  (forall its i L ps imap ts, get_input_tensors (Some D) mode n z = Ok its -> nth_error net i = Some (Some L, ps) ->
     let g := backward_net ke (mk_spec false mode D n) bo n net in
     get_input_nodes mode D n its no_map g (firstn i g) [] = Ok imap -> node_inputs mode D n its no_map g imap ps = Ok ts ->
     bl_gaps ke (mk_spec false mode D n) L ts) ->
  exists ts, clone_backward D n mode final None ids (backward_net ke (mk_spec false mode D n) bo n net) outs None z = Ok ts /\
    valid D final false (in_dom D n z) n (net_dim n net o) (v o) ts.
Proof. exact net_clone_crown_outputs. Qed.
Print Assumptions C65_outputs_partial.

(** crown-forward-xxx, any list of outputs. Missing: as for C64_outputs_partial *)
Theorem C65_outputs_forward_partial : forall ke D n mode final z ids opts bo net v outs o,
  0 < ke -> (0 < n)%nat -> norm_ok D -> (mode = IBP -> D = Box) -> (mode = IBP \/ exists y, in_dom D n z y) ->
  net_ok n net -> net_value net v -> layers_ok mode opts net -> blayers_ok bo net ->
  (forall o, In o outs -> (o < length net)%nat) -> first_longest net outs o ->
  length ids = length net -> NoDup ids ->
  (forall its i L ps vs, get_input_tensors (Some D) mode n z = Ok its -> nth_error net i = Some (Some L, ps) ->
     evaluates (firstn i (decomon_net ke (mk_spec false mode D n) opts net)) no_map its vs ->
     nl_gaps ke (mk_spec false mode D n) (opts i) L (concat (map vs ps))) ->
  (forall its om i L ps imap ts, get_input_tensors (Some D) mode n z = Ok its -> nth_error net i = Some (Some L, ps) ->
     let g := backward_net ke (mk_spec false mode D n) bo n net in
     convert_nodes (decomon_net ke (mk_spec false mode D n) opts net) no_map its = Ok om ->
     get_input_nodes mode D n its om g (firstn i g) [] = Ok imap -> node_inputs mode D n its om g imap ps = Ok ts ->
     bl_gaps ke (mk_spec false mode D n) L ts) ->
  exists ts, clone_backward D n mode final (Some (decomon_net ke (mk_spec false mode D n) opts net)) ids (backward_net ke (mk_spec false mode D n) bo n net) outs None z = Ok ts /\
    valid D final false (in_dom D n z) n (net_dim n net o) (v o) ts.
Proof. exact net_clone_crown_forward_outputs. Qed.
Print Assumptions C65_outputs_forward_partial.

Theorem C65_second_output_refuted : forall ke, exists u l v y,
  outputs_of two_heads [1%nat; 2%nat] /\ net_value two_heads v /\ in_dom Box 1 (seg 1 2) y /\
  clone_backward Box 1 IBP IBP None [0%nat; 1%nat; 2%nat] (backward_net ke (mk_spec false IBP Box 1) (fun _ => mk_bopts V_SLOPE None) 1 two_heads) [1%nat; 2%nat] None (seg 1 2) = Ok [u; l] /\
  u 0%nat 0%nat < v 2%nat y 0%nat.
Proof. exact second_output_lost_crown. Qed.
Print Assumptions C65_second_output_refuted.

Example C65_example_outputs : forall ke D n mode final k1 k2 b1 b2 z, 0 < ke -> (0 < n)%nat -> norm_ok D -> (mode = IBP -> D = Box) ->
  exists v ts, net_value (heads n k1 k2 b1 b2) v /\
    clone_backward D n mode final None [0%nat; 1%nat; 2%nat] (backward_net ke (mk_spec false mode D n) (fun _ => mk_bopts V_SLOPE None) n (heads n k1 k2 b1 b2)) [1%nat; 2%nat] None z = Ok ts /\
    valid D final false (in_dom D n z) n (1 * n) (v 1%nat) ts.
Proof. exact heads_crown. Qed.

