(** Theorems on layers called at several nodes (C39, C40, C64, C65, C80). *)
From Coq Require Import String Reals List Arith Bool ZArith.
From Verif Require Import RLib Spec Spec_Layers M_Core M_Utils M_MergeLayers M_Ops M_Layers M_Backward M_Crown M_Convert M_State Spec_State M_Weights P_Weights.
From Verif Require Import Spec_Backward Spec_Convert M_Network M_Clone M_Shared P_Graph P_Convert P_ConvertThm P_NetworkForward P_Network P_NetworkSpec P_NetworkCrown P_NetworkThm P_Clone P_WeightsThm P_Shared P_SharedThm.
From Verif Require Import Spec_Network Spec_Weights Spec_Shared.
Import ListNotations.
Local Open Scope R_scope.

(** layers may be called at several nodes: when the calls of each layer come in the order of their distance to the end and no other deepest node calls the layer of an output, the outputs are found as for distinct layers *)
Theorem C39_shared_outputs : forall A (g : fgraph A), acyclic (parents_of g) -> forall lv ht, longest_path (parents_of g) lv -> height (parents_of g) ht -> g <> [] ->
  in_order (map fn_op g) ht -> forall outs, outputs_apart (parents_of g) (map fn_op g) lv outs -> (forall o, In o outs -> (o < length g)%nat) ->
  output_nodes g outs = Ok (filter (deepestb g lv) outs).
Proof. exact outputs_shared. Qed.
Print Assumptions C39_shared_outputs.

(** without any condition on the calls: either KeyError, or the tensors of nodes that call the layer of an output, each with the value of the graph *)
Theorem C39_values_or_error : forall A (g : fgraph A) om0 its vs outs, acyclic (parents_of g) -> sources_input g -> no_outside g om0 -> evaluates g om0 its vs ->
  convert_forward g outs om0 its = Err KeyError \/
  exists l, (forall i, In i l -> (i < length g)%nat) /\ convert_forward g outs om0 its = Ok (concat (map vs l)) /\
    forall i, In i l -> exists o, In o outs /\ nth_error (map fn_op g) o = nth_error (map fn_op g) i.
Proof. exact outputs_values. Qed.
Print Assumptions C39_values_or_error.

(** a layer called at i and again at j, where the longest path to i and the longest path from j add up to more than the longest path of the graph: KeyError, whatever the outputs *)
Theorem C39_call_order_refuted : forall A (g : fgraph A), acyclic (parents_of g) -> forall lv ht, longest_path (parents_of g) lv -> height (parents_of g) ht ->
  forall i j a, (i <= j)%nat -> nth_error (map fn_op g) i = Some a -> nth_error (map fn_op g) j = Some a ->
  (forall k, (k < length g)%nat -> (lv k < lv i + ht j)%nat) -> forall outs, output_nodes g outs = Err KeyError.
Proof. exact outputs_two_depths. Qed.
Print Assumptions C39_call_order_refuted.

(** the graph of C39_two_depths_refuted is one of them *)
Example C39_call_order_example : exists lv ht, longest_path (parents_of g_two_depths) lv /\ height (parents_of g_two_depths) ht /\
  nth_error (map fn_op g_two_depths) 2 = Some 2%nat /\ nth_error (map fn_op g_two_depths) 3 = Some 2%nat /\
  forall k, (k < length g_two_depths)%nat -> (lv k < lv 2%nat + ht 3%nat)%nat.
Proof. exact two_depths_example. Qed.

(** preprocessing keeps the values, layers called at several nodes included *)
Theorem C40_shared : forall g y v lv ht outs its, acyclic (map snd g) ->
  (forall i k o ps, nth_error g i = Some (k, o, ps) -> ps = [] -> o = None) -> g <> [] -> kg_value g y v ->
  longest_path (map snd g) lv -> height (map snd g) ht -> in_order (kg_ids g) ht -> outputs_apart (map snd g) (kg_ids g) lv outs ->
  (forall o, In o outs -> (o < length g)%nat) ->
  preprocess (kg_nodes g) outs (kg_inputs g y) its = Ok (map v (filter (deepestb (kg_nodes g) lv) outs)).
Proof. exact preprocess_shared. Qed.
Print Assumptions C40_shared.

(** in such a graph, for every method, the bounds are those of the model where each call has its own layer *)
Theorem C64_shared_same : forall ids ht ke D m mode final fwd bwd n net o z ts,
  (0 < n)%nat -> net_ok n net -> single_output net o ->
  length ids = length net -> height (map snd net) ht -> in_order ids ht ->
  converted ke D m mode final fwd bwd n net o z = Ok ts -> converted_shared ids ke D m mode final fwd bwd n net o z = Ok ts.
Proof. exact converted_shared_same. Qed.
Print Assumptions C64_shared_same.

(** so they are valid, under the conditions of C64 and C65. Missing, as there: relu over short intervals (clone_gaps) *)
Theorem C64_shared_partial : forall ids ht ke D m mode final fwd bwd n net o v z,
  0 < ke -> (0 < n)%nat -> norm_ok D -> net_ok n net -> net_value net v -> single_output net o -> (mode = IBP \/ exists y, in_dom D n z y) ->
  clone_fits D m mode final fwd bwd net -> clone_gaps ke D m mode fwd bwd n net z ->
  length ids = length net -> height (map snd net) ht -> in_order ids ht ->
  exists ts, converted_shared ids ke D m mode final fwd bwd n net o z = Ok ts /\ valid D final false (in_dom D n z) n (net_dim n net o) (v o) ts.
Proof. exact shared_bounds. Qed.
Print Assumptions C64_shared_partial.

(** a sequential model may call its layers any number of times in any order. Missing: as above *)
Theorem C64_sequential_partial : forall ids ke D m mode final fwd bwd n net v z,
  0 < ke -> (0 < n)%nat -> norm_ok D -> net_ok n net -> net_value net v -> is_chain (map snd net) -> net <> [] -> (mode = IBP \/ exists y, in_dom D n z y) ->
  clone_fits D m mode final fwd bwd net -> clone_gaps ke D m mode fwd bwd n net z -> length ids = length net ->
  exists ts, converted_shared ids ke D m mode final fwd bwd n net (length net - 1) z = Ok ts /\
    valid D final false (in_dom D n z) n (net_dim n net (length net - 1)) (v (length net - 1)%nat) ts.
Proof. exact chain_bounds. Qed.
Print Assumptions C64_sequential_partial.

(** two branches ending in the same Dense layer, then Add *)
Example C64_shared_example : forall ke k1 k2 k z, 0 < ke -> exists v u l, net_value (siamese k1 k2 k) v /\
  converted_shared siamese_ids ke Box FORWARD_IBP IBP IBP (fun _ => mk_opts V_SLOPE None false) (fun _ => mk_bopts V_SLOPE None) 2 (siamese k1 k2 k) 5 z = Ok [u; l] /\
  forall y j, in_dom Box 2 z y -> (j < 2)%nat -> l 0%nat j <= v 5%nat y j <= u 0%nat j.
Proof. exact siamese_bounds. Qed.

(** the model of C80 with its layers as they are called, any method, any later values of the variables. Missing: as in C64_shared_partial *)
Theorem C80_shared_calls_partial : forall shared init ds origs news h h', all_built h ds origs -> convert_layers shared init (pairs ds origs) h = Ok (news, h') ->
  shared = true -> (forall d, In d ds -> has_batchnorm d = false) -> forall ids ht ke D m mode final fwd bwd n z st nodes v o,
  let net := net_at st ds origs nodes in
  0 < ke -> (0 < n)%nat -> norm_ok D -> net_ok n net -> net_value net v -> single_output net o -> (mode = IBP \/ exists y, in_dom D n z y) ->
  clone_fits D m mode final fwd bwd net -> clone_gaps ke D m mode fwd bwd n net z ->
  length ids = length nodes -> height (map snd nodes) ht -> in_order ids ht ->
  exists ts, converted_shared ids ke D m mode final fwd bwd n (net_at st ds news nodes) o z = Ok ts /\
    valid D final false (in_dom D n z) n (net_dim n net o) (v o) ts.
Proof. exact tied_conversion_bounds. Qed.
Print Assumptions C80_shared_calls_partial.

(** the Dense layer of C80_example called twice, as one layer *)
Example C80_shared_calls_example : forall d init ke z st, 0 < ke -> exists news h' v u l,
  convert_layers true init (pairs tied_descs tied_layers) (tied_heap d) = Ok (news, h') /\ net_value (net_at st tied_descs tied_layers tied_nodes) v /\
  converted_shared [0; 1; 2; 1; 3]%nat ke Box FORWARD_IBP IBP IBP (fun _ => mk_opts V_SLOPE None false) (fun _ => mk_bopts V_SLOPE None) 2 (net_at st tied_descs news tied_nodes) 4 z = Ok [u; l] /\
  forall y, in_dom Box 2 z y -> l 0%nat 0%nat <= v 4%nat y 0%nat <= u 0%nat 0%nat.
Proof. exact tied_shared_bounds. Qed.

