(** Theorems C76: bounds on a smaller domain, and hybrid bounds against interval bounds. *)
From Coq Require Import String Reals List Arith Bool ZArith.
From Verif Require Import RLib Spec Spec_Layers Spec_Backward Spec_Convert Spec_Near Spec_Wrapper Spec_Inclusion M_Core M_Utils M_Backward M_Crown M_Convert M_Network M_Wrapper M_Domain M_Clone.
From Verif Require Import P_Core P_Graph P_Crown P_Convert P_Network P_NetworkSpec P_NetworkCrown P_NetworkThm P_Near P_Wrapper P_Clone P_CloneThm P_Inclusion P_InclusionThm P_InclusionPool P_InclusionClone.
From Verif Require Import Spec_Network.
Import ListNotations.
Local Open Scope R_scope.

(** forward-ibp, every network of C46: the bounds on a domain are inside the bounds on a domain that contains it (boxes and balls) *)
Theorem C76_interval : forall ke D D' n z z' opts opts' net o,
  0 < ke -> (0 < n)%nat -> norm_ok D -> norm_ok D' -> dom_nonempty D n z -> (forall y, in_dom D n z y -> in_dom D' n z' y) ->
  net_ok n net -> layers_ok IBP opts net -> layers_ok IBP opts' net -> (forall i, lo_fast (opts' i) = lo_fast (opts i)) -> single_output net o ->
  exists ts ts', clone_forward D n IBP IBP (decomon_net ke (mk_spec false IBP D n) opts net) [o] z = Ok ts /\
    clone_forward D' n IBP IBP (decomon_net ke (mk_spec false IBP D' n) opts' net) [o] z' = Ok ts' /\
    inside IBP IBP (net_dim n net o) ts ts'.
Proof. exact ibp_isotone. Qed.
Print Assumptions C76_interval.

(** forward-hybrid: the constant bounds are inside those of forward-ibp. Missing: max pooling without fast (refuted below) and the conditions nl_gaps of C64 *)
Theorem C76_hybrid_partial : forall ke D D' n z z' opts opts' net o final,
  0 < ke -> (0 < n)%nat -> norm_ok D -> norm_ok D' -> dom_nonempty D n z -> (forall y, in_dom D n z y -> in_dom D' n z' y) ->
  final <> AFFINE -> net_ok n net -> layers_ok HYBRID opts net -> layers_ok IBP opts' net -> (forall i, lo_fast (opts' i) = lo_fast (opts i)) -> single_output net o ->
  (forall i L ps, nth_error net i = Some (Some L, ps) -> pooling_layer L -> lo_fast (opts i) = true) ->
  (forall its i L ps vs, get_input_tensors (Some D) HYBRID n z = Ok its -> nth_error net i = Some (Some L, ps) ->
     evaluates (firstn i (decomon_net ke (mk_spec false HYBRID D n) opts net)) no_map its vs ->
     nl_gaps ke (mk_spec false HYBRID D n) (opts i) L (concat (map vs ps))) ->
  exists ts ts', clone_forward D n HYBRID final (decomon_net ke (mk_spec false HYBRID D n) opts net) [o] z = Ok ts /\
    clone_forward D' n IBP IBP (decomon_net ke (mk_spec false IBP D' n) opts' net) [o] z' = Ok ts' /\
    inside final IBP (net_dim n net o) ts ts'.
Proof. exact hybrid_inside. Qed.
Print Assumptions C76_hybrid_partial.

(** the same for piecewise affine networks, without condition on the bounds met on the way. Missing: max pooling without fast *)
Theorem C76_piecewise_partial : forall ke D D' n z z' opts opts' net o final,
  0 < ke -> (0 < n)%nat -> norm_ok D -> norm_ok D' -> dom_nonempty D n z -> (forall y, in_dom D n z y -> in_dom D' n z' y) ->
  final <> AFFINE -> net_ok n net -> layers_ok HYBRID opts net -> layers_ok IBP opts' net -> (forall i, lo_fast (opts' i) = lo_fast (opts i)) -> single_output net o ->
  (forall i L ps, nth_error net i = Some (Some L, ps) -> nl_piecewise L /\ (pooling_layer L -> lo_fast (opts i) = true)) ->
  exists ts ts', clone_forward D n HYBRID final (decomon_net ke (mk_spec false HYBRID D n) opts net) [o] z = Ok ts /\
    clone_forward D' n IBP IBP (decomon_net ke (mk_spec false IBP D' n) opts' net) [o] z' = Ok ts' /\
    inside final IBP (net_dim n net o) ts ts'.
Proof. exact hybrid_inside_pw. Qed.
Print Assumptions C76_piecewise_partial.

(** get_range_box on a forward-ibp clone: a box inside another, of the same batch or not, has bounds inside *)
Theorem C76_range_boxes : forall ke fwd n out net o v xmin xmax xmin' xmax' bs ns bs' ns',
  net_facts ke n out net o v -> layers_ok IBP fwd net -> boxes_ok n xmin xmax -> consistent n xmin xmax -> boxes_ok n xmin' xmax' -> consistent n xmin' xmax' -> small ns -> small ns' ->
  exists c u l u' l', clone ke (ibp_args None fwd) n out net o = Ok c /\
    get_range_box (Keras c) xmin xmax bs ns = Ok (u, l) /\ get_range_box (Keras c) xmin' xmax' bs' ns' = Ok (u', l') /\
    forall b b' j, (b < alen xmin)%nat -> (b' < alen xmin')%nat -> (j < prodn out)%nat -> box_in n (the_box xmin xmax b) (the_box xmin' xmax' b') ->
      cell l' b' j <= cell l b j /\ cell u b j <= cell u' b' j.
Proof. exact ibp_range_isotone. Qed.
Print Assumptions C76_range_boxes.

(** get_range_box, one output: sub-boxes never loosen the bounds and keep them valid *)
Theorem C76_sub_boxes : forall ke fwd n net o v xmin xmax bs ns bs',
  net_facts ke n [1%nat] net o v -> layers_ok IBP fwd net -> boxes_ok n xmin xmax -> consistent n xmin xmax -> a_tail xmin = [n] -> (1 < ns)%Z ->
  exists c u l u' l', clone ke (ibp_args None fwd) n [1%nat] net o = Ok c /\
    get_range_box (Keras c) xmin xmax bs ns = Ok (u, l) /\ get_range_box (Keras c) xmin xmax bs' 1 = Ok (u', l') /\
    forall b, (b < alen xmin)%nat -> cell l' b 0 <= cell l b 0 /\ cell u b 0 <= cell u' b 0 /\
      forall y, in_sample n (the_box xmin xmax b) y -> cell l b 0 <= v o y 0%nat <= cell u b 0.
Proof. exact ibp_range_sub. Qed.
Print Assumptions C76_sub_boxes.

(** forward-affine: relu on [-1, 2] is bounded below by -1, on [-3, 2] by 0 *)
Theorem C76_affine_refuted : forall ke, 0 < ke <= 1 -> exists u l u' l',
  clone_forward Box 1 AFFINE IBP (decomon_net ke (mk_spec false AFFINE Box 1) (plain_o true) relu_net) [1%nat] (seg (-1) 2) = Ok [u; l] /\
  clone_forward Box 1 AFFINE IBP (decomon_net ke (mk_spec false AFFINE Box 1) (plain_o true) relu_net) [1%nat] (seg (-3) 2) = Ok [u'; l'] /\
  l 0%nat 0%nat = -1 /\ l' 0%nat 0%nat = 0.
Proof. exact affine_not_isotone. Qed.
Print Assumptions C76_affine_refuted.

(** forward-hybrid: the lower bound on [-1, 2] is 9, on [-3, 2] it is 10 *)
Theorem C76_hybrid_refuted : forall ke, 0 < ke <= 1 -> exists u l u' l',
  clone_forward Box 1 HYBRID IBP (decomon_net ke (mk_spec false HYBRID Box 1) (plain_o true) sum_net) [3%nat] (seg (-1) 2) = Ok [u; l] /\
  clone_forward Box 1 HYBRID IBP (decomon_net ke (mk_spec false HYBRID Box 1) (plain_o true) sum_net) [3%nat] (seg (-3) 2) = Ok [u'; l'] /\
  l 0%nat 0%nat = 9 /\ l' 0%nat 0%nat = 10.
Proof. exact hybrid_not_isotone. Qed.
Print Assumptions C76_hybrid_refuted.

(** max pooling without fast: hybrid bounds looser than interval bounds on the same box *)
Theorem C76_pooling_refuted : forall ke, 0 < ke <= 1 -> exists u l u' l',
  clone_forward Box 2 HYBRID IBP (decomon_net ke (mk_spec false HYBRID Box 2) (plain_o false) pool_net) [1%nat] pool_box = Ok [u; l] /\
  clone_forward Box 2 IBP IBP (decomon_net ke (mk_spec false IBP Box 2) (plain_o false) pool_net) [1%nat] pool_box = Ok [u'; l'] /\
  u' 0%nat 0%nat < u 0%nat 0%nat.
Proof. exact pool_not_inside. Qed.
Print Assumptions C76_pooling_refuted.

(** a convolutional network on two cubes *)
Example C76_example_image : forall ke a b kernel bias gamma mean dense opts, 0 < ke -> 0 <= a <= b -> (forall i, plain (opts i)) -> exists ts ts',
  let g := decomon_net ke (mk_spec false IBP Box 9) opts (image_net kernel bias gamma mean dense) in
  clone_forward Box 9 IBP IBP g [8%nat] (cube a) = Ok ts /\ clone_forward Box 9 IBP IBP g [8%nat] (cube b) = Ok ts' /\ inside IBP IBP 3 ts ts'.
Proof. exact image_inside. Qed.

(** a ball of the maximum norm in a box *)
Example C76_example_ball : forall ke eps kernel bias gamma mean dense opts, 0 < ke -> 0 <= eps -> (forall i, plain (opts i)) -> exists ts ts',
  clone_forward (Ball eps Pinf) 9 IBP IBP (decomon_net ke (mk_spec false IBP (Ball eps Pinf) 9) opts (image_net kernel bias gamma mean dense)) [8%nat] (fun _ _ => 0) = Ok ts /\
  clone_forward Box 9 IBP IBP (decomon_net ke (mk_spec false IBP Box 9) opts (image_net kernel bias gamma mean dense)) [8%nat] (cube eps) = Ok ts' /\ inside IBP IBP 3 ts ts'.
Proof. exact ball_in_box. Qed.

Example C76_example_hybrid : forall ke a b final, 0 < ke -> a <= b -> final <> AFFINE -> exists ts ts',
  clone_forward Box 1 HYBRID final (decomon_net ke (mk_spec false HYBRID Box 1) (plain_o true) sum_net) [3%nat] (seg a b) = Ok ts /\
  clone_forward Box 1 IBP IBP (decomon_net ke (mk_spec false IBP Box 1) (plain_o true) sum_net) [3%nat] (seg a b) = Ok ts' /\ inside final IBP 1 ts ts'.
Proof. exact sum_inside. Qed.

