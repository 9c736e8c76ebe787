(** Theorems C73 for the crown methods: bounds computed in finite precision. *)
From Coq Require Import Reals List Arith Bool ZArith.
From Verif Require Import RLib Spec Spec_Layers Spec_Backward Spec_Convert Spec_Near Spec_Rounding Spec_RoundingCrown M_Core M_Utils M_MergeLayers M_Ops M_Layers M_Pool M_Backward M_Crown M_Convert M_Network M_Rounding M_RoundingCrown M_Clone.
From Verif Require Import P_Core P_Graph P_Crown P_Convert P_Network P_NetworkSpec P_NetworkCrown P_NetworkThm P_Near P_NearThm P_NearCrown P_Rounding P_Lipschitz P_RoundingThm P_RoundingCrown P_CloneNear P_CloneNearThm P_RoundingCrownThm.
From Verif Require Import Spec_Network.
Import ListNotations.
Local Open Scope R_scope.

(** every run of crown or crown-forward-xxx where each call is within d of its value on real numbers: the outputs are bounds up to an explicit margin. W: largest number of neurons of a node, Y: bound on the values of the nodes on the domain. Missing: curved activations *)
Theorem C73_crown_partial : forall ke D n mode final z opts bo net v o d W Y r,
  0 < ke -> (0 < n)%nat -> norm_ok D -> (mode = IBP -> D = Box) ->
  net_ok n net -> net_value net v -> blayers_ok bo net -> (c_fwd r <> None -> layers_ok mode opts net) -> (o < length net)%nat ->
  (forall i L ps, nth_error net i = Some (Some L, ps) -> nl_piecewise L) ->
  0 <= d -> 0 <= Y -> nodes_within (in_dom D n z) n net v W Y -> rounded_crown ke D n mode final opts bo net o z d r ->
  near D final (in_dom D n z) n (net_dim n net o) (crown_error (INR W * d) net * (ke + d * (1 + INR W * Y))) (v o) (c_out r).
Proof. exact rounded_crown_near. Qed.
Print Assumptions C73_crown_partial.

(** constant bounds *)
Theorem C73_crown_constants_partial : forall ke D n mode z opts bo net v o d W Y r,
  0 < ke -> (0 < n)%nat -> norm_ok D -> (mode = IBP -> D = Box) ->
  net_ok n net -> net_value net v -> blayers_ok bo net -> (c_fwd r <> None -> layers_ok mode opts net) -> (o < length net)%nat ->
  (forall i L ps, nth_error net i = Some (Some L, ps) -> nl_piecewise L) ->
  0 <= d -> 0 <= Y -> nodes_within (in_dom D n z) n net v W Y -> rounded_crown ke D n mode IBP opts bo net o z d r ->
  exists u l, c_out r = [u; l] /\ forall y j, in_dom D n z y -> (j < net_dim n net o)%nat ->
    l 0%nat j - crown_error (INR W * d) net * (ke + d * (1 + INR W * Y)) <= v o y j <= u 0%nat j + crown_error (INR W * d) net * (ke + d * (1 + INR W * Y)).
Proof. exact crown_constants. Qed.
Print Assumptions C73_crown_constants_partial.

(** the predictions of the network also computed in finite precision *)
Theorem C73_crown_network_partial : forall ke D n mode z opts bo net v o d d' W Y r y a,
  0 < ke -> (0 < n)%nat -> norm_ok D -> (mode = IBP -> D = Box) ->
  net_ok n net -> net_value net v -> blayers_ok bo net -> (c_fwd r <> None -> layers_ok mode opts net) -> (o < length net)%nat ->
  (forall i L ps, nth_error net i = Some (Some L, ps) -> nl_piecewise L) ->
  0 <= d -> 0 <= d' -> 0 <= Y -> nodes_within (in_dom D n z) n net v W Y -> rounded_crown ke D n mode IBP opts bo net o z d r ->
  in_dom D n z y -> rounded_values net d' y a ->
  exists u l, c_out r = [u; l] /\ forall j, (j < net_dim n net o)%nat ->
    let e := crown_error (INR W * d) net * (ke + d * (1 + INR W * Y)) + net_slack net * d' in l 0%nat j - e <= a o j <= u 0%nat j + e.
Proof. exact crown_network. Qed.
Print Assumptions C73_crown_network_partial.

(** a class whose lower bound is above the upper bound of another by twice the margin is preferred on the whole domain, by the network and by its computation in finite precision *)
Theorem C73_crown_decision_partial : forall ke D n mode z opts bo net v o d d' W Y r u l j k,
  0 < ke -> (0 < n)%nat -> norm_ok D -> (mode = IBP -> D = Box) ->
  net_ok n net -> net_value net v -> blayers_ok bo net -> (c_fwd r <> None -> layers_ok mode opts net) -> (o < length net)%nat ->
  (forall i L ps, nth_error net i = Some (Some L, ps) -> nl_piecewise L) ->
  0 <= d -> 0 <= d' -> 0 <= Y -> nodes_within (in_dom D n z) n net v W Y -> rounded_crown ke D n mode IBP opts bo net o z d r ->
  c_out r = [u; l] -> (j < net_dim n net o)%nat -> (k < net_dim n net o)%nat ->
  2 * (crown_error (INR W * d) net * (ke + d * (1 + INR W * Y)) + net_slack net * d') < l 0%nat j - u 0%nat k ->
  forall y, in_dom D n z y -> v o y k < v o y j /\ forall a, rounded_values net d' y a -> a o k < a o j.
Proof. exact crown_decision. Qed.
Print Assumptions C73_crown_decision_partial.

(** a larger error allows more runs, and any output within it *)
Theorem C73_crown_more_runs : forall ke D n mode final opts bo net o z d d' r out, d <= d' -> rounded_crown ke D n mode final opts bo net o z d r ->
  (forall x, close final n (net_dim n net o) d x (c_out r) -> close final n (net_dim n net o) d' x out) ->
  rounded_crown ke D n mode final opts bo net o z d' (mk_crun (c_inputs r) (c_fwd r) (c_nodes r) (c_last r) out).
Proof. exact crown_run_mono. Qed.
Print Assumptions C73_crown_more_runs.

(** what the model of clone returns for the method crown is a run, for every d *)
Theorem C73_crown_exact : forall ke D n mode final z ids opts bo net v o d,
  0 < ke -> (0 < n)%nat -> norm_ok D -> (mode = IBP -> D = Box) ->
  net_ok n net -> net_value net v -> blayers_ok bo net -> single_output net o -> length ids = length net -> NoDup ids ->
  (forall i L ps, nth_error net i = Some (Some L, ps) -> nl_piecewise L) -> 0 <= d ->
  exists r, clone_backward D n mode final None ids (backward_net ke (mk_spec false mode D n) bo n net) [o] None z = Ok (c_out r) /\
    c_fwd r = None /\ rounded_crown ke D n mode final opts bo net o z d r.
Proof. exact exact_crown. Qed.
Print Assumptions C73_crown_exact.

(** the same for crown-forward-xxx *)
Theorem C73_crown_forward_exact : forall ke D n mode final z ids opts bo net v o d,
  0 < ke -> (0 < n)%nat -> norm_ok D -> (mode = IBP -> D = Box) ->
  net_ok n net -> net_value net v -> layers_ok mode opts net -> blayers_ok bo net -> single_output net o -> length ids = length net -> NoDup ids ->
  (forall i L ps, nth_error net i = Some (Some L, ps) -> nl_piecewise L) -> 0 <= d ->
  exists r, clone_backward D n mode final (Some (decomon_net ke (mk_spec false mode D n) opts net)) ids (backward_net ke (mk_spec false mode D n) bo n net) [o] None z = Ok (c_out r) /\
    c_fwd r <> None /\ rounded_crown ke D n mode final opts bo net o z d r.
Proof. exact exact_crown_forward. Qed.
Print Assumptions C73_crown_forward_exact.

(** the networks concerned are Lipschitz for the largest difference of two inputs *)
Theorem C73_lipschitz : forall n net v y y' e, net_ok n net -> net_value net v ->
  (forall i L ps, nth_error net i = Some (Some L, ps) -> nl_piecewise L /\ exists mode fast, nl_ok mode fast L) -> 0 <= e -> vclose n e y y' ->
  forall i, (i < length net)%nat -> vclose (net_dim n net i) (lip_of (firstn (Datatypes.S i) net) * e) (v i y) (v i y').
Proof. exact network_lipschitz. Qed.
Print Assumptions C73_lipschitz.

(** on a bounded domain W and Y exist *)
Theorem C73_nodes_within : forall n (S : vec -> Prop) net v X, net_ok n net -> net_value net v ->
  (forall i L ps, nth_error net i = Some (Some L, ps) -> nl_piecewise L /\ exists mode fast, nl_ok mode fast L) -> 0 <= X -> domain_within S n X ->
  exists W Y, 0 <= Y /\ nodes_within S n net v W Y.
Proof. exact nodes_within_exists. Qed.
Print Assumptions C73_nodes_within.

(** the statement without margin is false: for every d > 0 there is a run with an upper bound below a value of the network *)
Theorem C73_crown_refuted : forall d, 0 < d -> exists r u l y,
  rounded_crown 1 Box 1 IBP IBP plain_opts plain_bopts (scale_net 1) 1 unit_box d r /\ c_out r = [u; l] /\
  in_dom Box 1 unit_box y /\ u 0%nat 0%nat < scale_value 1 1 y 0%nat.
Proof. exact crown_no_margin. Qed.
Print Assumptions C73_crown_refuted.

(** Dense, relu, Dense: every size, every weight, every bounded box *)
Example C73_example_mlp : forall ke n h k k1 b1 k2 b2 z X d, 0 < ke -> (0 < n)%nat -> (0 < h)%nat -> (0 < k)%nat -> 0 <= X -> 0 <= d ->
  domain_within (in_dom Box n z) n X -> let net := mlp_net n h k k1 b1 k2 b2 in
  exists W Y r, 0 <= Y /\ nodes_within (in_dom Box n z) n net (net_fn net) W Y /\ rounded_crown ke Box n HYBRID IBP plain_opts plain_bopts net 3 z d r /\
    clone_backward Box n HYBRID IBP None (seq 0 4) (backward_net ke (mk_spec false HYBRID Box n) plain_bopts n net) [3%nat] None z = Ok (c_out r).
Proof. exact mlp_rounded. Qed.

(** the factor of the margin for these networks when the rows of the kernels have sum at most 1, for d = 0 *)
Example C73_example_error : forall n h k k1 b1 k2 b2, nl_gain (NDense 1 n h k1 (Some b1)) <= 1 -> nl_gain (NDense 1 h k k2 (Some b2)) <= 1 ->
  crown_error 0 (mlp_net n h k k1 b1 k2 b2) = 34.
Proof. exact mlp_error. Qed.

