(** Theorems C73 in interval mode, with the activations sigmoid, tanh, softsign and softplus. *)
From Coq Require Import Reals List Arith Bool ZArith.
From Verif Require Import RLib Spec Spec_Layers Spec_Backward Spec_Convert Spec_Near Spec_Rounding Spec_RoundingCurved M_Core M_Utils M_MergeLayers M_Ops M_Layers M_Pool M_Backward M_Crown M_Convert M_Network M_Rounding.
From Verif Require Import P_Core P_Graph P_Crown P_Convert P_Network P_NetworkSpec P_NetworkCrown P_NetworkThm P_Near P_NearThm P_Rounding P_Lipschitz P_RoundingThm P_RoundingCurved.
From Verif Require Import Spec_Network.
Import ListNotations.
Local Open Scope R_scope.

(** every run in interval mode where each call is within d of its value on real numbers: the outputs are bounds up to (E + 1) d. Missing: exponential, Multiply, Dot, whose gains depend on the values *)
Theorem C73_interval_curved_partial : forall ke D n z opts net v o d r,
  (0 < n)%nat -> norm_ok D -> net_ok n net -> net_value net v -> layers_ok IBP opts net -> (o < length net)%nat ->
  (forall i L ps, nth_error net i = Some (Some L, ps) -> nl_lipschitz L) ->
  0 <= d -> rounded_run ke D n IBP IBP opts net o z d r ->
  exists u l, r_out r = [u; l] /\ forall y j, in_dom D n z y -> (j < net_dim n net o)%nat ->
    l 0%nat j - (net_error net + 1) * d <= v o y j <= u 0%nat j + (net_error net + 1) * d.
Proof. exact rounded_ibp_curved. Qed.
Print Assumptions C73_interval_curved_partial.

(** the network computed in finite precision is near the network *)
Theorem C73_values_curved : forall n net v y a d, net_ok n net -> net_value net v ->
  (forall i L ps, nth_error net i = Some (Some L, ps) -> nl_lipschitz L /\ exists mode fast, nl_ok mode fast L) -> 0 <= d -> rounded_values net d y a ->
  forall i, (i < length net)%nat -> vclose (net_dim n net i) (net_slack (firstn (Datatypes.S i) net) * d) (a i) (v i y).
Proof. exact rounded_values_curved. Qed.
Print Assumptions C73_values_curved.

(** a class whose lower bound is above the upper bound of another by twice the margin is preferred on the whole domain, by the network and by its computation in finite precision *)
Theorem C73_interval_decision_partial : forall ke D n z opts net v o d d' r u l j k,
  (0 < n)%nat -> norm_ok D -> net_ok n net -> net_value net v -> layers_ok IBP opts net -> (o < length net)%nat ->
  (forall i L ps, nth_error net i = Some (Some L, ps) -> nl_lipschitz L) ->
  0 <= d -> 0 <= d' -> rounded_run ke D n IBP IBP opts net o z d r ->
  r_out r = [u; l] -> (j < net_dim n net o)%nat -> (k < net_dim n net o)%nat ->
  2 * (net_error net + 1) * (d + d') < l 0%nat j - u 0%nat k ->
  forall y, in_dom D n z y -> v o y k < v o y j /\ forall a, rounded_values net d' y a -> a o k < a o j.
Proof. exact interval_decision. Qed.
Print Assumptions C73_interval_decision_partial.

(** what the model of clone returns in interval mode is a run, for every d *)
Theorem C73_exact_curved : forall ke D n z opts net v o d,
  0 < ke -> (0 < n)%nat -> norm_ok D -> net_ok n net -> net_value net v -> layers_ok IBP opts net -> single_output net o ->
  (forall i L ps, nth_error net i = Some (Some L, ps) -> nl_lipschitz L) -> 0 <= d ->
  exists r, clone_forward D n IBP IBP (decomon_net ke (mk_spec false IBP D n) opts net) [o] z = Ok (r_out r) /\
    rounded_run ke D n IBP IBP opts net o z d r.
Proof. exact exact_run_curved. Qed.
Print Assumptions C73_exact_curved.

(** Dense, sigmoid, Dense, tanh: the hypotheses hold for every size and every weight *)
Example C73_example_curved : forall ke D n h k k1 b1 k2 b2 z d, 0 < ke -> (0 < n)%nat -> (0 < h)%nat -> (0 < k)%nat -> norm_ok D -> 0 <= d ->
  let net := curved_net n h k k1 b1 k2 b2 in let opts := fun _ => mk_opts V_SLOPE None false in
  net_ok n net /\ net_value net (net_fn net) /\ layers_ok IBP opts net /\ (forall i L ps, nth_error net i = Some (Some L, ps) -> nl_lipschitz L) /\
  exists r, clone_forward D n IBP IBP (decomon_net ke (mk_spec false IBP D n) opts net) [4%nat] z = Ok (r_out r) /\ rounded_run ke D n IBP IBP opts net 4 z d r.
Proof. exact curved_rounded. Qed.

