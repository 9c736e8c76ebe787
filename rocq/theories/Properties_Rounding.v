(** Theorems C73: bounds computed in finite precision. *)
From Coq Require Import Reals List Arith Bool ZArith.
From Verif Require Import RLib Spec Spec_Layers Spec_Backward Spec_Convert Spec_Near Spec_Rounding M_Core M_Utils M_MergeLayers M_Ops M_Layers M_Pool M_Backward M_Crown M_Convert M_Network M_Rounding.
From Verif Require Import P_Core P_Graph P_Crown P_Convert P_Network P_NetworkSpec P_NetworkCrown P_NetworkThm P_Near P_NearThm P_Rounding P_Lipschitz P_RoundingThm.
From Verif Require Import Spec_Network.
Import ListNotations.
Local Open Scope R_scope.

(** every run of a forward method where each call is within d of its value on real numbers: the outputs are bounds up to an explicit margin. Missing: layers of C46 other than the piecewise ones. The crown methods are in Properties_RoundingCrown *)
Theorem C73_forward_partial : forall ke D n mode final z opts net v o d X r,
  0 < ke -> (0 < n)%nat -> norm_ok D -> (mode = IBP -> final = IBP) ->
  net_ok n net -> net_value net v -> layers_ok mode opts net -> (o < length net)%nat ->
  (forall i L ps, nth_error net i = Some (Some L, ps) -> nl_piecewise L) ->
  0 <= d -> 0 <= X -> (mode <> IBP -> domain_within (in_dom D n z) n X) -> rounded_run ke D n mode final opts net o z d r ->
  near D final (in_dom D n z) n (net_dim n net o) ((net_error net + 1) * (ke + d * reach mode n X)) (v o) (r_out r).
Proof. exact rounded_near. Qed.
Print Assumptions C73_forward_partial.

(** constant bounds *)
Theorem C73_constants_partial : forall ke D n mode z opts net v o d X r,
  0 < ke -> (0 < n)%nat -> norm_ok D -> net_ok n net -> net_value net v -> layers_ok mode opts net -> (o < length net)%nat ->
  (forall i L ps, nth_error net i = Some (Some L, ps) -> nl_piecewise L) ->
  0 <= d -> 0 <= X -> (mode <> IBP -> domain_within (in_dom D n z) n X) -> rounded_run ke D n mode IBP opts net o z d r ->
  exists u l, r_out r = [u; l] /\ forall y j, in_dom D n z y -> (j < net_dim n net o)%nat ->
    l 0%nat j - (net_error net + 1) * (ke + d * reach mode n X) <= v o y j <= u 0%nat j + (net_error net + 1) * (ke + d * reach mode n X).
Proof. exact rounded_constants. Qed.
Print Assumptions C73_constants_partial.

(** interval mode: no epsilon in the margin *)
Theorem C73_interval_partial : forall ke D n z opts net v o d r,
  (0 < n)%nat -> norm_ok D -> net_ok n net -> net_value net v -> layers_ok IBP opts net -> (o < length net)%nat ->
  (forall i L ps, nth_error net i = Some (Some L, ps) -> nl_piecewise L) ->
  0 <= d -> rounded_run ke D n IBP IBP opts net o z d r ->
  exists u l, r_out r = [u; l] /\ forall y j, in_dom D n z y -> (j < net_dim n net o)%nat ->
    l 0%nat j - (net_error net + 1) * d <= v o y j <= u 0%nat j + (net_error net + 1) * d.
Proof. exact rounded_ibp. Qed.
Print Assumptions C73_interval_partial.

(** the network computed in finite precision is near the network *)
Theorem C73_values : forall n mode opts net v y a d, net_ok n net -> net_value net v -> layers_ok mode opts net ->
  (forall i L ps, nth_error net i = Some (Some L, ps) -> nl_piecewise L) -> 0 <= d -> rounded_values net d y a ->
  forall i, (i < length net)%nat -> vclose (net_dim n net i) (net_slack (firstn (Datatypes.S i) net) * d) (a i) (v i y).
Proof. exact rounded_values_near. Qed.
Print Assumptions C73_values.

(** both in finite precision: the bounds and the predictions *)
Theorem C73_network_partial : forall ke D n mode z opts net v o d d' X r y a,
  0 < ke -> (0 < n)%nat -> norm_ok D -> net_ok n net -> net_value net v -> layers_ok mode opts net -> (o < length net)%nat ->
  (forall i L ps, nth_error net i = Some (Some L, ps) -> nl_piecewise L) ->
  0 <= d -> 0 <= d' -> 0 <= X -> (mode <> IBP -> domain_within (in_dom D n z) n X) -> rounded_run ke D n mode IBP opts net o z d r ->
  in_dom D n z y -> rounded_values net d' y a ->
  exists u l, r_out r = [u; l] /\ forall j, (j < net_dim n net o)%nat ->
    l 0%nat j - (net_error net + 1) * (ke + d * reach mode n X + d') <= a o j <= u 0%nat j + (net_error net + 1) * (ke + d * reach mode n X + d').
Proof. exact rounded_network. Qed.
Print Assumptions C73_network_partial.

(** a class whose lower bound is above the upper bound of another by twice the margin is preferred on the whole domain, by the network and by its computation in finite precision *)
Theorem C73_decision_partial : forall ke D n mode z opts net v o d d' X r u l j k,
  0 < ke -> (0 < n)%nat -> norm_ok D -> net_ok n net -> net_value net v -> layers_ok mode opts net -> (o < length net)%nat ->
  (forall i L ps, nth_error net i = Some (Some L, ps) -> nl_piecewise L) ->
  0 <= d -> 0 <= d' -> 0 <= X -> (mode <> IBP -> domain_within (in_dom D n z) n X) -> rounded_run ke D n mode IBP opts net o z d r ->
  r_out r = [u; l] -> (j < net_dim n net o)%nat -> (k < net_dim n net o)%nat ->
  2 * ((net_error net + 1) * (ke + d * reach mode n X + d')) < l 0%nat j - u 0%nat k ->
  forall y, in_dom D n z y -> v o y k < v o y j /\ forall a, rounded_values net d' y a -> a o k < a o j.
Proof. exact rounded_decision. Qed.
Print Assumptions C73_decision_partial.

(** no multiple of d independent of the weights is enough *)
Theorem C73_factor_refuted : forall ke d K, 0 < d -> exists net v o r u l y,
  net_ok 1 net /\ net_value net v /\ single_output net o /\ layers_ok IBP (fun _ => mk_opts V_SLOPE None false) net /\
  (forall i L ps, nth_error net i = Some (Some L, ps) -> nl_piecewise L) /\
  rounded_run ke Box 1 IBP IBP (fun _ => mk_opts V_SLOPE None false) net o unit_box d r /\ r_out r = [u; l] /\
  in_dom Box 1 unit_box y /\ u 0%nat 0%nat + K * d < v o y 0%nat.
Proof. exact rounding_factor. Qed.
Print Assumptions C73_factor_refuted.

(** the calls on real numbers are a run, for every d *)
Example C73_example_run : forall ke D n mode final z opts net v o d,
  0 < ke -> (0 < n)%nat -> norm_ok D -> (mode = IBP -> final = IBP) ->
  net_ok n net -> net_value net v -> layers_ok mode opts net -> single_output net o ->
  (forall i L ps, nth_error net i = Some (Some L, ps) -> nl_piecewise L) -> 0 <= d ->
  exists r, clone_forward D n mode final (decomon_net ke (mk_spec false mode D n) opts net) [o] z = Ok (r_out r) /\
    rounded_run ke D n mode final opts net o z d r.
Proof. exact exact_run. Qed.

Example C73_example_image : forall ke mode opts kernel bias gamma mean dense z d,
  0 < ke -> 0 <= d -> (forall i, plain (opts i)) -> (forall i, (i < 9)%nat -> -1 <= z 0%nat i <= 1 /\ -1 <= z 1%nat i <= 1) ->
  let net := image_net kernel bias gamma mean dense in
  exists v, net_value net v /\ (exists r, rounded_run ke Box 9 mode IBP opts net 8 z d r) /\
    forall r, rounded_run ke Box 9 mode IBP opts net 8 z d r ->
    exists u l, r_out r = [u; l] /\ forall y j, in_dom Box 9 z y -> (j < net_dim 9 net 8)%nat ->
      l 0%nat j - (net_error net + 1) * (ke + d * reach mode 9 1) <= v 8%nat y j <= u 0%nat j + (net_error net + 1) * (ke + d * reach mode 9 1).
Proof. exact image_rounded. Qed.

