(** Theorems C74 for networks with BatchNormalization, Maximum, Minimum and Multiply as well. *)
From Coq Require Import Reals List Arith Bool ZArith Permutation.
From Verif Require Import RLib Spec Spec_Layers Spec_Backward Spec_Convert Spec_Near Spec_Rounding Spec_Float Spec_FloatMerge Spec_FloatNet M_Core M_Utils M_MergeLayers M_Ops M_Layers M_Convert M_Network M_Rounding M_Float M_FloatMerge M_FloatNet P_Network P_NetworkForward P_RoundingThm P_FloatThm P_FloatNet.
From Verif Require Import Spec_Network.
Import ListNotations.
Local Open Scope R_scope.

(** one neuron of BatchNormalization in interval mode: distance to the exact result *)
Theorem C74_normalisation : forall u eta B g be mean var eps a b y, 0 <= u <= / 100 -> 0 <= eta -> Rabs (a - mean) <= B -> Rabs (b - mean) <= B ->
  0 < var + eps -> eta <= u * (var + eps) -> 2 * eta <= u * sqrt (var + eps) -> fl_bn (rounded u eta) g be mean var eps a b y ->
  Rabs (y - (Rmax 0 g * ((a - mean) / sqrt (var + eps)) + Rmin 0 g * ((b - mean) / sqrt (var + eps)) + be)) <= bn_error u eta B (Rabs g) (sqrt (var + eps)) (Rabs be).
Proof. exact bn_near_exact. Qed.
Print Assumptions C74_normalisation.

(** forward-ibp in binary32 with BatchNormalization, Maximum and Minimum as well: bounds up to an explicit margin. Missing: Multiply, Dot, curved activations; overflow *)
Theorem C74_network_bounds_partial : forall k N ke n opts net v o z tr r A E,
  0 <= A -> (0 < n)%nat -> net_ok n net -> net_value net v -> layers_ok IBP opts net -> (o < length net)%nat ->
  (forall i L ps, nth_error net i = Some (Some L, ps) -> float_layer_linear L) ->
  merges_within (Nat.min k N) net -> float_run_all op32 (any_order op32 k N) ke n opts net o z tr r -> errors_within u32 eta32 k N A E net tr r ->
  exists U L, r_out r = [U; L] /\ forall y j, in_dom Box n z y -> (j < net_dim n net o)%nat ->
    L 0%nat j - (net_error net + 1) * E <= v o y j <= U 0%nat j + (net_error net + 1) * E.
Proof. exact all32_bounds. Qed.
Print Assumptions C74_network_bounds_partial.

(** any arithmetic with relative error u and absolute error eta *)
Theorem C74_network_any_arithmetic_partial : forall u eta k N ke n opts net v o z tr r A E,
  0 <= u <= / 100 -> 0 <= eta -> 0 <= A -> (0 < n)%nat -> net_ok n net -> net_value net v -> layers_ok IBP opts net -> (o < length net)%nat ->
  (forall i L ps, nth_error net i = Some (Some L, ps) -> float_layer_linear L) ->
  merges_within (Nat.min k N) net -> float_run_all (rounded u eta) (any_order (rounded u eta) k N) ke n opts net o z tr r -> errors_within u eta k N A E net tr r ->
  exists U L, r_out r = [U; L] /\ forall y j, in_dom Box n z y -> (j < net_dim n net o)%nat ->
    L 0%nat j - (net_error net + 1) * E <= v o y j <= U 0%nat j + (net_error net + 1) * E.
Proof. exact all_bounds. Qed.
Print Assumptions C74_network_any_arithmetic_partial.

(** and for the predictions of a Keras model whose layers have error at most E', whatever its implementation *)
Theorem C74_network_predictions_partial : forall k N ke n opts net v o z tr r A E E' y a,
  0 <= A -> 0 <= E' -> (0 < n)%nat -> net_ok n net -> net_value net v -> layers_ok IBP opts net -> (o < length net)%nat ->
  (forall i L ps, nth_error net i = Some (Some L, ps) -> float_layer_linear L) ->
  merges_within (Nat.min k N) net -> float_run_all op32 (any_order op32 k N) ke n opts net o z tr r -> errors_within u32 eta32 k N A E net tr r ->
  in_dom Box n z y -> rounded_values net E' y a ->
  exists U L, r_out r = [U; L] /\ forall j, (j < net_dim n net o)%nat ->
    L 0%nat j - (net_error net + 1) * (E + E') <= a o j <= U 0%nat j + (net_error net + 1) * (E + E').
Proof. exact all32_predictions. Qed.
Print Assumptions C74_network_predictions_partial.

(** the lower bound is at most the upper bound, without margin, with BatchNormalization, Maximum, Minimum and Multiply as well. Missing: Dot, curved activations; overflow *)
Theorem C74_network_ordered_partial : forall T ke n opts net o z tr r,
  (forall d, Permutation (leaves (T d)) (seq 0 d)) ->
  0 < ke -> (0 < n)%nat -> net_ok n net -> layers_ok IBP opts net -> (o < length net)%nat ->
  (forall i L ps, nth_error net i = Some (Some L, ps) -> float_layer_all L) -> deviations_positive net ->
  (forall j, (j < n)%nat -> z 0%nat j <= z 1%nat j) ->
  float_run_all op32 (one_order op32 T) ke n opts net o z tr r ->
  exists U L, r_out r = [U; L] /\ forall j, (j < net_dim n net o)%nat -> L 0%nat j <= U 0%nat j.
Proof. exact all32_ordered. Qed.
Print Assumptions C74_network_ordered_partial.

(** max(- x, x) on [0, 1], where - x is computed by BatchNormalization with gamma = -2, variance 3, epsilon 1: bounds -1 and 2, each layer has error at most 1/1000 *)
Example C74_example_network : forall ke, 0 < ke -> exists U L,
  float_run_all op32 (any_order op32 0 0) ke 1 cancel_opts abs_net 2 unit_box abs_tr abs_run /\ errors_within u32 eta32 0 0 2 (/ 1000) abs_net abs_tr abs_run /\ deviations_positive abs_net /\
  r_out abs_run = [U; L] /\ U 0%nat 0%nat = 2 /\ L 0%nat 0%nat = -1 /\
  (forall y, in_dom Box 1 unit_box y -> -1 - (net_error abs_net + 1) * / 1000 <= abs_value 2 y 0%nat <= 2 + (net_error abs_net + 1) * / 1000) /\
  (forall y, abs_value 2 y 0%nat = Rmax (- y 0%nat) (y 0%nat)).
Proof. exact abs_example. Qed.
