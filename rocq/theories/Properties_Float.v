(** Theorems C74: forward-ibp in floating-point arithmetic. *)
From Coq Require Import Reals List Arith Bool ZArith Permutation.
From Flocq Require Import Core.
From Verif Require Import RLib Spec Spec_Layers Spec_Backward Spec_Convert Spec_Near Spec_Rounding Spec_Float M_Core M_Utils M_MergeLayers M_Ops M_Layers M_Pool M_Backward M_Crown M_Convert M_Network M_Rounding M_Float.
From Verif Require Import P_Core P_Graph P_Crown P_Convert P_Network P_NetworkSpec P_NetworkCrown P_NetworkThm P_Near P_NearThm P_Rounding P_Lipschitz P_RoundingThm P_Float P_Float32 P_FloatThm.
From Verif Require Import Spec_Network.
Import ListNotations.
Local Open Scope R_scope.

(** an inner product in any order, with or without fused operations *)
Theorem C74_inner_product : forall u eta d k N x w y, 0 <= u -> 0 <= eta -> dot_computed (rounded u eta) d k N x w y ->
  Rabs (y - rsum d (fun c => x c * w c)) <= gam u k * rsum d (fun c => Rabs (x c * w c)) + INR N * (1 + u) ^ k * eta.
Proof. exact dot_computed_error. Qed.
Print Assumptions C74_inner_product.

(** the operations of binary32 *)
Theorem C74_binary32 : forall x y, op32 x y -> rounded u32 eta32 x y.
Proof. exact op32_rounded. Qed.
Print Assumptions C74_binary32.

(** the error of a layer is at most linear in the number of operations on a path *)
Theorem C74_layer_error : forall u eta k N A, 0 <= u -> 0 <= eta -> 0 <= A -> INR (k + 2) * u <= 1 / 2 ->
  float_error u eta k N A <= 2 * INR (k + 2) * u * A + 4 * INR (N + 1) * eta.
Proof. exact float_error_linear. Qed.
Print Assumptions C74_layer_error.

(** forward-ibp in binary32, inner products in any order: bounds up to an explicit margin. Missing: BatchNormalization, Maximum, Minimum, Multiply, Dot, curved activations; overflow *)
Theorem C74_bounds_partial : forall k N ke n opts net v o z r A,
  0 <= A -> (0 < n)%nat -> net_ok n net -> net_value net v -> layers_ok IBP opts net -> (o < length net)%nat ->
  (forall i L ps, nth_error net i = Some (Some L, ps) -> float_layer L) ->
  merges_within (Nat.min k N) net -> float_run op32 (any_order op32 k N) ke n opts net o z r -> run_size A net r ->
  exists U L, r_out r = [U; L] /\ forall y j, in_dom Box n z y -> (j < net_dim n net o)%nat ->
    L 0%nat j - (net_error net + 1) * float_error u32 eta32 k N A <= v o y j <= U 0%nat j + (net_error net + 1) * float_error u32 eta32 k N A.
Proof. exact float32_bounds. Qed.
Print Assumptions C74_bounds_partial.

(** and for the predictions of the network in binary32 *)
Theorem C74_predictions_partial : forall k N ke n opts net v o z r A A' y a,
  0 <= A -> 0 <= A' -> (0 < n)%nat -> net_ok n net -> net_value net v -> layers_ok IBP opts net -> (o < length net)%nat ->
  (forall i L ps, nth_error net i = Some (Some L, ps) -> float_layer L) ->
  merges_within (Nat.min k N) net -> float_run op32 (any_order op32 k N) ke n opts net o z r -> run_size A net r -> in_dom Box n z y ->
  float_values op32 (any_order op32 k N) net y a -> values_size A' net a ->
  exists U L, r_out r = [U; L] /\ forall j, (j < net_dim n net o)%nat ->
    L 0%nat j - (net_error net + 1) * (float_error u32 eta32 k N A + float_error u32 eta32 k N A') <= a o j <= U 0%nat j + (net_error net + 1) * (float_error u32 eta32 k N A + float_error u32 eta32 k N A').
Proof. exact float32_predictions. Qed.
Print Assumptions C74_predictions_partial.

(** any arithmetic with relative error u and absolute error eta *)
Theorem C74_any_arithmetic_partial : forall u eta k N ke n opts net v o z r A,
  0 <= u -> 0 <= eta -> 0 <= A -> (0 < n)%nat -> net_ok n net -> net_value net v -> layers_ok IBP opts net -> (o < length net)%nat ->
  (forall i L ps, nth_error net i = Some (Some L, ps) -> float_layer L) ->
  merges_within (Nat.min k N) net -> float_run (rounded u eta) (any_order (rounded u eta) k N) ke n opts net o z r -> run_size A net r ->
  exists U L, r_out r = [U; L] /\ forall y j, in_dom Box n z y -> (j < net_dim n net o)%nat ->
    L 0%nat j - (net_error net + 1) * float_error u eta k N A <= v o y j <= U 0%nat j + (net_error net + 1) * float_error u eta k N A.
Proof. exact float_bounds. Qed.
Print Assumptions C74_any_arithmetic_partial.

(** the lower bound is at most the upper bound, without margin, when the backend adds in one order for each length *)
Theorem C74_ordered_partial : forall T ke n opts net o z r,
  (forall d, Permutation (leaves (T d)) (seq 0 d)) ->
  0 < ke -> (0 < n)%nat -> net_ok n net -> layers_ok IBP opts net -> (o < length net)%nat ->
  (forall i L ps, nth_error net i = Some (Some L, ps) -> float_layer L) ->
  (forall j, (j < n)%nat -> z 0%nat j <= z 1%nat j) ->
  float_run op32 (one_order op32 T) ke n opts net o z r ->
  exists U L, r_out r = [U; L] /\ forall j, (j < net_dim n net o)%nat -> L 0%nat j <= U 0%nat j.
Proof. exact float32_ordered. Qed.
Print Assumptions C74_ordered_partial.

(** no margin is needed when the weights of each neuron have one sign *)
Theorem C74_one_sign_partial : forall T ke n opts net o z r y a,
  (forall d, Permutation (leaves (T d)) (seq 0 d)) ->
  0 < ke -> (0 < n)%nat -> net_ok n net -> layers_ok IBP opts net -> (o < length net)%nat ->
  (forall i L ps, nth_error net i = Some (Some L, ps) -> float_layer L) -> one_sign net ->
  float_run op32 (one_order op32 T) ke n opts net o z r -> in_dom Box n z y -> float_values op32 (one_order op32 T) net y a ->
  exists U L, r_out r = [U; L] /\ forall j, (j < net_dim n net o)%nat -> L 0%nat j <= a o j <= U 0%nat j.
Proof. exact float32_one_sign. Qed.
Print Assumptions C74_one_sign_partial.

(** without a margin: the upper bound in binary32 is below the value of the network and below its prediction in binary32, at an input of binary32 numbers, adding from left to right *)
Theorem C74_margin_refuted : forall ke, exists net v o z r U L a y,
  net_ok 3 net /\ net_value net v /\ single_output net o /\ layers_ok IBP cancel_opts net /\ (forall i L ps, nth_error net i = Some (Some L, ps) -> float_layer L) /\
  (forall k j, rnd32 (z k j) = z k j) /\
  float_run op32 (one_order op32 left_right) ke 3 cancel_opts net o z r /\ r_out r = [U; L] /\
  in_dom Box 3 z y /\ float_values op32 (one_order op32 left_right) net y a /\ U 0%nat 0%nat < v o y 0%nat /\ U 0%nat 0%nat < a o 0%nat.
Proof. exact float32_margin_needed. Qed.
Print Assumptions C74_margin_refuted.

Example C74_example_margin : forall ke, exists U L, r_out cancel_run = [U; L] /\
  (forall y, in_dom Box 3 cancel_box y -> L 0%nat 0%nat - (net_error cancel_net + 1) * float_error u32 eta32 3 5 3 <= y 0%nat - y 1%nat + y 2%nat <= U 0%nat 0%nat + (net_error cancel_net + 1) * float_error u32 eta32 3 5 3) /\
  net_error cancel_net = 6 /\ float_error u32 eta32 3 5 3 <= 30 * u32 + 24 * eta32 /\ float_run op32 (any_order op32 3 5) ke 3 cancel_opts cancel_net 1 cancel_box cancel_run.
Proof. exact cancel_margin. Qed.

Example C74_example_sign : forall ke, 0 < ke -> exists r a U L,
  one_sign (scale_net 2) /\ float_run op32 (one_order op32 left_right) ke 1 cancel_opts (scale_net 2) 1 unit_box r /\
  float_values op32 (one_order op32 left_right) (scale_net 2) (fun _ => / 2) a /\ in_dom Box 1 unit_box (fun _ => / 2) /\
  r_out r = [U; L] /\ U 0%nat 0%nat = 2 /\ L 0%nat 0%nat = 0 /\ a 1%nat 0%nat = 1 /\ L 0%nat 0%nat <= a 1%nat 0%nat <= U 0%nat 0%nat.
Proof. exact sign_example. Qed.


(** a convolution and a residual connection *)
Example C74_example_residual : forall ke, 0 < ke -> exists r a U L,
  one_sign res_net /\ float_run op32 (one_order op32 left_right) ke 1 cancel_opts res_net 2 unit_box r /\
  float_values op32 (one_order op32 left_right) res_net (fun _ => 1) a /\ in_dom Box 1 unit_box (fun _ => 1) /\
  r_out r = [U; L] /\ U 0%nat 0%nat = 3 /\ L 0%nat 0%nat = 0 /\ a 2%nat 0%nat = 3 /\ L 0%nat 0%nat <= a 2%nat 0%nat <= U 0%nat 0%nat /\
  float_run op32 (any_order op32 2 2) ke 1 cancel_opts res_net 2 unit_box r /\ run_size 3 res_net r /\
  (forall y, in_dom Box 1 unit_box y -> L 0%nat 0%nat - (net_error res_net + 1) * float_error u32 eta32 2 2 3 <= 2 * y 0%nat + y 0%nat <= U 0%nat 0%nat + (net_error res_net + 1) * float_error u32 eta32 2 2 3).
Proof. exact residual_example. Qed.
