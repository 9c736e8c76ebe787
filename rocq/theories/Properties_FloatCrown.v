(** Theorems C86: the methods crown and crown-forward-ibp in interval mode on a box, in floating-point arithmetic. *)
From Coq Require Import Reals List Arith Bool ZArith.
From Verif Require Import RLib Spec Spec_Layers Spec_Backward Spec_Near Spec_Rounding Spec_RoundingCrown Spec_Float Spec_FloatMerge Spec_FloatNet Spec_FloatAffine Spec_FloatCrown M_Core M_Utils M_MergeLayers M_Ops M_Layers M_Backward M_Crown M_Convert M_Network M_Rounding M_RoundingCrown M_Float M_FloatMerge M_FloatNet M_FloatHull M_FloatAffine M_FloatCrown P_Network P_NetworkCrown P_RoundingThm P_FloatThm P_FloatAffineThm P_FloatCrown P_FloatCrownThm.
From Verif Require Import Spec_Network.
Import ListNotations.
Local Open Scope R_scope.

(** The full property: the bounds computed by crown and by crown-forward-ibp in binary32 enclose the network over the box. It is false for both: relu on [-1, 9], whatever epsilon in (0, 1]; the upper bound is
    below relu(9) = 9, and below what the model computes in binary32 *)
Theorem C86_bounds_refuted : forall ke r, 0 < ke <= 1 -> r = seam_crown \/ r = seam_crown_forward ->
  float_crown op32 (any_order op32 2 3) ke 9 20 1 seam_opts seam_bo seam_net 1 seam_box r /\ net_ok 1 seam_net /\ net_value seam_net seam_value /\ blayers_ok seam_bo seam_net /\
  layers_ok IBP seam_opts seam_net /\
  exists y u l, in_dom Box 1 seam_box y /\ c_out r = [u; l] /\ u 0%nat 0%nat < seam_value 1 y 0%nat /\
    exists a, float_values op32 (any_order op32 2 3) seam_net y a /\ u 0%nat 0%nat < a 1%nat 0%nat.
Proof. exact crown_refuted. Qed.
Print Assumptions C86_bounds_refuted.

(** they enclose it up to an explicit margin, for both methods, sums in any order and every slope of relu. W: largest number of neurons of a node, Y: bound on the values of the nodes, A: size of the
    numbers that are added. Missing: the other layers and modes, overflow *)
Theorem C86_bounds_partial : forall k N ke X A n opts bo net v o z r W Y,
  0 < ke -> eta32 <= u32 * ke -> 0 <= A -> (0 < n)%nat -> net_ok n net -> net_value net v -> blayers_ok bo net -> (c_fwd r <> None -> layers_ok IBP opts net) -> (o < length net)%nat ->
  (forall i L ps, nth_error net i = Some (Some L, ps) -> crown_layer L) ->
  (forall i, (i < n)%nat -> Rabs (z 0%nat i) <= X /\ Rabs (z 1%nat i) <= X) -> 0 <= Y -> nodes_within (in_dom Box n z) n net v W Y ->
  float_crown op32 (any_order op32 k N) ke X A n opts bo net o z r ->
  exists u l, c_out r = [u; l] /\ forall y j, in_dom Box n z y -> (j < net_dim n net o)%nat ->
    let d := call_error u32 eta32 k N A in let e := crown_error (INR W * d) net * (ke + d * (1 + INR W * Y)) in
    l 0%nat j - e <= v o y j <= u 0%nat j + e.
Proof. exact float_crown_bounds. Qed.
Print Assumptions C86_bounds_partial.

(** the predictions of the Keras model, also in binary32 *)
Theorem C86_predictions_partial : forall k N ke X A A' n opts bo net v o z r W Y y a,
  0 < ke -> eta32 <= u32 * ke -> 0 <= A -> 0 <= A' -> (0 < n)%nat -> net_ok n net -> net_value net v -> blayers_ok bo net -> (c_fwd r <> None -> layers_ok IBP opts net) -> (o < length net)%nat ->
  (forall i L ps, nth_error net i = Some (Some L, ps) -> crown_layer L) ->
  (forall i, (i < n)%nat -> Rabs (z 0%nat i) <= X /\ Rabs (z 1%nat i) <= X) -> 0 <= Y -> nodes_within (in_dom Box n z) n net v W Y ->
  float_crown op32 (any_order op32 k N) ke X A n opts bo net o z r ->
  in_dom Box n z y -> float_values op32 (any_order op32 k N) net y a -> values_size A' net a ->
  exists u l, c_out r = [u; l] /\ forall j, (j < net_dim n net o)%nat ->
    let d := call_error u32 eta32 k N A in let e := crown_error (INR W * d) net * (ke + d * (1 + INR W * Y)) + net_slack net * float_error u32 eta32 k N A' in
    l 0%nat j - e <= a o j <= u 0%nat j + e.
Proof. exact float_crown_predictions. Qed.
Print Assumptions C86_predictions_partial.

(** a class whose lower bound is above the upper bound of another by twice the margin is preferred on the whole box, on real numbers and in binary32 *)
Theorem C86_decision_partial : forall k N ke X A A' n opts bo net v o z r W Y u l j j',
  0 < ke -> eta32 <= u32 * ke -> 0 <= A -> 0 <= A' -> (0 < n)%nat -> net_ok n net -> net_value net v -> blayers_ok bo net -> (c_fwd r <> None -> layers_ok IBP opts net) -> (o < length net)%nat ->
  (forall i L ps, nth_error net i = Some (Some L, ps) -> crown_layer L) ->
  (forall i, (i < n)%nat -> Rabs (z 0%nat i) <= X /\ Rabs (z 1%nat i) <= X) -> 0 <= Y -> nodes_within (in_dom Box n z) n net v W Y ->
  float_crown op32 (any_order op32 k N) ke X A n opts bo net o z r -> c_out r = [u; l] -> (j < net_dim n net o)%nat -> (j' < net_dim n net o)%nat ->
  (let d := call_error u32 eta32 k N A in
   2 * (crown_error (INR W * d) net * (ke + d * (1 + INR W * Y)) + net_slack net * float_error u32 eta32 k N A') < l 0%nat j - u 0%nat j') ->
  forall y, in_dom Box n z y -> v o y j' < v o y j /\ forall a, float_values op32 (any_order op32 k N) net y a -> values_size A' net a -> a o j' < a o j.
Proof. exact float_crown_decision. Qed.
Print Assumptions C86_decision_partial.

(** with BatchNormalization, the lines of which are rounded as well (bn_size: sizes of its numbers); a: the predictions with an error of d' in each layer; E: error of the
    layers of the forward pass of crown-forward-ibp (0 for crown). Missing: the other layers and modes, overflow *)
Theorem C86_batchnorm_partial : forall k N ke X A E n opts bo net v o z r W Y,
  0 < ke -> eta32 <= u32 * ke -> 0 <= A -> (0 < n)%nat -> net_ok n net -> net_value net v -> blayers_ok bo net -> (o < length net)%nat ->
  (forall i L ps, nth_error net i = Some (Some L, ps) -> crown_layer_bn L) ->
  bn_size u32 eta32 A net -> 0 <= E -> (forall f, c_fwd r = Some f -> layers_ok IBP opts net /\ errors_within u32 eta32 k N A E net (fun _ _ => []) (mk_run (c_inputs r) f (f o))) ->
  (forall i, (i < n)%nat -> Rabs (z 0%nat i) <= X /\ Rabs (z 1%nat i) <= X) -> 0 <= Y -> nodes_within (in_dom Box n z) n net v W Y ->
  float_crown op32 (any_order op32 k N) ke X A n opts bo net o z r ->
  exists u l, c_out r = [u; l] /\ forall y, in_dom Box n z y ->
    let d := call_error u32 eta32 k N A + scale_error u32 eta32 A + E in let e := crown_error (INR W * d) net * (ke + d * (1 + INR W * Y)) in
    (forall j, (j < net_dim n net o)%nat -> l 0%nat j - e <= v o y j <= u 0%nat j + e) /\
    forall d' a, 0 <= d' -> rounded_values net d' y a -> forall j, (j < net_dim n net o)%nat -> l 0%nat j - (e + net_slack net * d') <= a o j <= u 0%nat j + (e + net_slack net * d').
Proof. exact float_crown_bounds_bn. Qed.
Print Assumptions C86_batchnorm_partial.

(** a run in binary32 is a run with an error of call_error in each call, in the sense of C73, for a clone whose finetune parameters choose the slopes that were computed *)
Theorem C86_run_partial : forall k N ke X A n opts bo net o z r,
  0 < ke -> eta32 <= u32 * ke -> 0 <= A -> net_ok n net -> blayers_ok bo net -> (o < length net)%nat -> (forall i L ps, nth_error net i = Some (Some L, ps) -> crown_layer L) ->
  (forall i, (i < n)%nat -> Rabs (z 0%nat i) <= X /\ Rabs (z 1%nat i) <= X) -> float_crown op32 (any_order op32 k N) ke X A n opts bo net o z r ->
  exists bo', blayers_ok bo' net /\ rounded_crown ke Box n IBP IBP opts bo' net o z (call_error u32 eta32 k N A) r.
Proof. exact float_crown_run. Qed.
Print Assumptions C86_run_partial.

(** on a box of binary32 numbers the upper bounds of the forward pass of crown-forward-ibp are binary32 numbers, although relu and the reshaping layers do not round *)
Theorem C86_forward_numbers : forall k N ke n opts bo net o z tr q, net_ok n net -> blayers_ok bo net -> (forall i L ps, nth_error net i = Some (Some L, ps) -> crown_layer_bn L) ->
  (forall i, (i < n)%nat -> rnd32 (z 1%nat i) = z 1%nat i) -> float_run_all op32 (any_order op32 k N) ke n opts net o z tr q ->
  forall p, (p < length net)%nat -> exists u l, r_nodes q p = [u; l] /\ forall j, (j < net_dim n net p)%nat -> rnd32 (u 0%nat j) = u 0%nat j.
Proof. exact forward_numbers. Qed.
Print Assumptions C86_forward_numbers.

(** without rounding the calls are those of M_Backward and M_Crown: the layers *)
Theorem C86_without_rounding_layers : forall ke n o L u l B, crown_layer_bn L -> backward_call ke (mk_spec false IBP Box n) o L [u; l] = Ok B -> float_backward exact ke n o L [u; l] B.
Proof. exact crown_exact_calls. Qed.
Print Assumptions C86_without_rounding_layers.

(** the products with the bounds received *)
Theorem C86_without_rounding_products : forall n_in n_h k B C, float_merge_bb exact exact_dot n_in n_h k B C (merge_bb n_h B C).
Proof. exact crown_exact_merge. Qed.
Print Assumptions C86_without_rounding_products.

(** the bounds of the lines *)
Theorem C86_without_rounding_bounds : forall n its B ts, length its = 2%nat -> convert2backward IBP Box n its B = Ok ts -> exists u l, ts = [u; l] /\
  forall j, fl_upper exact exact_dot n (box_of its) (bb_wu B) (vt (bb_bu B)) j (u 0%nat j) /\ fl_lower exact exact_dot n (box_of its) (bb_wl B) (vt (bb_bl B)) j (l 0%nat j).
Proof. exact crown_exact_convert. Qed.
Print Assumptions C86_without_rounding_bounds.

(** relu(2 x - 1) on [0, 1]: the computed bounds are 0 and 1, with a margin of at most 1/100 for epsilon at most 1/100000 *)
Example C86_example : forall ke, 0 < ke <= / 100000 -> eta32 <= u32 * ke ->
  float_crown op32 (any_order op32 2 3) ke 1 4 1 seam_opts ramp_bo ramp_net 2 unit_box ramp_crown /\ c_out ramp_crown = [cst 1; cst 0] /\
  float_crown op32 (any_order op32 2 3) ke 1 4 1 seam_opts ramp_bo ramp_net 2 unit_box ramp_crown_forward /\ c_out ramp_crown_forward = [cst 1; cst 0] /\
  let d := call_error u32 eta32 2 3 4 in let e := crown_error (INR 1 * d) ramp_net * (ke + d * (1 + INR 1 * 1)) in
  e <= / 100 /\ forall y, in_dom Box 1 unit_box y -> 0 - e <= ramp_value 2 y 0%nat <= 1 + e.
Proof. exact ramp_crown_example. Qed.

(** the same function, 2 x - 1 being computed by a BatchNormalization *)
Example C86_batchnorm_example : forall ke, 0 < ke <= / 100000 -> eta32 <= u32 * ke ->
  float_crown op32 (any_order op32 2 3) ke 1 4 1 seam_opts ramp_bo norm_net 2 unit_box ramp_crown /\ c_out ramp_crown = [cst 1; cst 0] /\
  float_crown op32 (any_order op32 2 3) ke 1 4 1 seam_opts ramp_bo norm_net 2 unit_box ramp_crown_forward /\ c_out ramp_crown_forward = [cst 1; cst 0] /\ bn_size u32 eta32 4 norm_net /\
  exists E, errors_within u32 eta32 2 3 4 E norm_net (fun _ _ => []) (mk_run (c_inputs ramp_crown_forward) ramp_fwd (ramp_fwd 2)) /\
  let d := call_error u32 eta32 2 3 4 + scale_error u32 eta32 4 + E in let e := crown_error (INR 1 * d) norm_net * (ke + d * (1 + INR 1 * 1)) in
  e <= / 100 /\ forall y, in_dom Box 1 unit_box y -> 0 - e <= ramp_value 2 y 0%nat <= 1 + e.
Proof. exact norm_crown_example. Qed.
Print Assumptions C86_batchnorm_example.
