(** Theorems C85: forward-affine mode on a box in floating-point arithmetic. *)
From Coq Require Import Reals List Arith Bool ZArith.
From Verif Require Import RLib Spec Spec_Layers Spec_Near Spec_Rounding Spec_Float Spec_FloatMerge Spec_FloatAffine M_Core M_Utils M_MergeLayers M_Ops M_Layers M_Convert M_Network M_Rounding M_Float M_FloatHull M_FloatAffine P_Network P_NetworkForward P_RoundingThm P_FloatThm P_FloatAffine P_FloatAffineThm.
From Verif Require Import Spec_Network.
Import ListNotations.
Local Open Scope R_scope.

(** The full property: the lines computed in binary32 enclose the network over the box. It is false: relu on [-1, 9], whatever epsilon in (0, 1]; the
    line of the upper bound, and the upper bound computed from it, are below relu(9) = 9 *)
Theorem C85_lines_refuted : forall ke, 0 < ke <= 1 ->
  float_run_affine op32 (any_order op32 2 3) ke 1 seam_opts seam_net seam_box seam_run /\
  float_final_affine op32 (any_order op32 2 3) 1 1 IBP (r_nodes seam_run 1) seam_out /\
  exists y, in_dom Box 1 seam_box y /\
    (forall x wu bu wl bl, r_nodes seam_run 1 = [x; wu; bu; wl; bl] -> aff 1 wu (bu 0%nat) y 0%nat < seam_value 1 y 0%nat) /\
    (forall U L, seam_out = [U; L] -> U 0%nat 0%nat < seam_value 1 y 0%nat).
Proof. exact seam_refuted. Qed.
Print Assumptions C85_lines_refuted.

(** the lines enclose the network up to an explicit margin, for sums in any order. Missing: the other merges and layers; overflow *)
Theorem C85_lines_partial : forall k N ke n opts net v o z r X A E,
  0 < ke -> eta32 <= u32 * ke -> (0 < n)%nat -> net_ok n net -> net_value net v -> layers_ok AFFINE opts net -> (o < length net)%nat ->
  (forall i L ps, nth_error net i = Some (Some L, ps) -> affine_layer L) ->
  0 <= X -> (forall i, (i < n)%nat -> Rabs (z 0%nat i) <= X /\ Rabs (z 1%nat i) <= X) -> 0 <= E ->
  float_run_affine op32 (any_order op32 k N) ke n opts net z r -> affine_errors u32 eta32 k N ke n X A E net r ->
  exists wu bu wl bl, r_nodes r o = [z; wu; bu; wl; bl] /\ forall y j, in_dom Box n z y -> (j < net_dim n net o)%nat ->
    aff n wl (bl 0%nat) y j - net_error net * (ke + E) <= v o y j <= aff n wu (bu 0%nat) y j + net_error net * (ke + E).
Proof. exact affine_lines. Qed.
Print Assumptions C85_lines_partial.

(** and so do the constant bounds computed from the lines *)
Theorem C85_constants_partial : forall k N ke n opts net v o z r X A E A' out,
  0 < ke -> eta32 <= u32 * ke -> (0 < n)%nat -> net_ok n net -> net_value net v -> layers_ok AFFINE opts net -> (o < length net)%nat ->
  (forall i L ps, nth_error net i = Some (Some L, ps) -> affine_layer L) ->
  0 <= X -> (forall i, (i < n)%nat -> Rabs (z 0%nat i) <= X /\ Rabs (z 1%nat i) <= X) -> 0 <= E ->
  float_run_affine op32 (any_order op32 k N) ke n opts net z r -> affine_errors u32 eta32 k N ke n X A E net r ->
  float_final_affine op32 (any_order op32 k N) n (net_dim n net o) IBP (r_nodes r o) out ->
  (forall x wu bu wl bl j, r_nodes r o = [x; wu; bu; wl; bl] -> (j < net_dim n net o)%nat -> line_size n X wu (bu 0%nat) j <= A' /\ line_size n X wl (bl 0%nat) j <= A') ->
  exists U L, out = [U; L] /\ forall y j, in_dom Box n z y -> (j < net_dim n net o)%nat ->
    L 0%nat j - (net_error net * (ke + E) + float_error u32 eta32 k N A') <= v o y j <= U 0%nat j + (net_error net * (ke + E) + float_error u32 eta32 k N A').
Proof. exact affine_constants. Qed.
Print Assumptions C85_constants_partial.

(** the predictions of a Keras model whose layers have error at most E', whatever its implementation *)
Theorem C85_predictions_partial : forall k N ke n opts net v o z r X A E E' y a,
  0 < ke -> eta32 <= u32 * ke -> (0 < n)%nat -> net_ok n net -> net_value net v -> layers_ok AFFINE opts net -> (o < length net)%nat ->
  (forall i L ps, nth_error net i = Some (Some L, ps) -> affine_layer L) ->
  0 <= X -> (forall i, (i < n)%nat -> Rabs (z 0%nat i) <= X /\ Rabs (z 1%nat i) <= X) -> 0 <= E -> 0 <= E' ->
  float_run_affine op32 (any_order op32 k N) ke n opts net z r -> affine_errors u32 eta32 k N ke n X A E net r ->
  in_dom Box n z y -> rounded_values net E' y a ->
  exists wu bu wl bl, r_nodes r o = [z; wu; bu; wl; bl] /\ forall j, (j < net_dim n net o)%nat ->
    aff n wl (bl 0%nat) y j - net_error net * (ke + E + E') <= a o j <= aff n wu (bu 0%nat) y j + net_error net * (ke + E + E').
Proof. exact affine_predictions. Qed.
Print Assumptions C85_predictions_partial.

(** one relu whose input lines have error e: its output lines have error at most twice e, and the rounding error; no condition on the length of the intervals *)
Theorem C85_relu : forall ke X A k N n (S : vec -> Prop), 0 < ke -> eta32 <= u32 * ke -> 0 <= X -> forall m sl ft x wu bu wl bl ts' f e, 0 <= e -> ft_ok m ft ->
  (forall z, S z -> in_dom Box n x z) -> (forall i, (i < n)%nat -> Rabs (x 0%nat i) <= X /\ Rabs (x 1%nat i) <= X) ->
  (forall j, (j < m)%nat -> line_size n X wu (bu 0%nat) j <= A /\ line_size n X wl (bl 0%nat) j <= A) ->
  affine_near S n m e f wu (bu 0%nat) wl (bl 0%nat) ->
  float_relu_affine op32 (any_order op32 k N) ke n m sl ft [x; wu; bu; wl; bl] ts' ->
  exists wu' bu' wl' bl', ts' = [x; wu'; bu'; wl'; bl'] /\
    affine_near S n m (2 * e + relu_error u32 eta32 k N ke n X A) (fun z j => Rrelu (f z j)) wu' (bu' 0%nat) wl' (bl' 0%nat).
Proof. exact relu_affine_near. Qed.
Print Assumptions C85_relu.

(** without rounding, the layers computed this way are those of M_Network *)
Theorem C85_without_rounding : forall ke n o L x wu bu wl bl out, affine_layer L ->
  decomon_layer ke (mk_spec false AFFINE Box n) o L [x; wu; bu; wl; bl] = Ok out -> float_call_affine exact exact_dot ke n o L [x; wu; bu; wl; bl] out.
Proof. exact affine_exact. Qed.
Print Assumptions C85_without_rounding.

(** relu(2 x - 1) on [0, 1]: the computed lines are 0 and x *)
Example C85_example : forall ke, 0 < ke <= / 10000 -> eta32 <= u32 * ke ->
  float_run_affine op32 (any_order op32 2 3) ke 1 ramp_opts ramp_net unit_box ramp_run /\ affine_errors u32 eta32 2 3 ke 1 1 3 (/ 1000) ramp_net ramp_run /\
  (forall y, in_dom Box 1 unit_box y -> 0 - net_error ramp_net * (ke + / 1000) <= ramp_value 2 y 0%nat <= y 0%nat + net_error ramp_net * (ke + / 1000)).
Proof. exact ramp_example. Qed.
