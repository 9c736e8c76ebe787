(** Theorems C07, C15, C17, C41, C43 and C45: derivatives, frac_pos_hull, linear_to_softmax, freezing of grids, reset_layer. *)
From Coq Require Import String Reals List Arith Bool Permutation.
From Verif Require Import RLib Spec Spec_Layers Spec_State M_Core M_Utils M_MergeLayers M_Ops M_Layers M_Convert M_State P_Restore.
Import ListNotations.
Local Open Scope R_scope.

(** relu_prime is the derivative of relu where there is one *)
Theorem C07_relu_prime : forall x, x <> 0 -> derivable_pt_lim (fun t => Rmax t 0) x (relu_prime x).
Proof. exact relu_prime_der. Qed.
Print Assumptions C07_relu_prime.

(** and everywhere the slope of a line below relu *)
Theorem C07_relu_prime_tangent : forall x y, Rmax x 0 + relu_prime x * (y - x) <= Rmax y 0.
Proof. exact relu_prime_tangent. Qed.
Print Assumptions C07_relu_prime_tangent.

(** at 0 the derivative on the left: relu is a line of slope relu_prime just before every point *)
Theorem C07_relu_prime_left : forall x, exists d, 0 < d /\ forall y, x - d <= y <= x -> Rmax y 0 = Rmax x 0 + relu_prime x * (y - x).
Proof. exact relu_prime_left. Qed.
Print Assumptions C07_relu_prime_left.

(** the functions given as derivatives are the derivatives *)
Theorem C15_derivatives : forall x, derivable_pt_lim sigmoid x (sigmoid_prime x) /\ derivable_pt_lim tanh x (tanh_prime x) /\ derivable_pt_lim softsign x (softsign_prime x).
Proof. exact s_derivatives. Qed.
Print Assumptions C15_derivatives.

(** frac_pos_hull never returns *)
Theorem C17_frac_pos_hull_refuted : forall sp ts l, frac_pos_hull sp ts <> Ok l.
Proof. exact frac_hull_raises. Qed.
Print Assumptions C17_frac_pos_hull_refuted.

(** linear_to_softmax after softmax_to_linear: the objects of the user are as before *)
Theorem C41_softmax_back : forall h r, (r < h_next h)%nat ->
  (lo_class (h_obj h r) = CSoftmax \/ lo_act (h_obj h r) = AName "softmax") ->
  let '(h', q) := softmax_to_linear h r in
  (forall s, (s < h_next h)%nat -> h_obj (linear_to_softmax h' q) s = h_obj h s) /\ lo_act (h_obj (linear_to_softmax h' q) q) = AName "softmax" /\
  (lo_class (h_obj h r) <> CSoftmax -> q = r).
Proof. exact softmax_back. Qed.
Print Assumptions C41_softmax_back.

(** on a model that ended with a linear layer, linear_to_softmax after softmax_to_linear changes the last layer *)
Theorem C41_softmax_forced : forall h r, lo_act (h_obj h r) = AName "linear" -> lo_class (h_obj h r) <> CSoftmax ->
  softmax_to_linear h r = (h, r) /\ lo_act (h_obj (linear_to_softmax h r) r) = AName "softmax".
Proof. exact softmax_forced. Qed.
Print Assumptions C41_softmax_forced.

(** freeze_grid and unfreeze_grid in any order, without fine-tuning *)
Theorem C43_grid_restores : forall os m, not_ibp m = true ->
  Permutation (ba_tw (grid_run os (bact_init_grid false m))) (if last os false then [] else [GridNeg; GridPos]).
Proof. exact grid_restores. Qed.
Print Assumptions C43_grid_restores.

(** with fine-tuning, freeze_grid leaves a variable of the grid trainable and loses alpha, also after unfreeze_grid, where a variable occurs twice *)
Theorem C43_grid_finetune_refuted : forall m, not_ibp m = true ->
  let l := bact_init_grid true m in
  In GridPos (ba_tw (freeze_grid l)) /\ In AlphaL (ba_tw l) /\ ~ In AlphaL (ba_tw (freeze_grid l)) /\ ~ In AlphaL (ba_tw (unfreeze_grid (freeze_grid l))) /\
  ~ NoDup (ba_tw (unfreeze_grid (freeze_grid l))).
Proof. exact grid_finetune_wrong. Qed.
Print Assumptions C43_grid_finetune_refuted.

(** DecomonLayer.reset_layer: a layer without weights needs not be built *)
Theorem C45_decomon_reset : forall st new orig names, (names <> [] -> wl_built orig = true /\ wl_built new = true) -> NoDup (wl_weights new) ->
  (forall n, In n names -> has_weight orig n /\ has_weight new n) ->
  (forall n, In n names -> tv_shape (st (ov new n)) = tv_shape (st (ov orig n))) ->
  exists st', decomon_reset_layer st new orig names = Ok st' /\
    (forall v n, last_name new v names = Some n -> st' v = st (ov orig n)) /\
    (forall v, (forall n, In n names -> wl_attr new n <> Some v) -> st' v = st v).
Proof. exact decomon_reset. Qed.
Print Assumptions C45_decomon_reset.

