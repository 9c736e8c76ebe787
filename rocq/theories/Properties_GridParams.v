(** Theorems C82: the parameters of a grid returned by get_grid_params and get_grid_slope. *)
From Coq Require Import String Reals List Arith Bool.
From Verif Require Import RLib Spec Spec_Layers M_Core M_Utils M_MergeLayers M_Ops M_Layers M_Convert M_State Spec_State M_Names M_GridParams Spec_GridParams P_GridParams.
Import ListNotations.
Local Open Scope nat_scope.

(** the layers here are those of C81, with the attributes the two functions read *)
Theorem C82_layers : forall m mode ft h inputs ops ls, clone_glayers m mode ft h inputs ops = Ok ls -> clone_layers m h inputs ops = Ok (map gl_name ls).
Proof. exact glayers_names. Qed.
Print Assumptions C82_layers.

(** every method, every model whose layers have ordinary names: nothing is returned, whatever the relu layers *)
Theorem C82_empty_refuted : forall m mode ft h inputs ops ls milp, (forall r, ordinary (lo_name (h_obj h r))) -> clone_glayers m mode ft h inputs ops = Ok ls ->
  get_AB milp ls = Ok [] /\ get_AB_finetune milp ft ls = Ok [].
Proof. exact grid_params_empty. Qed.
Print Assumptions C82_empty_refuted.

(** Dense relu then Dense, crown in hybrid mode: the backward relu holds its three parameters, none is returned *)
Theorem C82_relu_refuted : (forall r, ordinary (lo_name (h_obj (h_named "d") r))) /\ exists ls, clone_glayers CROWN HYBRID true (h_named "d") [0] [1; 2] = Ok ls /\
  (exists l, In l ls /\ gl_name l = "d_activation_1_backward"%string /\ gl_grid l = Some [GridA 7; GridB 7] /\ gl_alpha l = Some (Alpha 7)) /\
  get_AB true ls = Ok [] /\ get_AB_finetune true true ls = Ok [].
Proof. exact grid_relu_ignored. Qed.
Print Assumptions C82_relu_refuted.

(** on any list of layers: one entry for each key of the layers whose name contains "backward_activation", the first one *)
Theorem C82_params : forall ls, (forall l, In l ls -> contains "backward_activation" (gl_name l) -> gl_back l <> None /\ gl_grid l <> None) ->
  exists d, get_AB true ls = Ok d /\ NoDup (map fst d) /\ forall k v, In (k, v) d <-> first_entry keyed gkey gl_grid ls k v.
Proof. exact grid_params_spec. Qed.
Print Assumptions C82_params.

Theorem C82_slope : forall ls, (forall l, In l ls -> contains "backward_activation" (gl_name l) -> gl_back l <> None /\ gl_alpha l <> None) ->
  exists d, get_AB_finetune true true ls = Ok d /\ NoDup (map fst d) /\ forall k v, In (k, v) d <-> first_entry keyed gkey gl_alpha ls k v.
Proof. exact grid_slope_spec. Qed.
Print Assumptions C82_slope.

(** a forward layer with such a name: AttributeError *)
Theorem C82_error : forall ls, (exists l, In l ls /\ contains "backward_activation" (gl_name l) /\ gl_back l = None) ->
  get_AB true ls = Err AttributeError /\ get_AB_finetune true true ls = Err AttributeError.
Proof. exact grid_params_error. Qed.
Print Assumptions C82_error.

(** the same network with its first layer named "d_backward": found by crown, AttributeError with crown-forward-hybrid *)
Example C82_named : exists ls, clone_glayers CROWN HYBRID true (h_named "d_backward") [0] [1; 2] = Ok ls /\
  get_AB true ls = Ok [("d_backward_activation_1_1"%string, [GridA 7; GridB 7])] /\ get_AB_finetune true true ls = Ok [("d_backward_activation_1_1"%string, Alpha 7)].
Proof. exact grid_named_found. Qed.
Example C82_named_error : exists ls, clone_glayers CROWN_FORWARD_HYBRID HYBRID true (h_named "d_backward") [0] [1; 2] = Ok ls /\
  get_AB true ls = Err AttributeError /\ get_AB_finetune true true ls = Err AttributeError.
Proof. exact grid_named_error. Qed.
