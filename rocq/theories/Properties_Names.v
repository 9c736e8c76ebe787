(** Theorems C81: the converted model can be built, its layers have distinct names. *)
From Coq Require Import String Reals List Arith Bool ZArith.
From Verif Require Import RLib Spec Spec_Layers M_Core M_Utils M_MergeLayers M_Ops M_Layers M_Convert M_State Spec_State M_Names Spec_Names P_StateThm P_NamesThm.
Import ListNotations.
Local Open Scope nat_scope.

(** forward methods: whenever the preprocessed model is built (C41_no_clash), so is the converted model, whatever layers are called several times; each name ends with the number of the call *)
Theorem C81_forward : forall m h inputs ops h', get_direction m = FORWARD -> clone_objs h inputs ops = Ok h' -> exists names, clone_layers m h inputs ops = Ok names /\
  forall s, In s names -> exists p c, s = add_count p c.
Proof. exact forward_built. Qed.
Print Assumptions C81_forward.

(** crown methods: built when each layer, and each layer held as an activation, is used once *)
Theorem C81_crown : forall m h inputs ops h', get_direction m = BACKWARD -> obj_wf h -> refs_wf h ops -> (forall i, In i inputs -> apart h ops i) -> NoDup inputs -> no_softmax h ops ->
  NoDup (held h ops) -> clone_objs h inputs ops = Ok h' -> exists names, clone_layers m h inputs ops = Ok names /\
    forall r, In r (inputs ++ ps_called (preprocess_objs h ops)) -> In (lo_name (h_obj (ps_heap (preprocess_objs h ops)) r) ++ "_backward")%string names.
Proof. exact crown_built. Qed.
Print Assumptions C81_crown.

(** and refused otherwise: a layer called at two nodes, or an activation layer held by two layers, makes every crown method fail with ValueError *)
Theorem C81_crown_shared_refuted : forall m h inputs ops, get_direction m = BACKWARD -> obj_wf h -> refs_wf h ops -> refs_wf h inputs -> no_softmax h ops -> plain_activations h ops ->
  ~ NoDup (held h ops) -> clone_layers m h inputs ops = Err ValueError.
Proof. exact crown_not_built. Qed.
Print Assumptions C81_crown_shared_refuted.

(** a forward method, the last layer called twice *)
Example C81_forward_example : clone_layers FORWARD_HYBRID h_relu [0] [1; 2; 2] =
  Ok ["d_wo_activation_0_decomon_0"; "d_activation_1_decomon_1"; "e_2_3_decomon_2_3"; "e_2_3_decomon_2_3"]%string.
Proof. exact names_forward_example. Qed.

(** a crown method *)
Example C81_crown_example : clone_layers CROWN_FORWARD_IBP h_relu [0] [1; 2] =
  Ok ["d_wo_activation_0_decomon_0"; "d_activation_1_decomon_1"; "e_2_decomon_2"; "input_backward"; "d_wo_activation_0_backward"; "d_activation_1_backward"; "e_2_backward"]%string.
Proof. exact names_crown_example. Qed.

(** the default method refuses a model with distinct names whose last layer is called twice *)
Example C81_shared_example : NoDup (map (fun r => lo_name (h_obj h_relu r)) [0; 1; 2]) /\ (exists h', clone_objs h_relu [0] [1; 2; 2] = Ok h') /\
  obj_wf h_relu /\ refs_wf h_relu [1; 2; 2] /\ no_softmax h_relu [1; 2; 2] /\ plain_activations h_relu [1; 2; 2] /\ ~ NoDup (held h_relu [1; 2; 2]) /\
  clone_layers CROWN h_relu [0] [1; 2; 2] = Err ValueError.
Proof. exact names_shared_example. Qed.

(** and one activation layer given to two layers *)
Example C81_activation_example : obj_wf h_act /\ refs_wf h_act [2; 3] /\ NoDup [2; 3] /\ no_softmax h_act [2; 3] /\ plain_activations h_act [2; 3] /\ ~ NoDup (held h_act [2; 3]) /\
  (exists names, clone_layers FORWARD_IBP h_act [0] [2; 3] = Ok names) /\ clone_layers CROWN h_act [0] [2; 3] = Err ValueError.
Proof. exact names_activation_example. Qed.

