(** Theorems C89: the network that clone converts is the network of the user without its final softmax. *)
From Coq Require Import String Reals List Arith Bool ZArith.
From Verif Require Import RLib Spec Spec_Layers M_Core M_Utils M_MergeLayers M_Ops M_Layers M_Convert M_State Spec_State M_Names Spec_Names Spec_Softmax P_Softmax.
Import ListNotations.
Local Open Scope nat_scope.

(** chains of layers, the last layer (and the layer it holds as its activation) not used before, no class Softmax at the end: the model given is softmax of the
    network converted when its last layer ends with softmax, and the network converted otherwise. Missing: a last layer used several times, where it is false *)
Theorem C89_logits_partial : forall V core act, @keras_activations V core act ->
  forall h ops l, obj_wf h -> refs_wf h (ops ++ [l]) -> simple h (ops ++ [l]) -> no_softmax h [l] -> (forall z, In z (held h [l]) -> ~ In z (held h ops)) ->
  let '(h1, called) := linear_end (ps_heap (preprocess_objs h (ops ++ [l]))) (ps_called (preprocess_objs h (ops ++ [l]))) in
  forall x, (ends_softmax h l -> call_model V core act h (ops ++ [l]) x = act "softmax"%string (call_model V core act h1 called x)) /\
            (~ ends_softmax h l -> call_model V core act h (ops ++ [l]) x = call_model V core act h1 called x).
Proof. exact logits. Qed.
Print Assumptions C89_logits_partial.

(** before the softmax is removed: layers used several times included, the network is the one given *)
Theorem C89_preprocessed : forall V core act, @keras_activations V core act -> forall h ops x, obj_wf h -> refs_wf h ops -> simple h ops ->
  call_model V core act (ps_heap (preprocess_objs h ops)) (ps_called (preprocess_objs h ops)) x = call_model V core act h ops x.
Proof. exact preprocessed. Qed.
Print Assumptions C89_preprocessed.

(** a layer with activation softmax called twice, at the end: the network converted has lost both softmax; every core and act *)
Theorem C89_shared : forall V core act c, @keras_activations V core act ->
  let '(h1, called) := linear_end (ps_heap (preprocess_objs (h_twice c) [1; 1])) (ps_called (preprocess_objs (h_twice c) [1; 1])) in
  forall x, call_model V core act h1 called x = core (COther c) (core (COther c) x) /\
    call_model V core act (h_twice c) [1; 1] x = act "softmax"%string (core (COther c) (act "softmax"%string (core (COther c) x))).
Proof. exact twice. Qed.
Print Assumptions C89_shared.

(** The full property is false: with Dense(1, activation="softmax"), of weight 2, called twice on 1, the value before the last softmax is not the one computed by the
    network converted, although the forward methods convert it *)
Theorem C89_shared_refuted : (forall m, get_direction m = FORWARD -> exists names, clone_layers m (h_twice 0) [0] [1; 1] = Ok names) /\
  exists (core : kclass -> R -> R) (act : string -> R -> R), keras_activations core act /\ (forall y, act "softmax"%string y = 1%R) /\
  let '(h1, called) := linear_end (ps_heap (preprocess_objs (h_twice 0) [1; 1])) (ps_called (preprocess_objs (h_twice 0) [1; 1])) in
  exists l, call_model R core act (h_twice 0) [1; 1] 1%R = act "softmax"%string (core (COther 0) l) /\ l = act "softmax"%string (core (COther 0) 1%R) /\
    call_model R core act h1 called 1%R <> core (COther 0) l.
Proof. exact twice_refuted. Qed.
Print Assumptions C89_shared_refuted.

(** Dense with a layer as activation, called twice, then Dense with softmax *)
Example C89_example : obj_wf h_two /\ refs_wf h_two ([2; 2] ++ [3]) /\ simple h_two ([2; 2] ++ [3]) /\ no_softmax h_two [3] /\ (forall z, In z (held h_two [3]) -> ~ In z (held h_two [2; 2])) /\ ends_softmax h_two 3 /\ ~ ends_softmax h_two 2.
Proof. exact logits_example. Qed.
Print Assumptions C89_example.
