(** Theorems C87: the number of calls of a model. *)
From Coq Require Import List Arith Bool Permutation.
From Verif Require Import Spec_Complexity M_Core M_Convert M_Complexity P_Complexity.
Import ListNotations.

(** every graph: each call is counted once, whatever its depth; inputs and Lambda layers are not *)
Theorem C87_calls : forall A cls (g : fgraph A), get_graph_complexity cls g = layer_calls (map (fun nod => cls (fn_op nod)) g).
Proof. exact complexity_calls. Qed.
Print Assumptions C87_calls.

(** models made of the same calls have the same complexity, whatever their edges and the order of their nodes *)
Theorem C87_order : forall A B cls (g : fgraph A) (h : fgraph B), Permutation (map fn_op g) (map fn_op h) -> get_graph_complexity cls g = get_graph_complexity cls h.
Proof. exact complexity_order. Qed.
Print Assumptions C87_order.

(** at least the number of layers, and equal to it exactly when no layer is called twice *)
Theorem C87_layers : forall A cls (g : fgraph A) ids, NoDup ids -> (forall a, In a ids <-> In a (map fn_op g) /\ cls a = OpOther) ->
  length ids <= get_graph_complexity cls g /\ (length ids = get_graph_complexity cls g <-> forall i j a b, nth_error g i = Some a -> nth_error g j = Some b -> cls (fn_op a) = OpOther -> fn_op a = fn_op b -> i = j).
Proof. exact complexity_layers. Qed.
Print Assumptions C87_layers.

(** one more call: the depths of all the nodes change, the complexity grows by one *)
Theorem C87_one_call : forall A cls (g : fgraph A) nod, get_graph_complexity cls (g ++ [nod]) = (match cls (fn_op nod) with OpOther => 1 | _ => 0 end) + get_graph_complexity cls g.
Proof. exact complexity_one_call. Qed.
Print Assumptions C87_one_call.

(** a nested model is one call, whatever it contains *)
Theorem C87_nested : forall A cls (sub : fgraph A) outs, cls 0 = OpInput -> cls 1 = OpOther ->
  get_graph_complexity cls [mk_fnode 0 KInput []; mk_fnode 1 (nested_model sub outs) [0]] = 1.
Proof. exact complexity_nested. Qed.
Print Assumptions C87_nested.

(** a layer called twice with a Lambda between the calls, then a layer with two inputs *)
Example C87_example : map (kdepths two_branches) [0; 1; 2; 3; 4] = [4; 3; 2; 1; 0] /\ get_graph_complexity two_classes two_branches = 3.
Proof. exact two_branches_depths. Qed.
