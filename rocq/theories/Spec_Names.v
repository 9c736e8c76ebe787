(** Vocabulary of C81. *)
From Coq Require Import String Reals List Arith Bool.
From Verif Require Import RLib Spec Spec_Layers M_Core M_Utils M_MergeLayers M_Ops M_Layers M_Convert M_State Spec_State.
Import ListNotations.

(** the user's objects used by a call of the layer r: the layer and the layer it holds as its activation *)
Definition holds (h : heap) (r : nat) : list nat :=
  r :: match lo_class (h_obj h r), lo_act (h_obj h r) with CActivation, _ => [] | _, ALayer b => [b] | _, _ => [] end.
Definition held (h : heap) (ops : list nat) : list nat := flat_map (holds h) ops.
(** a layer held as an activation has no activation of its own *)
Definition plain_activations (h : heap) (ops : list nat) : Prop := forall r b, In r ops -> lo_act (h_obj h r) = ALayer b -> unsplit h b.
(** no layer of the class Softmax (softmax_to_linear replaces it when it is the last one) *)
Definition no_softmax (h : heap) (ops : list nat) : Prop := forall x, In x (held h ops) -> lo_class (h_obj h x) <> CSoftmax.
