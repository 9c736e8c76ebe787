(** Vocabulary of C89: models as chains of layer objects. *)
From Coq Require Import String List.
From Verif Require Import RLib Spec M_State.
Import ListNotations.

(** a layer held as the activation of another one holds none itself; the class Activation is not given a layer *)
Definition simple (h : heap) (ops : list nat) : Prop :=
  forall r b, In r ops -> lo_act (h_obj h r) = ALayer b -> lo_class (h_obj h r) <> CActivation /\ forall c, lo_act (h_obj h b) <> ALayer c.
(** what layer l computes ends with the activation softmax *)
Definition ends_softmax (h : heap) (l : nat) : Prop :=
  lo_act (h_obj h l) = AName "softmax" \/ exists b, lo_act (h_obj h l) = ALayer b /\ lo_act (h_obj h b) = AName "softmax".
(** Keras: the class Activation applies its activation to its input; "linear" is the identity *)
Definition keras_activations {V} (core : kclass -> V -> V) (act : string -> V -> V) : Prop :=
  (forall y, core CActivation y = y) /\ forall y, act "linear"%string y = y.
