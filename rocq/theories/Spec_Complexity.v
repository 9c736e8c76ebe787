(** Counting the calls of a model. Nothing in this file depends on the model files. *)
From Coq Require Import List.
Import ListNotations.

(** the class of an operation; a nested model is an operation of another class than InputLayer and Lambda *)
Inductive opclass := OpInput | OpLambda | OpOther.
(** the calls of other operations, among the calls of a model *)
Fixpoint layer_calls (l : list opclass) : nat :=
  match l with
  | [] => 0
  | OpOther :: q => S (layer_calls q)
  | OpInput :: q | OpLambda :: q => layer_calls q
  end.
