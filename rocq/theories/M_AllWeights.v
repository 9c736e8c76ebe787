(** All the weights of a layer given or shared at once (keras_utils.py:144-172). Definitions only. [name]: the attribute name of a variable *)
From Coq Require Import String List.
From Verif Require Import RLib Spec M_State.

(** keras_utils.py:144-154 *)
Definition reset_layer_all_weights (name : nat -> string) (st : store) (new orig : wlayer) : result store := reset_layer st new orig (map name (wl_weights new)).
(** keras_utils.py:157-172 *)
Definition share_layer_all_weights (name : nat -> string) (created : list (string * nat)) (called : bool) (orig new : wlayer) : result wlayer :=
  share_weights_and_build created called orig new (map name (wl_weights orig)).
