(** Layers whose output moves by at most a gain times the change of their inputs, for C73 in interval mode. *)
From Coq Require Import Reals List Arith Bool ZArith.
From Verif Require Import RLib Spec Spec_Layers Spec_Backward Spec_Near Spec_Network.
Import ListNotations.
Local Open Scope R_scope.

(** the layers of C68 and the activations sigmoid, tanh, softsign, softplus *)
Definition nl_lipschitz (L : nlayer) : Prop :=
  match L with
  | NActivation a _ => a <> Aexponential
  | _ => nl_piecewise L
  end.
