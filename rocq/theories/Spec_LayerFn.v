(** Calls of Python functions with keywords. Nothing in this file depends on the model files. *)
From Coq Require Import String List Bool ZArith.
From Verif Require Import RLib Spec.
Import ListNotations.
Local Open Scope string_scope.

(** a perturbation domain: BoxDomain(), or one given by the user *)
Inductive pdomain := DefaultBox | UserDomain (id : nat).
Inductive sval := VInt (z : Z) | VSlope (s : slope) | VDom (d : pdomain) | VBool (b : bool) | VMode (m : fmode).
Definition keywords : Type := list (string * sval).
Fixpoint get (k : string) (l : keywords) : option sval :=
  match l with [] => None | (k', v) :: q => if String.eqb k k' then Some v else get k q end.

(** A function of one positional argument. f_params: its other parameters, and whether they have a default value;
    f_varkw: the name of its ** parameter; f_locals: its local variables; f_code: it is written in Python (it is not a class,
    a functools.partial... *)
Record pyfun := mk_fun { f_first : string; f_params : list (string * bool); f_varkw : option string; f_locals : list string; f_code : bool }.
(** the names of its parameters *)
Definition f_names (f : pyfun) : list string := f_first f :: map fst (f_params f) ++ match f_varkw f with Some k => [k] | None => [] end.
(** it can be called with a positional argument and the keywords ks *)
Definition accepts (f : pyfun) (ks : list string) : Prop :=
  (forall k, In k ks -> k <> f_first f /\ (In k (map fst (f_params f)) \/ f_varkw f <> None)) /\
  forall k, In (k, false) (f_params f) -> In k ks.
