(** Vocabulary of C82. *)
From Coq Require Import String List Arith.
From Verif Require Import M_State M_GridParams.
Import ListNotations.
Local Open Scope string_scope.

Definition contains (p s : string) : Prop := exists a b, s = a ++ p ++ b.
Definition ends_with (p s : string) : Prop := exists a, s = a ++ p.
(** a name that neither contains "backward_activation" nor ends with "backward" *)
Definition ordinary (s : string) : Prop := ~ contains "backward_activation" s /\ ~ ends_with "backward" s.
(** the entries of a dictionary filled by the elements of [l] that satisfy [P], the first value of a key being kept *)
Definition first_entry {X A} (P : X -> Prop) (key : X -> string) (val : X -> option A) (l : list X) (k : string) (v : A) : Prop :=
  exists a x b, l = (a ++ x :: b)%list /\ P x /\ key x = k /\ val x = Some v /\ forall y, In y a -> P y -> key y <> k.
(** the backward layers the functions look for, and the key of such a layer: the name of the Keras layer and rec *)
Definition keyed (l : glayer) : Prop := contains "backward_activation" (gl_name l).
Definition gkey (l : glayer) : string := match gl_back l with Some (s, n) => s ++ "_" ++ string_of_nat n | None => "" end.
