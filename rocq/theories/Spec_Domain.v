(** Specification for the change of domain of a converted model. Definitions only. *)
From Coq Require Import Reals List.
From Verif Require Import RLib Spec.
Import ListNotations.
Local Open Scope R_scope.

(** every point of [Da] around x belongs to [Ds] around x *)
Definition inside (Da Ds : domain) (n : nat) : Prop := forall x z, in_dom Da n x z -> in_dom Ds n x z.
(** the domain after a sequence of changes *)
Definition last_domain (Ds : list domain) (D : domain) : domain := last Ds D.
(** boxes are replaced by boxes, balls by balls *)
Definition of_type (D D' : domain) : Prop := match D, D' with Box, Box => True | Ball _ _, Ball _ _ => True | _, _ => False end.
