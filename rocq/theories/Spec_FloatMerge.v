(** Bounds up to a margin, for the merge layers in floating-point arithmetic. *)
From Coq Require Import Reals List Arith.
From Verif Require Import RLib Spec.
Import ListNotations.
Local Open Scope R_scope.

(** x is between the bounds, up to e *)
Definition within (e x : R) (b : R * R) : Prop := snd b - e <= x <= fst b + e.
(** both bounds are at most A in absolute value *)
Definition at_most (A : R) (b : R * R) : Prop := Rabs (fst b) <= A /\ Rabs (snd b) <= A.
(** rounding error of one maximum: a difference, then a sum *)
Definition maximum_error (u eta A : R) : R := (2 * u + u * u) * (3 * A) + (2 + u) * eta.
(** rounding error of one product: three rounded products, a sum, a difference *)
Definition product_error (u eta A : R) : R :=
  let d := u * (A * A) + eta in
  let s := 2 * d + u * (2 * (A * A + d)) + eta in
  s + d + u * (2 * (A * A) + s + (A * A + d)) + eta.
(** after m operations, if each multiplies the error by c and adds e *)
Fixpoint iterated (c e : R) (m : nat) : R := match m with O => 0 | S m => c * iterated c e m + e end.
(** the greatest and the least entry *)
Definition greatest (x : R) (l : list R) : Prop := In x l /\ forall y, In y l -> y <= x.
Definition least (x : R) (l : list R) : Prop := In x l /\ forall y, In y l -> x <= y.
(** an operation without rounding *)
Definition exact : R -> R -> Prop := fun x y => y = x.
