(** Rounding errors of lines over a box. *)
From Coq Require Import Reals.
From Verif Require Import RLib Spec Spec_Float.
Local Open Scope R_scope.

(** sum of the absolute values of the terms of the line j, for inputs between -X and X *)
Definition line_size (n : nat) (X : R) (w : mat) (b : vec) (j : nat) : R := rsum n (fun i => Rabs (w i j) * X) + Rabs (b j).
(** error of relu on lines of size at most A: the bounds of the lines over the box, the hull, its composition with the lines *)
Definition relu_error (u eta : R) (k N : nat) (ke : R) (n : nat) (X A : R) : R :=
  let d := float_error u eta k N A in
  let B := A + d in
  d + 2 * ke + 16 * u * B + (16 + 4 * B + INR n * X) * eta.
(** an inner product without rounding *)
Definition exact_dot : nat -> vec -> vec -> R -> Prop := fun d x w y => y = rsum d (fun c => x c * w c).
