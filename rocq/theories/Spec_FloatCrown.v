(** Rounding errors of the backward pass in floating-point arithmetic. Nothing in this file depends on the model files. *)
From Coq Require Import Reals.
From Verif Require Import RLib Spec Spec_Float.
Local Open Scope R_scope.

(** error of the upper line of the relaxation of relu on an interval within [-A, A] *)
Definition hull_error (u eta A : R) : R := 7 * u * (1 + A) + (3 + A) * eta.
(** error of the line of a BatchNormalization whose numbers are at most A *)
Definition scale_error (u eta A : R) : R := 9 * u * A + (3 + 2 * A) * eta.
(** error of one call of the backward pass when the sums of absolute values of the numbers added are at most A *)
Definition call_error (u eta : R) (k N : nat) (A : R) : R := float_error u eta k N A + hull_error u eta A.
