(** Points of a regular grid on a box. *)
From Coq Require Import Reals List.
From Verif Require Import RLib Spec.
Local Open Scope R_scope.

(** each coordinate is one of the steps + 1 values from lo to hi *)
Definition grid_point (d steps : nat) (lo hi z : vec) : Prop :=
  forall i, (i < d)%nat -> exists k, (k <= steps)%nat /\ z i = lo i + INR k * ((hi i - lo i) / INR steps).

(** M is the largest value of g which is not positive, on the points of A *)
Definition largest_nonpos (A : vec -> Prop) (g : vec -> R) (M : R) : Prop :=
  (exists z, A z /\ g z = M) /\ M <= 0 /\ forall z, A z -> g z <= 0 -> g z <= M.

(** z and y differ by one step in one coordinate *)
Definition neighbour (d steps : nat) (lo hi z y : vec) : Prop :=
  exists i, (i < d)%nat /\ Rabs (y i - z i) = (hi i - lo i) / INR steps /\ forall k, (k < d)%nat -> k <> i -> y k = z k.
