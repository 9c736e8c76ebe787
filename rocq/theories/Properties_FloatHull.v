(** Theorems C84: the relaxation of relu in floating-point arithmetic. *)
From Coq Require Import Reals List Arith Bool.
From Verif Require Import RLib Spec Spec_Float Spec_FloatMerge M_Core M_Utils M_FloatHull P_FloatHull.
Import ListNotations.
Local Open Scope R_scope.

(** without rounding this is the exact model *)
Theorem C84_exact : forall ke sl ft u l, fl_hull_relu exact ke sl ft u l (hull_relu ke sl ft u l).
Proof. exact hull_exact. Qed.
Print Assumptions C84_exact.

(** the upper line, in an arithmetic of relative error mu and absolute error eta: above relu up to an explicit margin. (Boxes shorter than epsilon(): see C07) *)
Theorem C84_upper : forall (op : R -> R -> Prop) mu eta ke sl ft u l h x, (forall x y, op x y -> rounded mu eta x y) -> 0 <= mu <= / 8 -> 0 <= eta -> 0 < ke -> eta <= mu * ke ->
  u <= 0 \/ 0 <= l \/ ke <= (1 - mu) * (u - l) - eta -> fl_hull_relu op ke sl ft u l h -> l <= x <= u ->
  Rmax x 0 <= h_wu h * x + h_bu h + (10 * mu * Rmax u 0 + (6 + 2 * (u - l)) * eta).
Proof. exact hull_upper. Qed.
Print Assumptions C84_upper.

(** the lower line in binary32: below relu, without margin *)
Theorem C84_lower : forall ke sl ft u l h x, 0 < ke -> rnd32 u = u -> (forall g, ft = Some g -> 0 <= g <= 1) ->
  fl_hull_relu op32 ke sl ft u l h -> l <= x <= u -> h_wl h * x + h_bl h <= Rmax x 0.
Proof. exact hull_lower32. Qed.
Print Assumptions C84_lower.

(** without a margin: on [-1, 9] the upper line computed in binary32 is below relu at 9, also when it is evaluated in binary32 *)
Theorem C84_upper_refuted : forall ke sl, 0 < ke <= 1 -> exists h,
  fl_hull_relu op32 ke sl None 9 (-1) h /\ h_wu h * 9 + h_bu h < Rmax 9 0 /\
  exists p y, op32 (h_wu h * 9) p /\ op32 (p + h_bu h) y /\ y < Rmax 9 0.
Proof. exact hull_upper_refuted. Qed.
Print Assumptions C84_upper_refuted.

(** the same box with the margin *)
Example C84_example : exists h, fl_hull_relu op32 (/ 10000000) V_SLOPE None 9 (-1) h /\ (forall x, -1 <= x <= 9 -> Rmax x 0 <= h_wu h * x + h_bu h + / 10000) /\ (forall x, -1 <= x <= 9 -> h_wl h * x + h_bl h <= Rmax x 0).
Proof. exact hull_upper_example. Qed.

