(** Theorem C71: bounds on a grid. *)
From Coq Require Import Reals List Arith.
From Verif Require Import RLib Spec Spec_Grid M_Core M_Grid P_Core P_Grid.
Import ListNotations.
Local Open Scope R_scope.

(** at most 0, a value on the grid no neighbour of which is better, and the maximum over the box or within one step of one coordinate of 0 *)
Theorem C71_lower : forall d steps lo hi w_u b_u w_l b_l j, (0 < steps)%nat -> (forall i, (i < d)%nat -> lo i <= hi i) ->
  let r := snd (get_bound_grid d steps lo hi w_u b_u w_l b_l j) in let g z := aff d w_l b_l z j in
  r <= 0 /\
  ((forall z, in_box d lo hi z -> 0 < g z) -> r = 0) /\
  (forall z, grid_point d steps lo hi z -> g z <= 0 ->
     (exists y, grid_point d steps lo hi y /\ g y = r /\ forall y', grid_point d steps lo hi y' -> neighbour d steps lo hi y y' -> g y' <= 0 -> g y' <= r) /\
     (is_max (in_box d lo hi) g r \/ exists i, (i < d)%nat /\ - (Rabs (w_l i j) * ((hi i - lo i) / INR steps)) < r)).
Proof. exact grid_lower. Qed.
Print Assumptions C71_lower.

Theorem C71_upper : forall d steps lo hi w_u b_u w_l b_l j, (0 < steps)%nat -> (forall i, (i < d)%nat -> lo i <= hi i) ->
  let r := fst (get_bound_grid d steps lo hi w_u b_u w_l b_l j) in let g z := aff d w_u b_u z j in
  0 <= r /\
  ((forall z, in_box d lo hi z -> g z < 0) -> r = 0) /\
  (forall z, grid_point d steps lo hi z -> 0 <= g z ->
     (exists y, grid_point d steps lo hi y /\ g y = r /\ forall y', grid_point d steps lo hi y' -> neighbour d steps lo hi y y' -> 0 <= g y' -> r <= g y') /\
     (is_min (in_box d lo hi) g r \/ exists i, (i < d)%nat /\ r < Rabs (w_u i j) * ((hi i - lo i) / INR steps))).
Proof. exact grid_upper. Qed.
Print Assumptions C71_upper.

(** comment of utils.py:102: max Wx+b s.t. Wx+b<=0 *)
Theorem C71_largest_refuted : exists lo hi w b,
  (forall i, (i < 2)%nat -> lo i <= hi i) /\ ~ largest_nonpos (grid_point 2 1 lo hi) (fun z => aff 2 w b z 0) (get_lower_bound_grid 2 1 lo hi w b 0).
Proof. exact grid_largest_refuted. Qed.
Print Assumptions C71_largest_refuted.

(** the pair (upper, lower) of get_bound_grid is no enclosure on the grid *)
Theorem C71_enclose_refuted : exists lo hi w b z, let r := get_bound_grid 1 1 lo hi w b w b 0 in
  (forall i, (i < 1)%nat -> lo i <= hi i) /\ grid_point 1 1 lo hi z /\ aff 1 w b z 0 < snd r.
Proof. exact grid_enclose_refuted. Qed.
Print Assumptions C71_enclose_refuted.

(** a case where the value is the largest one *)
Example C71_example : get_lower_bound_grid 2 1 (fun _ => 0) (fun _ => 1) (fun _ _ => 2) (fun _ => - 3) 0%nat = -1 /\
  grid_point 2 1 (fun _ => 0) (fun _ => 1) (fun i => if Nat.eqb i 0 then 1 else 0) /\ aff 2 (fun _ _ => 2) (fun _ => - 3) (fun i => if Nat.eqb i 0 then 1 else 0) 0%nat = -1.
Proof. exact grid_example. Qed.

