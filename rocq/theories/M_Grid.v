(** Bounds on a grid: src/decomon/utils.py:79-124. Weights of full rank; one column j of the weights (the code is column by column). *)
From Coq Require Import Reals List.
From Verif Require Import RLib Spec M_Core.
Import ListNotations.
Local Open Scope R_scope.

(** K.sort along the axis of the inputs *)
Fixpoint rinsert (a : R) (l : list R) : list R :=
  match l with [] => [a] | b :: q => if Rle_dec a b then a :: l else b :: rinsert a q end.
Fixpoint rsort (l : list R) : list R := match l with [] => [] | a :: q => rinsert a (rsort q) end.

(** K.repeat: each element repeated in place *)
Definition repeat_each (k : nat) (l : list R) : list R := flat_map (fun a => repeat a k) l.

Fixpoint cumsum (acc : R) (l : list R) : list R := match l with [] => [] | a :: q => (acc + a) :: cumsum (acc + a) q end.

Definition sum_list (l : list R) : R := fold_right Rplus 0 l.

(** utils.py:103-114 convert_lower_search_2_subset_sum; x[:,0] = lo, x[:,1] = hi *)
Definition subset_weights (d steps : nat) (lo hi : vec) (w : mat) (j : nat) : list R :=
  map (fun i => Rabs (w i j) * ((hi i - lo i) / INR steps)) (seq 0 d).
Definition subset_const (d : nat) (lo hi : vec) (w : mat) (b : vec) (j : nat) : R := get_lower_box d false lo hi w b j.

(** utils.py:117-124 subset_sum_lower *)
Definition subset_sum_lower (ws : list R) (b : R) (rep : nat) : R :=
  let c := repeat_each rep (rsort ws) in
  let m := map (fun s => Rmin (Rsgn (- b - s) + 1) 1) (cumsum 0 c) in
  Rmin (sum_list (map (fun p => fst p * snd p) (combine m c)) + b) 0.

(** utils.py:79-81 get_lower_bound_grid *)
Definition get_lower_bound_grid (d steps : nat) (lo hi : vec) (w : mat) (b : vec) (j : nat) : R :=
  subset_sum_lower (subset_weights d steps lo hi w j) (subset_const d lo hi w b j) steps.

(** utils.py:84-85 get_upper_bound_grid *)
Definition get_upper_bound_grid (d steps : nat) (lo hi : vec) (w : mat) (b : vec) (j : nat) : R :=
  - get_lower_bound_grid d steps lo hi (fun i k => - w i k) (fun k => - b k) j.

(** utils.py:88-99 get_bound_grid *)
Definition get_bound_grid (d steps : nat) (lo hi : vec) (w_u : mat) (b_u : vec) (w_l : mat) (b_l : vec) (j : nat) : R * R :=
  (get_upper_bound_grid d steps lo hi w_u b_u j, get_lower_bound_grid d steps lo hi w_l b_l j).
