(** Theorems C83: the merge layers Maximum, Minimum and Multiply in interval mode, in floating-point arithmetic. *)
From Coq Require Import Reals List Arith Bool ZArith.
From Verif Require Import RLib Spec Spec_Float Spec_FloatMerge M_Core M_Utils M_MergeLayers M_Ops M_Float M_FloatMerge P_FloatMerge.
Import ListNotations.
Local Open Scope R_scope.

(** Maximum of any number of inputs: the bounds contain the maximum up to an explicit margin, when the numbers computed by the layer are at most A *)
Theorem C83_maximum : forall (op : R -> R -> Prop) u eta, (forall x y, op x y -> rounded u eta x y) ->
  forall A m tss tr ts' (xs : list vec) j v, 0 <= u -> 0 <= eta -> 0 <= A -> sized A m tss tr ->
  Forall2 (fun (x : vec) ts => forall j, (j < m)%nat -> within 0 (x j) (neuron ts j)) xs tss -> float_maximum op m tss tr ts' ->
  (j < m)%nat -> greatest v (map (fun x : vec => x j) xs) -> within (iterated 2 (maximum_error u eta A) (length tss - 1)) v (neuron ts' j).
Proof. exact op_maximum_bounds. Qed.
Print Assumptions C83_maximum.

(** and Minimum *)
Theorem C83_minimum : forall (op : R -> R -> Prop) u eta, (forall x y, op x y -> rounded u eta x y) ->
  forall A m tss tr ts' (xs : list vec) j v, 0 <= u -> 0 <= eta -> 0 <= A -> sized A m tss tr ->
  Forall2 (fun (x : vec) ts => forall j, (j < m)%nat -> within 0 (x j) (neuron ts j)) xs tss -> float_minimum op m tss tr ts' ->
  (j < m)%nat -> least v (map (fun x : vec => x j) xs) -> within (iterated 2 (maximum_error u eta A) (length tss - 1)) v (neuron ts' j).
Proof. exact op_minimum_bounds. Qed.
Print Assumptions C83_minimum.

(** and Multiply *)
Theorem C83_multiply : forall (op : R -> R -> Prop) u eta, (forall x y, op x y -> rounded u eta x y) ->
  forall A m tss tr ts' (xs : list vec) j, 0 <= u -> 0 <= eta -> 0 <= A -> sized A m tss tr ->
  Forall2 (fun (x : vec) ts => forall j, (j < m)%nat -> within 0 (x j) (neuron ts j)) xs tss -> float_multiply op m tss tr ts' ->
  (j < m)%nat -> within (iterated (3 * A) (product_error u eta A) (length tss - 1)) (fold_right Rmult 1 (map (fun x : vec => x j) xs)) (neuron ts' j).
Proof. exact op_multiply_bounds. Qed.
Print Assumptions C83_multiply.

(** in binary32 the lower bound of Maximum and of Minimum is at most the upper bound, without margin *)
Theorem C83_ordered : forall m tss tr ts', (forall ts j, In ts tss -> (j < m)%nat -> snd (neuron ts j) <= fst (neuron ts j)) -> float_maximum op32 m tss tr ts' \/ float_minimum op32 m tss tr ts' ->
  forall j, (j < m)%nat -> snd (neuron ts' j) <= fst (neuron ts' j).
Proof. exact maximum_ordered. Qed.
Print Assumptions C83_ordered.

(** and of Multiply, whatever the bounds of the inputs *)
Theorem C83_ordered_multiply : forall m tss tr ts', (2 <= length tss)%nat -> float_multiply op32 m tss tr ts' -> forall j, (j < m)%nat -> snd (neuron ts' j) <= fst (neuron ts' j).
Proof. exact multiply_ordered. Qed.
Print Assumptions C83_ordered_multiply.

(** without rounding, these are the calls of the exact model *)
Theorem C83_exact_maximum : forall ke n m tss ts', tss <> [] -> Forall (fun ts => length ts = 2%nat) tss -> decomon_maximum ke (mk_spec false IBP Box n) (concat tss) = Ok ts' -> exists tr, float_maximum exact m tss tr ts'.
Proof. exact exact_maximum. Qed.
Print Assumptions C83_exact_maximum.

(** Minimum *)
Theorem C83_exact_minimum : forall ke n m tss ts', tss <> [] -> Forall (fun ts => length ts = 2%nat) tss -> decomon_minimum ke (mk_spec false IBP Box n) (concat tss) = Ok ts' -> exists tr, float_minimum exact m tss tr ts'.
Proof. exact exact_minimum. Qed.
Print Assumptions C83_exact_minimum.

(** Multiply *)
Theorem C83_exact_multiply : forall n m tss ts', tss <> [] -> Forall (fun ts => length ts = 2%nat) tss -> decomon_multiply (mk_spec false IBP Box n) (concat tss) = Ok ts' -> exists tr, float_multiply exact m tss tr ts'.
Proof. exact exact_multiply. Qed.
Print Assumptions C83_exact_multiply.

(** without a margin: the maximum of the binary32 numbers -2^25 and 1 has upper bound 0, and the maximum of -2^25 and 3 has lower bound 4. Keras returns 1 and 3 *)
Theorem C83_maximum_refuted : exists tr ts' tr3 ts3,
  rnd32 (-33554432) = -33554432 /\ rnd32 1 = 1 /\ rnd32 3 = 3 /\
  float_maximum op32 1 [cst (-33554432) (-33554432); cst 1 1] tr ts' /\ fst (neuron ts' 0) = 0 /\ fst (neuron ts' 0) < Rmax (-33554432) 1 /\
  float_maximum op32 1 [cst (-33554432) (-33554432); cst 3 3] tr3 ts3 /\ snd (neuron ts3 0) = 4 /\ Rmax (-33554432) 3 < snd (neuron ts3 0).
Proof. exact maximum_refuted. Qed.
Print Assumptions C83_maximum_refuted.

(** without a margin: the product of 1 and of x in [-2^25, 1/2] has upper bound 0; it is 1/2 at x = 1/2, in Keras too *)
Theorem C83_multiply_refuted : exists tr ts' y,
  rnd32 (-33554432) = -33554432 /\ rnd32 (/ 2) = / 2 /\
  float_multiply op32 1 [cst 1 1; cst (/ 2) (-33554432)] tr ts' /\ within 0 (/ 2) (neuron (cst (/ 2) (-33554432)) 0) /\
  fl_product op32 1 [/ 2] y /\ y = 1 * / 2 /\ fst (neuron ts' 0) = 0 /\ fst (neuron ts' 0) < y.
Proof. exact multiply_refuted. Qed.
Print Assumptions C83_multiply_refuted.

(** three inputs of small size: the margin is at most 1/1000 *)
Example C83_example_three : exists tr ts',
  float_maximum op32 1 [cst 2 0; cst 1 (-1); cst 4 3] tr ts' /\ sized 7 1 [cst 2 0; cst 1 (-1); cst 4 3] tr /\ neuron ts' 0 = (7, 0) /\
  Forall2 (fun (x : vec) ts => forall j, (j < 1)%nat -> within 0 (x j) (neuron ts j)) [(fun _ => 1); (fun _ => 1); (fun _ => 4)] [cst 2 0; cst 1 (-1); cst 4 3] /\
  within (iterated 2 (maximum_error u32 eta32 7) 2) 4 (7, 0) /\ iterated 2 (maximum_error u32 eta32 7) 2 <= / 1000.
Proof. exact maximum_example. Qed.

(** the first case of C83_maximum_refuted, with the margin *)
Example C83_example_margin : exists tr ts',
  float_maximum op32 1 [cst (-33554432) (-33554432); cst 1 1] tr ts' /\ within (maximum_error u32 eta32 33554432) 1 (neuron ts' 0) /\ ~ within 0 1 (neuron ts' 0).
Proof. exact maximum_margin_example. Qed.

