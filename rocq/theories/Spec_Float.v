(** Arithmetic with rounding: one rounded operation, inner products in any order, and binary32. Nothing in this file
    depends on the model files. *)
From Coq Require Import Reals List Arith Bool ZArith Sorting.Permutation.
From Flocq Require Import Core.
From Verif Require Import RLib Spec.
Import ListNotations.
Local Open Scope R_scope.

(** y is a result of an operation whose exact result is x: relative error u, and eta for results near 0 *)
Definition rounded (u eta : R) (x y : R) : Prop := Rabs (y - x) <= u * Rabs x + eta.

(** how an inner product is computed: products, sums in any order, fused operations *)
Inductive dtree := TZero | TProd (i : nat) | TFma (i : nat) (t : dtree) | TAdd (a b : dtree).
Fixpoint leaves (t : dtree) : list nat :=
  match t with TZero => [] | TProd i => [i] | TFma i t => i :: leaves t | TAdd a b => leaves a ++ leaves b end.
Fixpoint depth (t : dtree) : nat :=
  match t with TZero => 0 | TProd _ => 1 | TFma _ t => S (depth t) | TAdd a b => S (Nat.max (depth a) (depth b)) end.
Fixpoint ops (t : dtree) : nat :=
  match t with TZero => 0 | TProd _ => 1 | TFma _ t => S (ops t) | TAdd a b => S (ops a + ops b) end.
Inductive dot_value (op : R -> R -> Prop) (x w : vec) : dtree -> R -> Prop :=
| dv_zero : dot_value op x w TZero 0
| dv_prod : forall i y, op (x i * w i) y -> dot_value op x w (TProd i) y
| dv_fma : forall i t a y, dot_value op x w t a -> op (x i * w i + a) y -> dot_value op x w (TFma i t) y
| dv_add : forall s t a b y, dot_value op x w s a -> dot_value op x w t b -> op (a + b) y -> dot_value op x w (TAdd s t) y.
(** one of the values of the inner product of the d first entries, by at most N operations, at most k on each path *)
Definition dot_computed (op : R -> R -> Prop) (d k N : nat) (x w : vec) (y : R) : Prop :=
  exists t, Permutation (leaves t) (seq 0 d) /\ (depth t <= k)%nat /\ (ops t <= N)%nat /\ dot_value op x w t y.
(** an inner product of d entries by any such order, and by the order T d *)
Definition any_order (op : R -> R -> Prop) (k N : nat) : nat -> vec -> vec -> R -> Prop := fun d => dot_computed op d k N.
Definition one_order (op : R -> R -> Prop) (T : nat -> dtree) : nat -> vec -> vec -> R -> Prop := fun d x w y => dot_value op x w (T d) y.
(** then the bias *)
Definition plus_bias (op : R -> R -> Prop) (bias : option vec) (j : nat) (s y : R) : Prop :=
  match bias with None => y = s | Some v => op (s + v j) y end.

(** error of a Dense layer computed with two inner products, for a sum of absolute values at most A *)
Definition float_error (u eta : R) (k N : nat) (A : R) : R :=
  ((1 + u) ^ (k + 2) - 1) * A + INR (2 * N + 2) * (1 + u) ^ (k + 2) * eta.

(** binary32, without its largest value: rounding to nearest even with 24 bits, smallest positive number 2^-149 *)
Definition rnd32 (x : R) : R := round radix2 (FLT_exp (-149) 24) ZnearestE x.
(** operations rounded by a function *)
Definition fop (rnd : R -> R) : R -> R -> Prop := fun x y => y = rnd x.
Definition op32 : R -> R -> Prop := fop rnd32.
Definition u32 : R := bpow radix2 (-24).
Definition eta32 : R := bpow radix2 (-150).
(** from the first entry to the last *)
Fixpoint left_right (d : nat) : dtree :=
  match d with O => TZero | S O => TProd 0 | S d' => TAdd (left_right d') (TProd d') end.
