(** Interval mode of Maximum, Minimum and Multiply in floating-point arithmetic. Definitions only. [op x y]: y is a result
    of the operation of exact result x. The bounds of one neuron are a pair (upper, lower). *)
From Coq Require Import Reals List Arith Bool.
From Verif Require Import RLib Spec Spec_Float Spec_FloatMerge M_Core M_Utils M_MergeLayers M_Ops M_Float.
Import ListNotations.
Local Open Scope R_scope.

Definition neuron (ts : list tensor) (j : nat) : R * R := (nth 0 ts empty_tensor 0%nat j, nth 1 ts empty_tensor 0%nat j).

(** utils.py:404-440 minus: a negation does not round *)
Definition fl_minus (a : R * R) : R * R := (- snd a, - fst a).
(** utils.py:295-340 add *)
Definition fl_add (op : R -> R -> Prop) (a b c : R * R) : Prop := op (fst a + fst b) (fst c) /\ op (snd a + snd b) (snd c).
(** utils.py:268-292 subtract *)
Definition fl_sub (op : R -> R -> Prop) (a b c : R * R) : Prop := fl_add op a (fl_minus b) c.
(** utils.py:379-381 relu_: K.relu does not round *)
Definition fl_relu (a : R * R) : R * R := (Rmax 0 (fst a), Rmax 0 (snd a)).
(** utils.py:443-481 maximum *)
Definition fl_maximum (op : R -> R -> Prop) (a b c : R * R) : Prop := exists d, fl_sub op b a d /\ fl_add op (fl_relu d) a c.

(** layers/utils.py:477: K.maximum(p, q) + K.maximum(q, r) - q on the rounded products p, q, r; line 480 with K.minimum *)
Definition fl_mccormick (op : R -> R -> Prop) (m : R -> R -> R) (p q q' r q'' y : R) : Prop :=
  exists s, op (m p q + m q' r) s /\ op (s - q'') y.
(** layers/utils.py:476-480 multiply *)
Definition fl_multiply (op : R -> R -> Prop) (a b c : R * R) : Prop :=
  let u0 := fst a in let l0 := snd a in let u1 := fst b in let l1 := snd b in
  exists uu ul lu ll U0 U1,
    op (u0 * u1) uu /\ op (u0 * l1) ul /\ op (l0 * u1) lu /\ op (l0 * l1) ll /\
    fl_mccormick op Rmax uu ul ul ll ul U0 /\ fl_mccormick op Rmax uu lu lu ll lu U1 /\
    fst c = Rmin U0 U1 /\ fl_mccormick op Rmin ll lu ll ul ll (snd c).

(** decomon_merge_layers.py:382-398 and 521-537: the operator on the first two inputs, then on its output and each other
    input; tr: the successive outputs *)
Fixpoint fl_chain (f : R * R -> R * R -> R * R -> Prop) (a : R * R) (l tr : list (R * R)) : Prop :=
  match l, tr with
  | [], [] => True
  | b :: q, c :: tr' => f a b c /\ fl_chain f c q tr'
  | _, _ => False
  end.
Definition fl_fold (f : R * R -> R * R -> R * R -> Prop) (l tr : list (R * R)) (y : R * R) : Prop :=
  match l with [] => False | a :: q => fl_chain f a q tr /\ y = last tr a end.

(** DecomonMaximum.call (371-398), DecomonMinimum.call (308-340) and DecomonMultiply.call (510-537) on m neurons *)
Definition float_maximum (op : R -> R -> Prop) (m : nat) (tss : list (list tensor)) (tr : nat -> list (R * R)) (ts' : list tensor) : Prop :=
  length ts' = 2%nat /\ forall j, (j < m)%nat -> fl_fold (fl_maximum op) (map (fun ts => neuron ts j) tss) (tr j) (neuron ts' j).
Definition float_minimum (op : R -> R -> Prop) (m : nat) (tss : list (list tensor)) (tr : nat -> list (R * R)) (ts' : list tensor) : Prop :=
  length ts' = 2%nat /\ forall j, (j < m)%nat -> fl_fold (fl_maximum op) (map (fun ts => fl_minus (neuron ts j)) tss) (tr j) (fl_minus (neuron ts' j)).
Definition float_multiply (op : R -> R -> Prop) (m : nat) (tss : list (list tensor)) (tr : nat -> list (R * R)) (ts' : list tensor) : Prop :=
  length ts' = 2%nat /\ forall j, (j < m)%nat -> fl_fold (fl_multiply op) (map (fun ts => neuron ts j) tss) (tr j) (neuron ts' j).

(** Multiply of Keras: the product of the first two inputs, then by each other input. Maximum and Minimum of Keras do not round *)
Fixpoint fl_product (op : R -> R -> Prop) (s : R) (l : list R) (y : R) : Prop :=
  match l with [] => y = s | x :: q => exists t, op (s * x) t /\ fl_product op t q y end.

(** the numbers computed by a layer, its inputs included, are at most A *)
Definition sized (A : R) (m : nat) (tss : list (list tensor)) (tr : nat -> list (R * R)) : Prop :=
  forall j, (j < m)%nat -> Forall (at_most A) (map (fun ts => neuron ts j) tss) /\ Forall (at_most A) (tr j).

(** bounds of a neuron, for the examples *)
Definition cst (u l : R) : list tensor := [(fun _ _ => u); (fun _ _ => l)].
