(** Specification vocabulary: the API data types of decomon, the set of points a
    perturbation domain denotes, and what it means for a list of tensors to be
    valid bounds of a function on a set of points. Nothing in this file depends on
    the model files. *)
From Coq Require Import Reals List Arith Bool ZArith.
From Verif Require Import RLib.
Import ListNotations.
Local Open Scope R_scope.

(** ** API data types *)

(** src/decomon/core.py:114-125 ForwardMode *)
Inductive fmode := IBP | AFFINE | HYBRID.

(** src/decomon/core.py:17-22 Slope *)
Inductive slope := V_SLOPE | A_SLOPE | S_SLOPE | Z_SLOPE | O_SLOPE.

(** order p of a norm: a positive integer or np.inf (src/decomon/core.py:86-93) *)
Inductive pord := Pnum (k : nat) | Pinf.

(** src/decomon/core.py:59-112 BoxDomain() and BallDomain(eps, p) *)
Inductive domain := Box | Ball (eps : R) (p : pord).

(** A tensor for one sample: two indices. Vectors (b, u_c, l_c, h, g) use row 0;
    weights use (input coordinate, neuron); x uses (component, input coordinate). *)
Definition tensor := mat.

(** ** Points of a domain *)

Definition in_box (n : nat) (a b z : vec) : Prop :=
  forall i, (i < n)%nat -> a i <= z i <= b i.

(** p-ball without roots: sum |z-c|^p <= eps^p, or max |z-c| <= eps. *)
Definition in_ball (n : nat) (p : pord) (eps : R) (c z : vec) : Prop :=
  match p with
  | Pinf => forall i, (i < n)%nat -> Rabs (z i - c i) <= eps
  | Pnum k => 0 <= eps /\ rsum n (fun i => Rabs (z i - c i) ^ k) <= eps ^ k
  end.

(** The set denoted by the tensor [x] of a domain: for a box, x[0] and x[1] are the
    two extreme corners; for a ball x[0] is the centre. *)
Definition in_dom (D : domain) (n : nat) (x : tensor) (z : vec) : Prop :=
  match D with
  | Box => in_box n (x 0%nat) (x 1%nat) z
  | Ball eps p => in_ball n p eps (x 0%nat) z
  end.

(** norms for which the library has a closed form *)
Definition norm_ok (D : domain) : Prop :=
  match D with
  | Box | Ball _ Pinf | Ball _ (Pnum 1) | Ball _ (Pnum 2) => True
  | _ => False
  end.

(** ** Affine functions and extrema *)

(** value at z of the affine function of neuron j *)
Definition aff (n : nat) (w : mat) (b : vec) (z : vec) (j : nat) : R :=
  dot n (fun i => w i j) z + b j.

(** [M] is the maximum of [g] on the set [A] *)
Definition is_max (A : vec -> Prop) (g : vec -> R) (M : R) : Prop :=
  (forall z, A z -> g z <= M) /\ (exists z, A z /\ g z = M).
Definition is_min (A : vec -> Prop) (g : vec -> R) (M : R) : Prop :=
  (forall z, A z -> M <= g z) /\ (exists z, A z /\ g z = M).

(** ** Valid bounds of a function f : points -> neurons on a set S of points *)

Definition const_ok (S : vec -> Prop) (m : nat) (f : vec -> vec) (u l : vec) : Prop :=
  forall z j, S z -> (j < m)%nat -> l j <= f z j <= u j.

Definition affine_ok (S : vec -> Prop) (n m : nat) (f : vec -> vec)
    (wu : mat) (bu : vec) (wl : mat) (bl : vec) : Prop :=
  forall z j, S z -> (j < m)%nat -> aff n wl bl z j <= f z j <= aff n wu bu z j.

(** number of tensors exchanged between layers *)
Definition spec_nb (mode : fmode) (dc : bool) : nat :=
  (match mode with HYBRID => 7 | AFFINE => 5 | IBP => 2 end + (if dc then 2 else 0))%nat.

(** A list of tensors in the layout of [mode] that encloses [f] on [S], where [S] is
    included in the domain described by the tensor x (when there is one). *)
Definition valid (D : domain) (mode : fmode) (dc : bool)
    (S : vec -> Prop) (n m : nat) (f : vec -> vec) (ts : list tensor) : Prop :=
  length ts = spec_nb mode dc /\
  match mode, ts with
  | IBP, u :: l :: _ => const_ok S m f (u 0%nat) (l 0%nat)
  | AFFINE, x :: wu :: bu :: wl :: bl :: _ =>
      (forall z, S z -> in_dom D n x z) /\
      affine_ok S n m f wu (bu 0%nat) wl (bl 0%nat)
  | HYBRID, x :: u :: wu :: bu :: l :: wl :: bl :: _ =>
      (forall z, S z -> in_dom D n x z) /\
      const_ok S m f (u 0%nat) (l 0%nat) /\
      affine_ok S n m f wu (bu 0%nat) wl (bl 0%nat)
  | _, _ => False
  end.

(** domain requirement: affine computations on a ball need a supported norm *)
Definition dom_ok (D : domain) (mode : fmode) : Prop :=
  match mode with IBP => True | _ => norm_ok D end.

(** ** Linear hulls of scalar activations *)

(** the pre-activation interval [l,u] does not straddle 0, or is at least [ke] wide *)
Definition gap_free (ke u l : R) : Prop := u <= 0 \/ 0 <= l \/ ke <= u - l.

(** an optional coefficient vector with entries in [0,1] *)
Definition ft_ok (m : nat) (ft : option vec) : Prop :=
  match ft with None => True | Some g => forall j, (j < m)%nat -> 0 <= g j <= 1 end.

(** ** Merge of several functions of the input *)

(** the list of values of the functions [fs] at point z, neuron j *)
Definition vals (fs : list (vec -> vec)) (z : vec) (j : nat) : list R := map (fun f => f z j) fs.
Definition sum_list (l : list R) : R := fold_right Rplus 0 l.
(** maximum / minimum of a non-empty list given by head and tail *)
Definition max_list (a : R) (l : list R) : R := fold_left Rmax l a.
Definition min_list (a : R) (l : list R) : R := fold_left Rmin l a.

(** the same bounds with the affine upper bound raised by d *)
Definition loosen (mode : fmode) (d : R) (ts : list tensor) : list tensor :=
  match mode, ts with
  | AFFINE, x :: wu :: bu :: q => x :: wu :: (fun i j => bu i j + d) :: q
  | HYBRID, x :: u :: wu :: bu :: q => x :: u :: wu :: (fun i j => bu i j + d) :: q
  | _, _ => ts
  end.

(** ** Row-major multi-dimensional indices *)

Fixpoint prodn (s : list nat) : nat := match s with [] => 1 | k :: q => k * prodn q end.

(** flat (row-major) position of a multi-index in a block of shape s *)
Fixpoint ravel (s ix : list nat) : nat :=
  match s, ix with
  | k :: s', i :: ix' => (i * prodn s' + ravel s' ix')%nat
  | _, _ => O
  end.

(** the multi-index of a flat position *)
Fixpoint unravel (s : list nat) (q : nat) : list nat :=
  match s with [] => [] | _ :: s' => (q / prodn s')%nat :: unravel s' (q mod prodn s') end.

(** a multi-index within the bounds of the shape *)
Definition in_shape (s ix : list nat) : Prop := Forall2 (fun k i => (i < k)%nat) s ix.

(** the a-th values along one axis of length k, inner blocks of size [inner]: flat position *)
Definition flat (k inner o a i : nat) : nat := ((o * k + a) * inner + i)%nat.

(** [g] is the reduction [red] of [f] along the axis of length k between the axes pre and post *)
Definition along_axis (red : nat -> (nat -> R) -> R) (pre : list nat) (k : nat) (post : list nat)
    (f g : vec -> vec) : Prop :=
  forall z p q, in_shape pre p -> in_shape post q ->
    g z (ravel (pre ++ post) (p ++ q)) = red k (fun c => f z (ravel (pre ++ k :: post) (p ++ c :: q))).

(** the line of values along that axis *)
Definition line (f : vec -> vec) (pre : list nat) (k : nat) (post : list nat) (z : vec) (p q : list nat) : list R :=
  map (fun c => f z (ravel (pre ++ k :: post) (p ++ c :: q))) (seq 0 k).

(** positive Python axis (batch axis included) of the axis between pre and post *)
Definition pos_axis (pre : list nat) : Z := Z.of_nat (S (length pre)).
(** negative Python axis *)
Definition neg_axis (post : list nat) : Z := (-1 - Z.of_nat (length post))%Z.

(** the interval is reduced to a point or at least ke wide *)
Definition wide (ke u l : R) : Prop := u = l \/ ke <= u - l.
