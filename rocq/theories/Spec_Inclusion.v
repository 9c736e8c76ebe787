(** Bounds inside other bounds. *)
From Coq Require Import Reals List Arith Bool.
From Verif Require Import RLib Spec Spec_Layers Spec_Convert Spec_Wrapper Spec_Network.
Import ListNotations.
Local Open Scope R_scope.

(** the constant bounds (upper, lower) of a tuple of bounds *)
Definition const_bounds (mode : fmode) (ts : list mat) : option (vec * vec) :=
  match mode, ts with
  | IBP, [u; l] => Some (u 0%nat, l 0%nat)
  | HYBRID, [_; u; _; _; l; _; _] => Some (u 0%nat, l 0%nat)
  | _, _ => None
  end.

(** the constant bounds of ts are inside the constant bounds of ts', for the first m neurons *)
Definition inside (mode mode' : fmode) (m : nat) (ts ts' : list mat) : Prop :=
  exists U L U' L', const_bounds mode ts = Some (U, L) /\ const_bounds mode' ts' = Some (U', L') /\
    forall j, (j < m)%nat -> L' j <= L j /\ U j <= U' j.

(** the box p is inside the box q *)
Definition box_in (n : nat) (p q : list R * list R) : Prop :=
  forall i, (i < n)%nat -> lvec (fst q) i <= lvec (fst p) i /\ lvec (snd p) i <= lvec (snd q) i.

(** layers that multiply their inputs *)
Definition product_layer (L : nlayer) : Prop :=
  match L with NMultiply _ _ | NDot _ _ _ _ _ _ _ => True | _ => False end.
Definition pooling_layer (L : nlayer) : Prop :=
  match L with NMaxPool _ => True | _ => False end.
