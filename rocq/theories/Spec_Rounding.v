(** Rounding errors: how far the tensors computed in finite precision may be from the same operations on real numbers.
    Nothing in this file depends on the model files. *)
From Coq Require Import Reals List Arith Bool ZArith.
From Verif Require Import RLib Spec Spec_Layers Spec_Network Spec_Near.
Import ListNotations.
Local Open Scope R_scope.

Definition entries_close (n m : nat) (d : R) (t t' : tensor) : Prop :=
  forall i j, (i < n)%nat -> (j < m)%nat -> Rabs (t' i j - t i j) <= d.

(** [ts'] has the entries of [ts] up to d; the first tensor x, which every layer returns as it received it, is the same *)
Definition close (mode : fmode) (n m : nat) (d : R) (ts ts' : list tensor) : Prop :=
  match mode, ts, ts' with
  | IBP, [u; l], [u'; l'] => entries_close 1 m d u u' /\ entries_close 1 m d l l'
  | AFFINE, [x; wu; bu; wl; bl], [x'; wu'; bu'; wl'; bl'] =>
      (forall k i, x' k i = x k i) /\
      entries_close n m d wu wu' /\ entries_close 1 m d bu bu' /\ entries_close n m d wl wl' /\ entries_close 1 m d bl bl'
  | HYBRID, [x; u; wu; bu; l; wl; bl], [x'; u'; wu'; bu'; l'; wl'; bl'] =>
      (forall k i, x' k i = x k i) /\ entries_close 1 m d u u' /\ entries_close 1 m d l l' /\
      entries_close n m d wu wu' /\ entries_close 1 m d bu bu' /\ entries_close n m d wl wl' /\ entries_close 1 m d bl bl'
  | _, _, _ => False
  end.

(** how far an error on every entry moves the bounds, for inputs of the network between -X and X *)
Definition reach (mode : fmode) (n : nat) (X : R) : R :=
  match mode with IBP => 1 | _ => 1 + INR n * X end.
Definition domain_within (S : vec -> Prop) (n : nat) (X : R) : Prop :=
  forall y i, S y -> (i < n)%nat -> Rabs (y i) <= X.

(** error of a network in units of the error made at each layer and on its input *)
Definition net_error (net : network) : R :=
  fold_left (fun K nod => match fst nod with None => K | Some L => Rmax 1 (nl_gain L) * (K + 1) end) net 1.

(** the network itself evaluated with an error d at each layer, on the input y *)
Definition rounded_values (net : network) (d : R) (y : vec) (a : nat -> vec) : Prop :=
  forall i q ps, nth_error net i = Some (q, ps) ->
    match q with
    | None => forall j, a i j = y j
    | Some L => exists r, computes L (map a ps) r /\ forall j, (j < nl_out L)%nat -> Rabs (a i j - r j) <= d
    end.
