(** Rounding errors of the backward pass: how far relaxations computed in finite precision may be from the same operations
    on real numbers, and the resulting error of a network. Nothing in this file depends on the model files. *)
From Coq Require Import Reals List Arith Bool ZArith.
From Verif Require Import RLib Spec Spec_Layers Spec_Backward Spec_Network Spec_Near Spec_Rounding.
Import ListNotations.
Local Open Scope R_scope.

Definition bb_close (n m : nat) (d : R) (B B' : bb) : Prop :=
  entries_close n m d (bb_wu B) (bb_wu B') /\ (forall j, (j < m)%nat -> Rabs (bb_bu B' j - bb_bu B j) <= d) /\
  entries_close n m d (bb_wl B) (bb_wl B') /\ (forall j, (j < m)%nat -> Rabs (bb_bl B' j - bb_bl B j) <= d).

(** tensors of the input of the network: in interval mode they are the two corners of the box, copied *)
Definition inputs_close (mode : fmode) (n : nat) (d : R) (ts ts' : list tensor) : Prop :=
  match mode with IBP => close IBP n n 0 ts ts' | _ => close mode n n d ts ts' end.

(** every node of the network has at most W neurons, with values between -Y and Y on the domain *)
Definition nodes_within (S : vec -> Prop) (n : nat) (net : network) (v : nat -> vec -> vec) (W : nat) (Y : R) : Prop :=
  (n <= W)%nat /\ domain_within S n Y /\
  forall i, (i < length net)%nat -> (net_dim n net i <= W)%nat /\ forall y j, S y -> (j < net_dim n net i)%nat -> Rabs (v i y j) <= Y.

(** error of the crown methods, in units of epsilon + (error of one call) * (1 + W Y): [fst] is the part carried by the
    relaxations below a node, [snd] the part due to the products themselves; om: error of one call times W *)
Definition crown_step (om : R) (s : R * R) (nod : option nlayer * list nat) : R * R :=
  match fst nod with
  | None => s
  | Some L => (Rmax 1 (nl_gain L) * (fst s + snd s + 1) + 1 + om * fst s, snd s + 1 + om * fst s)
  end.
Definition crown_state (om : R) (net : network) : R * R := fold_left (crown_step om) net (2 + om, 2 + om).
Definition crown_error (om : R) (net : network) : R := fst (crown_state om net) + snd (crown_state om net) + 2.

(** product of the gains of the layers *)
Definition lip_of (net : network) : R := fold_left (fun c nod => match fst nod with Some L => Rmax 1 (nl_gain L) * c | None => c end) net 1.
