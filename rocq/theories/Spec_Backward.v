(** What backward (LiRPA) bounds mean. Nothing in this file depends on the model files. *)
From Coq Require Import Reals List Arith Bool ZArith.
From Verif Require Import RLib Spec Spec_Layers.
Import ListNotations.
Local Open Scope R_scope.

(** the four tensors [w_u, b_u, w_l, b_l] exchanged by the backward layers *)
Record bb := mk_bb { bb_wu : mat; bb_bu : vec; bb_wl : mat; bb_bl : vec }.

(** [B] encloses f : R^n -> R^m between two affine functions on the set Y *)
Definition relaxes (Y : vec -> Prop) (n m : nat) (f : vec -> vec) (B : bb) : Prop :=
  affine_ok Y n m f (bb_wu B) (bb_bu B) (bb_wl B) (bb_bl B).

(** both affine functions are f, everywhere *)
Definition is_map (n m : nat) (f : vec -> vec) (B : bb) : Prop :=
  forall y j, (j < m)%nat ->
    aff n (bb_wu B) (bb_bu B) y j = f y j /\ aff n (bb_wl B) (bb_bl B) y j = f y j.

(** the values taken by g on S *)
Definition image (S : vec -> Prop) (g : vec -> vec) : vec -> Prop := fun y => exists z, S z /\ y = g z.

(** keras.layers.Permute on a block of shape s: entry [permuted perm p] of the output is entry p of the input *)
Definition is_permute (s perm : list nat) (f : vec -> vec) : Prop :=
  forall y p, in_shape s p -> f y (ravel (permuted perm s) (permuted perm p)) = y (ravel s p).

(** keras.layers.Flatten with data_format = "channels_first" on a block (ch, n): the channels are moved last *)
Definition is_flatten_cf (ch n : nat) (f : vec -> vec) : Prop :=
  forall y c q, (c < ch)%nat -> (q < n)%nat -> f y (q * ch + c)%nat = y (c * n + q)%nat.

(** Binary merge: [out] bounds what follows the merged value (m neurons, k outputs); [B] is affine in one operand
    [fi] alone and encloses [out] of the merged value *)
Definition operand_ok (S : vec -> Prop) (m k : nat) (fi : vec -> vec) (merged : vec -> vec) (out B : bb) : Prop :=
  forall z j, S z -> (j < k)%nat ->
    aff m (bb_wl B) (bb_bl B) (fi z) j <= aff m (bb_wl out) (bb_bl out) (merged z) j /\
    aff m (bb_wu out) (bb_bu out) (merged z) j <= aff m (bb_wu B) (bb_bu B) (fi z) j.

(** Unary operation [op] from mi to m neurons followed by [out]: [B] encloses the composition on Y *)
Definition follows (Y : vec -> Prop) (mi m k : nat) (op : vec -> vec) (out B : bb) : Prop :=
  forall y j, Y y -> (j < k)%nat ->
    aff mi (bb_wl B) (bb_bl B) y j <= aff m (bb_wl out) (bb_bl out) (op y) j /\
    aff m (bb_wu out) (bb_bu out) (op y) j <= aff mi (bb_wu B) (bb_bu B) y j.

(** Values of the nodes of a network: [ops] gives for each node its function and its parents; a node without parent
    reads the input *)
Definition network_value (ops : list ((list vec -> vec) * list nat)) (v : nat -> vec -> vec) : Prop :=
  forall y i f ps, nth_error ops i = Some (f, ps) ->
    v i y = f (match ps with [] => [y] | _ => map (fun p => v p y) ps end).
