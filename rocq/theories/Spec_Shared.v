(** Vocabulary of graphs whose layers may be called at several nodes. Nothing in this file depends on the model files. *)
From Coq Require Import List Arith Bool.
From Verif Require Import Spec_Convert.
Import ListNotations.

(** [ht i]: length of the longest path from node i to a node without child *)
Definition height (pss : list (list nat)) (ht : nat -> nat) : Prop :=
  forall i, (i < length pss)%nat ->
    (forall j ps, nth_error pss j = Some ps -> In i ps -> (ht j < ht i)%nat) /\
    (ht i = O \/ exists j ps, nth_error pss j = Some ps /\ In i ps /\ ht i = S (ht j)).

(** [ids]: the layer called by each node. Of two calls of a layer, the later is not further from the end *)
Definition in_order (ids : list nat) (ht : nat -> nat) : Prop :=
  forall i j a, (i < j)%nat -> nth_error ids i = Some a -> nth_error ids j = Some a -> (ht j <= ht i)%nat.

(** no other node at the end of a longest path calls the layer of an output *)
Definition outputs_apart (pss : list (list nat)) (ids : list nat) (lv : nat -> nat) (outs : list nat) : Prop :=
  forall o i a, In o outs -> deepest pss lv i -> nth_error ids o = Some a -> nth_error ids i = Some a -> i = o.

(** a sequential model: each node is called on the previous one *)
Definition is_chain (pss : list (list nat)) : Prop :=
  forall i ps, nth_error pss i = Some ps -> ps = match i with O => [] | S k => [k] end.
