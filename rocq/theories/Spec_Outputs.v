(** Networks with several outputs. Nothing in this file depends on the model files. *)
From Coq Require Import List Arith.
From Verif Require Import Spec Spec_Convert Spec_Network.
Import ListNotations.

(** the nodes of the list are nodes of the network and every node serves to compute one of them *)
Definition outputs_of (net : network) (outs : list nat) : Prop :=
  (forall o, In o outs -> (o < length net)%nat) /\ forall j, (j < length net)%nat -> exists o, In o outs /\ leads_to (map snd net) o j.
(** o is the first output of the list at the end of a longest path of the network *)
Definition first_longest (net : network) (outs : list nat) (o : nat) : Prop :=
  exists before after, outs = before ++ o :: after /\ forall lv, longest_path (map snd net) lv ->
    deepest (map snd net) lv o /\ forall b, In b before -> ~ deepest (map snd net) lv b.
