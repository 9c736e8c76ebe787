(** Vocabulary of the conversion of models. Nothing in this file depends on the model files. *)
From Coq Require Import Reals List Arith Bool ZArith.
From Verif Require Import RLib Spec Spec_Layers Spec_Backward.
Import ListNotations.

(** A graph is given by the list of the parents of its nodes; parents come first *)
Definition acyclic (pss : list (list nat)) : Prop :=
  forall i ps p, nth_error pss i = Some ps -> In p ps -> (p < i)%nat.

(** [lv i]: length of the longest path from a node without parent to node i *)
Definition longest_path (pss : list (list nat)) (lv : nat -> nat) : Prop :=
  forall i ps, nth_error pss i = Some ps ->
    match ps with
    | [] => lv i = O
    | _ => (forall p, In p ps -> (lv p < lv i)%nat) /\ (exists p, In p ps /\ lv i = S (lv p))
    end.

(** node i is at the end of a longest path of the graph *)
Definition deepest (pss : list (list nat)) (lv : nat -> nat) (i : nat) : Prop :=
  (i < length pss)%nat /\ forall j, (j < length pss)%nat -> (lv j <= lv i)%nat.

Local Open Scope R_scope.
(** the best constant bound implied by an affine bound over the domain, and by a previous constant bound *)
Definition best_upper (D : domain) (n : nat) (x w b : tensor) (old : option tensor) (u : tensor) : Prop :=
  forall j, exists M, is_max (in_dom D n x) (fun z => aff n w (b 0%nat) z j) M /\
    u 0%nat j = match old with Some o => Rmin (o 0%nat j) M | None => M end.
Definition best_lower (D : domain) (n : nat) (x w b : tensor) (old : option tensor) (l : tensor) : Prop :=
  forall j, exists M, is_min (in_dom D n x) (fun z => aff n w (b 0%nat) z j) M /\
    l 0%nat j = match old with Some o => Rmax (o 0%nat j) M | None => M end.
