(** metrics/complexity.py. Definitions only. *)
From Coq Require Import List Arith Bool.
From Verif Require Import Spec_Complexity M_Convert.
Import ListNotations.

(** model._nodes_by_depth[k] *)
Definition at_depth {A} (g : fgraph A) (k : nat) : list nat := filter (fun i => Nat.eqb (kdepths g i) k) (seq 0 (length g)).
(** complexity.py:5-20 get_graph_complexity; cls: the class of each operation, as isinstance tells it; depth_keys in
    decreasing order *)
Definition get_graph_complexity {A} (cls : nat -> opclass) (g : fgraph A) : nat :=
  fold_left (fun nb k =>
      fold_left (fun nb i =>
          match nth_error g i with
          | Some nod => match cls (fn_op nod) with OpInput | OpLambda => nb | OpOther => S nb end
          | None => nb
          end) (at_depth g k) nb)
    (rev (seq 0 (S (max_kdepth g)))) 0.
