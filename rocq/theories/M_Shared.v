(** Models whose layers are called at several nodes. forward_cloning.py:203-216: a layer already met keeps its converted
    layer; backward_cloning.py:82-215: one backward layer per node. The operation of a node then matters only through its
    depth (utils.py:229-272) and the choice of the outputs (forward_cloning.py:219-226, backward_cloning.py:358-367).
    Definitions only. *)
From Coq Require Import Reals List Arith Bool.
From Verif Require Import RLib Spec Spec_Network M_Core M_MergeLayers M_Crown M_Convert M_Network M_Clone.
Import ListNotations.

(** the graph whose nodes call the layers [ids] (node.operation, forward_cloning.py:171) *)
Definition relabel {A} (ids : list nat) (g : fgraph A) : fgraph A :=
  map (fun q => mk_fnode (fst q) (fn_kind (snd q)) (fn_parents (snd q))) (combine ids g).

(** convert.py:104-167 as in M_Clone.converted, node i calling the layer number [nth i ids] *)
Definition converted_shared (ids : list nat) (ke : R) (D : domain) (m : method) (mode final : fmode) (fwd : nat -> lopts) (bwd : nat -> bopts)
    (n : nat) (net : network) (o : nat) (z : tensor) : result (list tensor) :=
  let sp := mk_spec false mode D n in
  match get_direction m with
  | FORWARD => clone_forward D n mode final (relabel ids (decomon_net ke sp fwd net)) [o] z
  | BACKWARD =>
      clone_backward D n mode final (match m with CROWN => None | _ => Some (relabel ids (decomon_net ke sp fwd net)) end)
        ids (backward_net ke sp bwd n net) [o] None z
  end.
