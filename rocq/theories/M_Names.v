(** Model of the layer objects of a converted model and of their names: to_decomon (layers/convert.py), to_backward
    (backward_layers/convert.py), forward_cloning.py, backward_cloning.py, models/convert.py. Definitions only. *)
From Coq Require Import String Reals List Arith Bool.
From Verif Require Import RLib Spec Spec_Layers M_Core M_Utils M_MergeLayers M_Ops M_Layers M_Convert M_State.
Import ListNotations.
Local Open Scope string_scope.

(** layers/convert.py:81-120: a new object, named after the layer *)
Definition new_decomon (h : heap) (r : nat) : heap * nat :=
  alloc h (mk_lobj (lo_name (h_obj h r) ++ "_decomon") (lo_class (h_obj h r)) (lo_act (h_obj h r))).
(** forward_cloning.py:203-217 at a node calling the layer r, with layer_fn = to_decomon *)
Definition decomon_node (st : pstate) (r : nat) : pstate :=
  let '(h, rs) := match ps_map st r with Some rs => (ps_heap st, rs) | None => let '(h1, a) := new_decomon (ps_heap st) r in (h1, [a]) end in
  let '(h', c) := rename_all h (ps_count st) rs in
  mk_pstate h' (upd (ps_map st) r (Some rs)) c (ps_called st ++ rs).
(** forward_cloning.py:93-137: [called]: the layers called by the nodes which are not inputs *)
Definition forward_objs (h : heap) (called : list nat) : pstate :=
  fold_left decomon_node called (mk_pstate h (fun _ => None) 0 []).

(** backward_layers/convert.py:17-46 *)
Definition new_backward (h : heap) (r : nat) : heap * nat :=
  alloc h (mk_lobj (lo_name (h_obj h r) ++ "_backward") (lo_class (h_obj h r)) (lo_act (h_obj h r))).
(** backward_cloning.py:66-79 retrieve_layer: backward_map has one entry for each node (joint), inputs included *)
Definition backward_node (st : heap * list nat) (r : nat) : heap * list nat :=
  let '(h, bs) := st in let '(h1, b) := new_backward h r in (h1, bs ++ [b])%list.
Definition backward_objs (h : heap) (nodes : list nat) : heap * list nat := fold_left backward_node nodes (h, []).

(** layers/utils.py:399-422: the layers of the model returned by softmax_to_linear *)
Definition linear_end (h : heap) (called : list nat) : heap * list nat :=
  match rev called with
  | [] => (h, called)
  | r :: q => let '(h1, r1) := softmax_to_linear h r in (h1, rev q ++ [r1])%list
  end.

(** models/convert.py:103-258: the layers of the DecomonModel, which is a keras.Model. The layers whose name Keras chooses
    (inputs, Convert2Mode, Fuse, MergeWithPrevious, Convert2BackwardMode, Lambda) are left out. *)
Definition clone_layers (m : method) (h : heap) (inputs ops : list nat) : result (list string) :=
  let st := preprocess_objs h ops in
  _ <- keras_model (ps_heap st) (inputs ++ ps_called st) ;
  let '(h1, fs) :=
    match m with
    | CROWN => (ps_heap st, [])
    | _ => let '(h1, called) := linear_end (ps_heap st) (ps_called st) in
           let fst_ := forward_objs h1 called in (ps_heap fst_, ps_called fst_)
    end in
  let '(h2, bs) :=
    match get_direction m with
    | FORWARD => (h1, [])
    | BACKWARD => let '(h2, called) := linear_end h1 (ps_called st) in backward_objs h2 (inputs ++ called)
    end in
  rs <- keras_model h2 (fs ++ bs) ;
  Ok (map (fun r => lo_name (h_obj h2 r)) rs).
