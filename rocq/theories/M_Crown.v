(** Model of src/decomon/models/backward_cloning.py: the backward pass on a graph of layers. Definitions only.
    Nodes are numbered in the order in which get_input_nodes visits them (decreasing depth): the parents of a node have
    smaller numbers. The caches (backward_map, output_map, fuse_layer, merge_layers) only avoid building a layer or a
    tensor twice and are left out. *)
From Coq Require Import Reals List Arith Bool ZArith.
From Verif Require Import RLib Spec Spec_Layers Spec_Backward M_Core M_Utils M_MergeLayers M_Ops M_Layers M_Pool M_Backward.
Import ListNotations.
Local Open Scope R_scope.

(** what the backward pass uses of a node: numbers of neurons, call of its backward layer, and whether the operation is
    itself a keras Model *)
Record layer := mk_layer { ly_in : nat; ly_out : nat; ly_bwd : list tensor -> result bb; ly_model : bool }.
Definition graph := list (layer * list nat).

(** backward_cloning.py:82-215 crown_. [back]: backward_bounds ([None]: the empty list). For a Model the bounds
    received are passed under a name that crown_model does not know (backward_bounds instead of back_bounds), so they
    have no effect (lines 128-143) *)
Fixpoint crown (mode : fmode) (g : graph) (imap : list (list tensor)) (fz : bool) (fuel i : nat) (back : option bb) : result bb :=
  match fuel with
  | O => Err NotImplementedError
  | S fuel' =>
      match nth_error g i, nth_error imap i with
      | Some (L, parents), Some inputs =>
          B <- ly_bwd L inputs ;
          let B' := if ly_model L then B else match back with None => B | Some C => merge_bb (ly_out L) B C end in
          match parents with
          | [] => if fz then fuse mode (ly_in L) inputs B' else Ok B'
          | [p] => crown mode g imap fz fuel' p (Some B')
          | _ => Err NotImplementedError
          end
      | _, _ => Err KeyError
      end
  end.

(** lines 218-282 get_input_nodes; [fmap]: forward bounds already computed (forward_map) *)
Definition node_inputs (mode : fmode) (D : domain) (n : nat) (its : list tensor) (fmap : nat -> option (list tensor))
    (g : graph) (imap : list (list tensor)) (parents : list nat) : result (list tensor) :=
  match parents with
  | [] => Ok its
  | _ =>
      l <- mapR (fun p => match fmap p with
                          | Some ts => Ok ts
                          | None => B <- crown mode g imap true (S p) p None ; convert2backward mode D n its B
                          end) parents ;
      Ok (concat l)
  end.
Fixpoint get_input_nodes (mode : fmode) (D : domain) (n : nat) (its : list tensor) (fmap : nat -> option (list tensor))
    (g : graph) (todo : graph) (imap : list (list tensor)) : result (list (list tensor)) :=
  match todo with
  | [] => Ok imap
  | (_, ps) :: q =>
      ts <- node_inputs mode D n its fmap g imap ps ;
      get_input_nodes mode D n its fmap g q (imap ++ [ts])
  end.

(** lines 285-399 crown_model; [outs]: the output nodes *)
Definition crown_model (mode : fmode) (D : domain) (n : nat) (g : graph) (outs : list nat) (back : option bb)
    (fmap : nat -> option (list tensor)) (its : list tensor) : result (list (list tensor)) :=
  if (match back with Some _ => true | None => false end && (1 <? length outs)%nat)%bool then Err NotImplementedError else
  imap <- get_input_nodes mode D n its fmap g g [] ;
  mapR (fun o => B <- crown mode g imap true (S o) o back ; convert2backward mode D n its B) outs.
(** the same with fuse=False, one output *)
Definition crown_model_nofuse (mode : fmode) (D : domain) (n : nat) (g : graph) (out : nat) (its : list tensor) : result bb :=
  imap <- get_input_nodes mode D n its (fun _ => None) g g [] ;
  crown mode g imap false (S out) out None.

(** lines 39-63 get_disconnected_input *)
Definition get_disconnected_input (sp : spec) (ts : list tensor) : result (list tensor) :=
  r <- get_fullinputs sp true true ts ;
  let x := if get_affine (sp_mode sp) then (fun c => if Nat.eqb c 0 then f_lc r 0%nat else f_uc r 0%nat) else f_x r in
  let w := if get_affine (sp_mode sp) then id_mat else empty_tensor in
  let b := if get_affine (sp_mode sp) then vt zero_vec else empty_tensor in
  Ok (extract (sp_mode sp) false (mk_full x (f_uc r) w b (f_lc r) w b empty_tensor empty_tensor)).

(** lines 127-143: a node whose operation is a Model of graph [sub]; the inner backward pass uses a box *)
Definition nested (sp : spec) (m k : nat) (sub : graph) (out : nat) : layer :=
  mk_layer m k
    (fun ts => its <- get_disconnected_input sp ts ; crown_model_nofuse (sp_mode sp) Box m sub out its)
    true.

(** lines 448-452 convert_backward: a single back bound C is completed with zero biases *)
Definition back_of_matrix (C : mat) : bb := mk_bb C zero_vec C zero_vec.
