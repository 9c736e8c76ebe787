(** Model of get_AB and get_AB_finetune (models/models.py:131-163), exported as get_grid_params and get_grid_slope, and of
    the attributes they read on the layers of a converted model. Definitions only. *)
From Coq Require Import String Reals List Arith Bool.
From Verif Require Import RLib Spec Spec_Layers M_Core M_Utils M_MergeLayers M_Ops M_Layers M_Convert M_State M_Names.
Import ListNotations.
Local Open Scope string_scope.

(** a layer of a DecomonModel: its name; layer.layer.name and layer.rec (backward layers); the attributes grid_finetune
    and alpha_b_l, when they exist *)
Inductive gvar := GridA (r : nat) | GridB (r : nat) | Alpha (r : nat).
Record glayer := mk_glayer { gl_name : string; gl_back : option (string * nat); gl_grid : option (list gvar); gl_alpha : option gvar }.

(** len(name.split(sep)) > 1: sep occurs in name *)
Fixpoint occurs (sep s : string) : bool :=
  if String.prefix sep s then true else match s with EmptyString => false | String _ q => occurs sep q end.
(** f"{layer.layer.name}_{layer.rec}"; AttributeError on a layer without these attributes *)
Definition gl_key (l : glayer) : result string :=
  match gl_back l with Some (s, n) => Ok (add_count s n) | None => Err AttributeError end.
Definition dict_has {A} (d : list (string * A)) (k : string) : bool := existsb (fun e => String.eqb k (fst e)) d.
Definition attribute {A} (o : option A) : result A := match o with Some a => Ok a | None => Err AttributeError end.
(** models.py:137-144, 156-163 *)
Fixpoint grid_loop {A} (get : glayer -> option A) (layers : list glayer) (d : list (string * A)) : result (list (string * A)) :=
  match layers with
  | [] => Ok d
  | l :: q =>
      if occurs "backward_activation" (gl_name l) then
        k <- gl_key l ;
        if dict_has d k then grid_loop get q d else (v <- attribute (get l) ; grid_loop get q (d ++ [(k, v)])%list)
      else grid_loop get q d
  end.
(** models.py:131-144; [milp]: the domain is a GridDomain with opt_option milp *)
Definition get_AB (milp : bool) (layers : list glayer) : result (list (string * list gvar)) :=
  if milp then grid_loop gl_grid layers [] else Ok [].
(** models.py:147-163 *)
Definition get_AB_finetune (milp finetune : bool) (layers : list glayer) : result (list (string * gvar)) :=
  if milp then (if finetune then grid_loop gl_alpha layers [] else Ok []) else Ok [].

(** the attributes of a DecomonLayer: neither layer nor rec; of a backward layer b of the layer r (backward_layers.py:231-372,
    a GridDomain with milp; rec is 1, to_backward never sets it) *)
Definition decomon_glayer (h : heap) (r : nat) : glayer := mk_glayer (lo_name (h_obj h r)) None None None.
Definition backward_glayer (h : heap) (mode : fmode) (ft : bool) (r b : nat) : glayer :=
  let act := match lo_class (h_obj h r), lo_act (h_obj h r) with CActivation, AName s => Some s | _, _ => None end in
  mk_glayer (lo_name (h_obj h b)) (Some (lo_name (h_obj h r), 1))
    (match act with Some _ => Some (match mode with IBP => [] | _ => [GridA b; GridB b] end) | None => None end)
    (match act with Some s => if (ft && String.prefix "relu" s)%bool then Some (Alpha b) else None | None => None end).
(** the layers of the DecomonModel of clone_layers (M_Names), with these attributes *)
Definition clone_glayers (m : method) (mode : fmode) (ft : bool) (h : heap) (inputs ops : list nat) : result (list glayer) :=
  let st := preprocess_objs h ops in
  _ <- keras_model (ps_heap st) (inputs ++ ps_called st) ;
  let '(h1, fs) :=
    match m with
    | CROWN => (ps_heap st, [])
    | _ => let '(h1, called) := linear_end (ps_heap st) (ps_called st) in
           let fst_ := forward_objs h1 called in (ps_heap fst_, ps_called fst_)
    end in
  let '(h2, nodes, bs) :=
    match get_direction m with
    | FORWARD => (h1, [], [])
    | BACKWARD => let '(h2, called) := linear_end h1 (ps_called st) in
                  let '(h3, bs) := backward_objs h2 (inputs ++ called) in (h3, (inputs ++ called)%list, bs)
    end in
  _ <- keras_model h2 (fs ++ bs) ;
  Ok (map (decomon_glayer h2) fs ++ map (fun q => backward_glayer h2 mode ft (fst q) (snd q)) (combine nodes bs))%list.
