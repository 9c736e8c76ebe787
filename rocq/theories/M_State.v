(** Model of the stateful parts: layer objects touched by clone (models/convert.py, forward_cloning.py, models/utils.py,
    layers/utils.py), name tables (layers/convert.py, backward_layers/convert.py, activations.py), freezing
    (decomon_layers.py, backward_layers.py, models.py), set_domain (models.py), weights (keras_utils.py).
    Definitions only. *)
From Coq Require Import String Ascii Reals List Arith Bool ZArith DecimalString.
From Verif Require Import RLib Spec Spec_Layers M_Core M_Utils M_MergeLayers M_Ops M_Layers M_Convert.
Import ListNotations.
Local Open Scope string_scope.

(** ** Layer objects. A reference is a number; [lo_act] is the entry "activation" of get_config(): absent or None, a
    name, or the configuration (dict) of another layer object, held in layer.activation *)
Inductive kclass := CInput | CActivation | CSoftmax | COther (c : nat).
Inductive kact := ANone | AName (s : string) | ALayer (r : nat).
Record lobj := mk_lobj { lo_name : string; lo_class : kclass; lo_act : kact }.
Record heap := mk_heap { h_obj : nat -> lobj; h_next : nat }.
Definition set_obj (h : heap) (r : nat) (o : lobj) : heap := mk_heap (upd (h_obj h) r o) (h_next h).
Definition alloc (h : heap) (o : lobj) : heap * nat := (mk_heap (upd (h_obj h) (h_next h) o) (S (h_next h)), h_next h).
Definition rename (h : heap) (r : nat) (s : string) : heap :=
  set_obj h r (mk_lobj s (lo_class (h_obj h r)) (lo_act (h_obj h r))).
Definition is_activation_class (c : kclass) : bool := match c with CActivation => true | _ => false end.

(** models/utils.py:187-218 split_activation: the layers returned are [layer] itself, or fresh objects (and, for a
    dict, the user's own activation layer, renamed) *)
Definition split_obj (h : heap) (r : nat) : heap * list nat :=
  let o := h_obj h r in
  let kept := (h, [r]) in
  if is_activation_class (lo_class o) then kept else
  match lo_act o with
  | ANone => kept
  | AName s =>
      if String.eqb s "linear" then kept else
      let '(h1, a) := alloc h (mk_lobj (lo_name o ++ "_wo_activation") (lo_class o) (AName "linear")) in
      let '(h2, b) := alloc h1 (mk_lobj (lo_name o ++ "_activation") CActivation (AName s)) in
      (h2, [a; b])
  | ALayer b =>
      let '(h1, a) := alloc h (mk_lobj (lo_name o ++ "_wo_activation") (lo_class o) (AName "linear")) in
      (rename h1 b (lo_name o ++ "_activation_" ++ lo_name (h_obj h1 b)), [a; b])
  end.

(** f"{converted_layer.name}_{count}" *)
Definition string_of_nat (n : nat) : string := NilZero.string_of_uint (Nat.to_uint n).
Definition add_count (s : string) (count : nat) : string := s ++ "_" ++ string_of_nat count.
(** forward_cloning.py:205-207: each converted layer is renamed, in order *)
Fixpoint rename_all (h : heap) (count : nat) (rs : list nat) : heap * nat :=
  match rs with
  | [] => (h, count)
  | r :: q => rename_all (rename h r (add_count (lo_name (h_obj h r)) count)) (S count) q
  end.
(** forward_cloning.py:199-211 at a node calling the layer r: layer2layer_map, renaming; [called]: the layers of the
    rewritten model, in the order of their calls *)
Record pstate := mk_pstate { ps_heap : heap; ps_map : nat -> option (list nat); ps_count : nat; ps_called : list nat }.
Definition split_node (st : pstate) (r : nat) : pstate :=
  let '(h, rs) := match ps_map st r with Some rs => (ps_heap st, rs) | None => split_obj (ps_heap st) r end in
  let '(h', c) := rename_all h (ps_count st) rs in
  mk_pstate h' (upd (ps_map st) r (Some rs)) c (ps_called st ++ rs).
(** convert.py:35-65 on a model whose nodes, inputs excepted (already in output_map), call the layers [ops] in the order
    of the conversion; no nested model *)
Definition preprocess_objs (h : heap) (ops : list nat) : pstate :=
  fold_left split_node ops (mk_pstate h (fun _ => None) 0 []).

(** layers/utils.py:399-422 softmax_to_linear on the last layer of the model; returns the layer it ends with *)
Definition softmax_to_linear (h : heap) (r : nat) : heap * nat :=
  let o := h_obj h r in
  match lo_class o with
  | CSoftmax => alloc h (mk_lobj "activation" CActivation (AName "linear"))
  | _ => match lo_act o with
         | AName s => if String.eqb s "softmax" then (set_obj h r (mk_lobj (lo_name o) (lo_class o) (AName "linear")), r) else (h, r)
         | _ => (h, r)
         end
  end.
(** layers/utils.py:425-427 *)
Definition linear_to_softmax (h : heap) (r : nat) : heap :=
  set_obj h r (mk_lobj (lo_name (h_obj h r)) (lo_class (h_obj h r)) (AName "softmax")).

(** keras.Model: the names of the layers must be distinct *)
Fixpoint distinct (l : list string) : bool :=
  match l with [] => true | s :: q => (negb (existsb (String.eqb s) q) && distinct q)%bool end.
Fixpoint dedup (l : list nat) : list nat :=
  match l with [] => [] | r :: q => if existsb (Nat.eqb r) q then dedup q else r :: dedup q end.
Definition keras_model (h : heap) (rs : list nat) : result (list nat) :=
  if distinct (map (fun r => lo_name (h_obj h r)) (dedup rs)) then Ok rs else Err ValueError.

(** convert.py:170-258: the effect of clone on the objects: [inputs] the input layers; the last layer of the rewritten
    model is taken to be the last one called. The decomon layers created afterwards are new objects. *)
Definition clone_objs (h : heap) (inputs ops : list nat) : result heap :=
  let st := preprocess_objs h ops in
  _ <- keras_model (ps_heap st) (inputs ++ ps_called st) ;
  match rev (ps_called st) with
  | [] => Ok (ps_heap st)
  | r :: _ => Ok (fst (softmax_to_linear (ps_heap st) r))
  end.

(** The user's model called on its own objects: [core]: what a layer computes before its activation, [act]: the
    activation functions *)
Section Eval.
  Variable V : Type.
  Variable core : kclass -> V -> V.
  Variable act : string -> V -> V.
  Definition act_of (h : heap) (a : kact) (y : V) : V :=
    match a with
    | ANone => y
    | AName s => act s y
    | ALayer b =>
        let y := core (lo_class (h_obj h b)) y in
        match lo_act (h_obj h b) with AName s => act s y | _ => y end
    end.
  Definition call_obj (h : heap) (r : nat) (y : V) : V := act_of h (lo_act (h_obj h r)) (core (lo_class (h_obj h r)) y).
  (** a sequence of layers *)
  Definition call_model (h : heap) (ops : list nat) (x : V) : V := fold_left (fun y r => call_obj h r y) ops x.
End Eval.

(** ** Names. layers/convert.py:14-19 and backward_layers/convert.py:12-14: the classes found in the modules, without the
    prefix Decomon or Backward *)
Definition decomon_names : list string :=
  ["Conv2D"; "Dense"; "Activation"; "Flatten"; "BatchNormalization"; "Dropout"; "InputLayer"; "Layer"; "Merge"; "Add";
   "Average"; "Subtract"; "Minimum"; "Maximum"; "Concatenate"; "Multiply"; "Dot"; "Reshape"; "Permute"; "MaxPooling2D"].
Definition backward_names : list string :=
  ["Dense"; "Conv2D"; "Activation"; "Flatten"; "Reshape"; "Permute"; "Dropout"; "BatchNormalization"; "InputLayer"; "Layer";
   "Merge"; "Add"; "Average"; "Subtract"; "Maximum"; "Minimum"; "Concatenate"; "Multiply"; "Dot"; "MaxPooling2D"].
Definition found (l : list string) (s : string) : bool := existsb (String.eqb s) l.

(** layers/convert.py:81-117. [built]: [None] when the layer has no attribute built; [activation]: entry of the
    configuration; [config_ok]: from_config returns. Result: class, and the activation of the new layer *)
Definition to_decomon (built : option bool) (cls : string) (activation : option string) (config_ok : bool)
    : result (string * option string) :=
  match built with
  | Some false => Err ValueError
  | _ =>
      if (found decomon_names cls && config_ok)%bool
      then Ok ("Decomon" ++ cls, if String.eqb cls "Activation" then activation else None)
      else Err NotImplementedError
  end.

(** "".join(name.split("Decomon")[1:]) on a name which starts with Decomon *)
Fixpoint strip (skip : nat) (s : string) : string :=
  match s with
  | EmptyString => EmptyString
  | String c q => match skip with
                  | S k => strip k q
                  | O => if prefix "Decomon" s then strip 6 q else String c (strip O q)
                  end
  end.
(** backward_layers/convert.py:17-46 *)
Definition to_backward (cls : string) : result string :=
  let c := if prefix "Decomon" cls then strip O cls else cls in
  if found backward_names c then Ok ("Backward" ++ c) else Err NotImplementedError.

(** layers/activations.py:528-569 deserialize, :572-600 get; names at lines 34-46 *)
Inductive act_fn := Softmax | Elu | Selu | Softplus | Softsign | Sigmoid | Tanh | Relu | Exponential | Linear | GroupSort2.
Definition forward_table : list (string * act_fn) :=
  [("softmax", Softmax); ("elu", Elu); ("selu", Selu); ("softplus", Softplus); ("softsign", Softsign); ("sigmoid", Sigmoid);
   ("tanh", Tanh); ("relu", Relu); ("exponential", Exponential); ("linear", Linear); ("GroupSort2", GroupSort2)].
Definition backward_table : list (string * act_fn) :=
  [("softmax", Softmax); ("elu", Elu); ("selu", Selu); ("softplus", Softplus); ("softsign", Softsign); ("sigmoid", Sigmoid);
   ("tanh", Tanh); ("relu", Relu); ("relu_", Relu); ("exponential", Exponential); ("linear", Linear)].
Definition lookup (t : list (string * act_fn)) (s : string) : result act_fn :=
  match find (fun p => String.eqb s (fst p)) t with Some p => Ok (snd p) | None => Err ValueError end.
Definition deserialize (s : string) : result act_fn := lookup forward_table (lower s).
(** backward_layers/activations.py:431-465, 468-493 *)
Definition backward_deserialize (s : string) : result act_fn := lookup backward_table (lower s).
(** the identifier given to get *)
Inductive identifier := INone | IStr (s : string) | ICallable (f : act_fn) | IOther.
Definition get_activation (d : string -> result act_fn) (i : identifier) : result act_fn :=
  match i with INone => Ok Linear | IStr s => d s | ICallable f => Ok f | IOther => Err ValueError end.

(** ** Freezing. The list _trainable_weights and the flags of a layer *)
Inductive var := Kernel | Bias | BetaU | BetaL | AlphaU | AlphaL | GridNeg | GridPos | Extra (n : nat).
Inductive act_kind := ALinear | ARelu | ASmooth.   (* name "linear"; name starting with "relu"; any other *)
Inductive fop := FreezeW | UnfreezeW | FreezeA | UnfreezeA.

(** DecomonDense and DecomonConv2D: decomon_layers.py:275-285, 525-535 *)
Record fdense := mk_fdense { fd_bias : bool; fd_tw : list var; fd_frozen : bool }.
Definition fdense_step (o : fop) (l : fdense) : fdense :=
  match o with
  | FreezeW => if negb (fd_frozen l) then mk_fdense (fd_bias l) [] true else l
  | UnfreezeW =>
      if fd_frozen l then
        let tw := if fd_bias l then Bias :: fd_tw l else fd_tw l in
        mk_fdense (fd_bias l) (Kernel :: tw) false
      else l
  | _ => l
  end.
(** build (decomon_layers.py:108-127, 366-392) *)
Definition fdense_init (bias : bool) : fdense := mk_fdense bias (if bias then [Kernel; Bias] else [Kernel]) false.

(** DecomonActivation: decomon_layers.py:574-592 build, 633-647 *)
Record fact := mk_fact { fa_finetune : bool; fa_mode : fmode; fa_kind : act_kind; fa_tw : list var; fa_frozen : bool }.
Definition not_ibp (m : fmode) : bool := match m with IBP => false | _ => true end.
Definition betas (k : act_kind) : list var := match k with ALinear => [] | ARelu => [BetaL] | ASmooth => [BetaU; BetaL] end.
Definition fact_init (ft : bool) (m : fmode) (k : act_kind) : fact :=
  mk_fact ft m k (if (ft && not_ibp m)%bool then betas k else []) false.
Definition fact_step (o : fop) (l : fact) : fact :=
  let set tw fr := mk_fact (fa_finetune l) (fa_mode l) (fa_kind l) tw fr in
  match o with
  | FreezeA => if negb (fa_frozen l) then set (if (fa_finetune l && not_ibp (fa_mode l))%bool then [] else fa_tw l) true else l
  | UnfreezeA =>
      if fa_frozen l then
        set (if (fa_finetune l && not_ibp (fa_mode l))%bool then (fa_tw l ++ betas (fa_kind l))%list else fa_tw l) false
      else l
  | _ => l
  end.

(** BackwardDense and BackwardConv2D: backward_layers.py:99-129, 217-228; the wrapped layer is a decomon layer *)
Record bdense := mk_bdense { bd_tw : list var; bd_frozen : bool; bd_layer : fdense }.
Definition bdense_init (bias : bool) : bdense :=
  mk_bdense (if bias then [Kernel; Bias] else [Kernel]) false (fdense_init bias).
Definition bdense_step (o : fop) (l : bdense) : bdense :=
  match o with
  | FreezeW => if negb (bd_frozen l) then mk_bdense [] true (fdense_step FreezeW (bd_layer l)) else l
  | UnfreezeW => if bd_frozen l then mk_bdense (bd_tw l) false (fdense_step UnfreezeW (bd_layer l)) else l
  | _ => l
  end.

(** BackwardActivation: backward_layers.py:250-259, 271-372 build, 404-431. [ba_frozen]: [None] when the attribute
    frozen_alpha is not set; [ba_grid]: the list grid_finetune *)
Record bact := mk_bact { ba_finetune : bool; ba_mode : fmode; ba_kind : act_kind; ba_grid : list var;
                         ba_tw : list var; ba_frozen : option bool; ba_frozen_grid : bool }.
Definition alphas (k : act_kind) : list var := match k with ALinear => [] | ARelu => [AlphaL] | ASmooth => [AlphaU; AlphaL] end.
(** a domain which is not a grid; weights in the order of add_weight *)
Definition bact_init (ft : bool) (m : fmode) (k : act_kind) : bact :=
  mk_bact ft m k [] (if ft then match k with ALinear => [] | ARelu => [AlphaL] | ASmooth => [AlphaL; AlphaU] end else [])
          (if ft then Some false else None) false.
(** a grid domain with opt_option lagrangian and a relu: lines 281-298, 326-346 *)
Definition bact_init_grid (ft : bool) (m : fmode) : bact :=
  let g := if not_ibp m then [GridNeg; GridPos] else [] in
  mk_bact ft m ARelu (rev g) ((if ft then [AlphaL] else []) ++ g)%list (if ft then Some false else None) false.
Definition bact_step (o : fop) (l : bact) : result bact :=
  let set tw fr := mk_bact (ba_finetune l) (ba_mode l) (ba_kind l) (ba_grid l) tw fr (ba_frozen_grid l) in
  match o with
  | FreezeA =>
      match ba_frozen l with
      | None => Err AttributeError
      | Some true => Ok l
      | Some false =>
          if (ba_finetune l && not_ibp (ba_mode l))%bool
          then Ok (set (match ba_grid l with [] => [] | _ => firstn 2 (ba_tw l) end) (Some true)) else Ok l
      end
  | UnfreezeA =>
      match ba_frozen l with
      | None => Err AttributeError
      | Some false => Ok l
      | Some true =>
          Ok (set (if (ba_finetune l && not_ibp (ba_mode l))%bool then (ba_tw l ++ alphas (ba_kind l))%list else ba_tw l) (Some false))
      end
  | _ => Ok l
  end.
Definition freeze_grid (l : bact) : bact :=
  match ba_grid l with
  | [] => l
  | _ => if ba_frozen_grid l then l
         else mk_bact (ba_finetune l) (ba_mode l) (ba_kind l) (ba_grid l) (skipn 2 (ba_tw l)) (ba_frozen l) true
  end.
Definition unfreeze_grid (l : bact) : bact :=
  match ba_grid l with
  | [] => l
  | g => if ba_frozen_grid l
         then mk_bact (ba_finetune l) (ba_mode l) (ba_kind l) g (g ++ ba_tw l)%list (ba_frozen l) false else l
  end.

(** the layers of a model; LOther: a layer whose freezing methods do nothing (layers/core.py:224-234) or which has none *)
Inductive flayer := LDense (l : fdense) | LAct (l : fact) | LBDense (l : bdense) | LBAct (l : bact) | LOther (tw : list var).
Definition flayer_step (o : fop) (l : flayer) : result flayer :=
  match l with
  | LDense d => Ok (LDense (fdense_step o d))
  | LAct a => Ok (LAct (fact_step o a))
  | LBDense d => Ok (LBDense (bdense_step o d))
  | LBAct a => b <- bact_step o a ; Ok (LBAct b)
  | LOther tw => Ok (LOther tw)
  end.
Definition flayer_tw (l : flayer) : list var :=
  match l with LDense d => fd_tw d | LAct a => fa_tw a | LBDense d => bd_tw d | LBAct a => ba_tw a | LOther tw => tw end.
(** models.py:73-91 *)
Definition model_step (o : fop) (ls : list flayer) : result (list flayer) := mapR (flayer_step o) ls.
Definition model_run (os : list fop) (ls : list flayer) : result (list flayer) := foldR (fun st o => model_step o st) os ls.

(** reset_finetuning, models.py:93-96, decomon_layers.py:624-631; BackwardLayer.reset_finetuning does nothing
    (backward_layers/core.py:143). [v]: value of the variables *)
Definition reset_finetuning (l : flayer) (v : var -> R) : var -> R :=
  match l with
  | LAct a => if (fa_finetune a && not_ibp (fa_mode a))%bool
              then fun x => if existsb (fun y => match x, y with BetaU, BetaU | BetaL, BetaL => true | _, _ => false end) (betas (fa_kind a)) then 1%R else v x
              else v
  | _ => v
  end.

(** ** set_domain: models.py:66-71, 122-128 *)
(** [dl_attr]: attribute perturbation_domain, read by DecomonActivation.call; [dl_spec]: the domain held by
    inputs_outputs_spec since __init__ (layers/core.py:53-55), read by DecomonDense.call *)
Inductive dop := DDense (d units : nat) (kernel : mat) (bias : option vec) | DRelu (sl : slope).
Record dlayer := mk_dlayer { dl_op : dop; dl_attr : domain; dl_spec : domain }.
(** [dm_input]: the domain whose radius the input tensors were computed with (models/utils.py:122-143) *)
Record dmodel := mk_dmodel { dm_domain : domain; dm_mode : fmode; dm_n : nat; dm_input : domain; dm_layers : list dlayer }.
Definition same_type (D D' : domain) : bool :=
  match D, D' with Box, Box => true | Ball _ _, Ball _ _ => true | _, _ => false end.
Definition set_domain (m : dmodel) (D : domain) : result dmodel :=
  if same_type D (dm_domain m)
  then Ok (mk_dmodel D (dm_mode m) (dm_n m) (dm_input m) (map (fun l => mk_dlayer (dl_op l) D (dl_spec l)) (dm_layers m)))
  else Err NotImplementedError.
(** clone of a sequence of Dense and relu layers with a forward method *)
Definition new_model (D : domain) (mode : fmode) (n : nat) (ops : list dop) : dmodel :=
  mk_dmodel D mode n D (map (fun o => mk_dlayer o D D) ops).
Definition dlayer_call (ke : R) (mode : fmode) (n : nat) (l : dlayer) (ts : list tensor) : result (list tensor) :=
  match dl_op l with
  | DDense d units kernel bias => decomon_dense (mk_spec false mode (dl_spec l) n) d units kernel bias false None ts
  | DRelu sl => relu_ ke (mk_spec false mode (dl_attr l) n) sl None ts
  end.
Definition dlayers_call (ke : R) (mode : fmode) (n : nat) (ls : list dlayer) (ts : list tensor) : result (list tensor) :=
  foldR (fun ts l => dlayer_call ke mode n l ts) ls ts.
Definition predict (ke : R) (m : dmodel) (z : tensor) : result (list tensor) :=
  its <- get_input_tensors (Some (dm_input m)) (dm_mode m) (dm_n m) z ;
  dlayers_call ke (dm_mode m) (dm_n m) (dm_layers m) its.

(** ** Weights: keras_utils.py:76-222. A variable is a number, [store] gives its shape and entries. [wl_weights]: the
    list layer.weights; [wl_attr]: the attributes which are variables (a read-only property such as Dense.kernel is
    identified with the hidden attribute it reads and which lines 196-200, 211-216 write) *)
Record tval := mk_tval { tv_shape : list nat; tv_data : nat -> R }.
Definition store := nat -> tval.
Record wlayer := mk_wlayer { wl_built : bool; wl_weights : list nat; wl_attr : string -> option nat }.
Fixpoint index_of (v : nat) (l : list nat) : option nat :=
  match l with [] => None | w :: q => if Nat.eqb w v then Some O else option_map S (index_of v q) end.
Definition get_weight_index (l : wlayer) (v : nat) : result nat :=
  match index_of v (wl_weights l) with Some i => Ok i | None => Err IndexError end.
Definition get_weight_index_from_name (l : wlayer) (name : string) : result nat :=
  match wl_attr l name with Some v => get_weight_index l v | None => Err AttributeError end.
Definition set_nth {A} (i : nat) (a : A) (l : list A) : list A := (firstn i l ++ a :: skipn (S i) l)%list.
(** Layer.set_weights (Keras): variable by variable, a different shape is a ValueError *)
Definition shape_eqb (a b : list nat) : bool := if list_eq_dec Nat.eq_dec a b then true else false.
Fixpoint set_weights (st : store) (vs : list nat) (ps : list tval) : result store :=
  match vs, ps with
  | [], [] => Ok st
  | v :: vs, p :: ps =>
      if shape_eqb (tv_shape (st v)) (tv_shape p) then set_weights (upd st v p) vs ps else Err ValueError
  | _, _ => Err ValueError
  end.
(** keras_utils.py:119-141 *)
Definition reset_layer (st : store) (new orig : wlayer) (names : list string) : result store :=
  if negb (wl_built orig) then Err ValueError else
  if negb (wl_built new) then Err ValueError else
  let orig_params := map st (wl_weights orig) in
  ps <- foldR (fun ps name =>
                 j <- get_weight_index_from_name orig name ;
                 i <- get_weight_index_from_name new name ;
                 match nth_error orig_params j with Some p => Ok (set_nth i p ps) | None => Err IndexError end)
              names (map st (wl_weights new)) ;
  set_weights st (wl_weights new) ps.
(** layers/core.py:190-203 DecomonLayer.reset_layer *)
Definition decomon_reset_layer (st : store) (new orig : wlayer) (keras_weights_names : list string) : result store :=
  match keras_weights_names with [] => Ok st | _ => reset_layer st new orig keras_weights_names end.

Definition upd_s {B} (f : string -> B) (k : string) (v : B) : string -> B := fun s => if String.eqb s k then v else f s.
(** Keras: assigning an attribute tracks the variable, once; once the layer is built (lock) a new one is refused *)
Definition set_attr (l : wlayer) (name : string) (v : nat) : result wlayer :=
  if existsb (Nat.eqb v) (wl_weights l) then Ok (mk_wlayer (wl_built l) (wl_weights l) (upd_s (wl_attr l) name (Some v)))
  else if wl_built l then Err ValueError
  else Ok (mk_wlayer (wl_built l) (wl_weights l ++ [v]) (upd_s (wl_attr l) name (Some v))).
Definition untrack (l : wlayer) (v : nat) : wlayer :=
  mk_wlayer (wl_built l) (filter (fun w => negb (Nat.eqb w v)) (wl_weights l)) (wl_attr l).
(** new_layer(inp): build creates the variables [created], then the layer is built *)
Definition build_layer (created : list (string * nat)) (l : wlayer) : result wlayer :=
  l' <- foldR (fun l p => set_attr l (fst p) (snd p)) created l ;
  Ok (mk_wlayer true (wl_weights l') (wl_attr l')).
(** keras_utils.py:175-222; [called]: original_layer.input exists *)
Definition share_weights_and_build (created : list (string * nat)) (called : bool) (orig new : wlayer) (names : list string)
    : result wlayer :=
  if negb (wl_built orig) then Err ValueError else
  if wl_built new then Err ValueError else
  if negb called then Err ValueError else
  l1 <- foldR (fun l name => match wl_attr orig name with Some w => set_attr l name w | None => Err AttributeError end) names new ;
  l2 <- build_layer created l1 ;
  foldR (fun l name =>
           match wl_attr orig name, wl_attr l name with
           | Some w, Some drop => l' <- set_attr l name w ; Ok (untrack l' drop)
           | _, _ => Err AttributeError
           end) names l2.

(** keras_utils.py:225-240 check_if_single_shape *)
Inductive pyval := PInt (n : Z) | PNone | PList (l : list pyval) | PTuple (l : list pyval) | PDict | PIter (l : list pyval).
Definition is_dim (v : option pyval) : bool := match v with Some (PInt _) | Some PNone => true | _ => false end.
Definition check_if_single_shape (s : pyval) : result bool :=
  match s with
  | PList l => if is_dim (hd_error l) then Ok true else Ok false
  | PTuple l => Ok (is_dim (hd_error l))
  | PDict => Ok false
  | PIter l => Ok (is_dim (hd_error l))     (* tuple(shape) *)
  | PInt _ | PNone => Err TypeError
  end.

(** ** keras_utils.py:16-63 on flat arrays in row-major order. x.shape = lead ++ [d] *)
Definition prod_shape (s : list nat) : nat := fold_right Nat.mul 1%nat s.
(** BatchedIdentityLike.call: the identity repeated n_repeat times, reshaped to x.shape + (-1,) *)
Definition batched_identity (lead : list nat) (d : nat) : tval :=
  mk_tval (lead ++ [d; d])%list (fun k => if Nat.eqb (k / d mod d) (k mod d) then 1%R else 0%R).
(** BatchedDiagLike.call: for each entry of the first axis, diag of the ravelled entry; [batch]: first dimension, [rest]:
    the others *)
Definition batched_diag (batch : nat) (rest : list nat) (x : nat -> R) : tval :=
  let p := prod_shape rest in
  mk_tval [batch; p; p] (fun k => let b := (k / (p * p))%nat in let i := (k / p mod p)%nat in let j := (k mod p)%nat in
                                  if Nat.eqb i j then x (b * p + i)%nat else 0%R).
(** compute_output_spec of both *)
Definition batched_spec (shape : list nat) : list nat := (shape ++ [last shape O])%list.
