(** Model of the weights held by a converted layer: layers/convert.py:20-117 (to_decomon), share_weights and build of
    DecomonConv2D, DecomonDense and DecomonBatchNormalization (layers/decomon_layers.py), models/forward_cloning.py:
    93-263 (each layer object is converted once). Definitions only. *)
From Coq Require Import String Reals List Arith Bool.
From Verif Require Import RLib Spec Spec_Layers M_Core M_Utils M_MergeLayers M_Ops M_Layers M_Convert M_State.
Import ListNotations.
Local Open Scope string_scope.

(** Keras layers by their weights; WNone: no weight (Flatten, Activation, merges, pooling, ...) *)
Inductive wkind :=
| WDense (d units : nat) (use_bias : bool)
| WConv2D (ky kx cin cout : nat) (use_bias : bool)
| WBatchNorm (k : nat) (center scale : bool)
| WNone.

(** the weights that build creates, in order, with their shapes: decomon_layers.py:111-129 (Conv2D), 337-358 (Dense),
    keras BatchNormalization.build called by layers/core.py:89-99 through decomon_layers.py:813-815 *)
Definition build_weights (k : wkind) : list (string * list nat) :=
  match k with
  | WDense d units ub => ("kernel", [d; units]) :: (if ub then [("bias", [units])] else [])
  | WConv2D ky kx cin cout ub => ("kernel", [ky; kx; cin; cout]) :: (if ub then [("bias", [cout])] else [])
  | WBatchNorm n center scale =>
      ((if scale then [("gamma", [n])] else []) ++ (if center then [("beta", [n])] else []) ++
       [("moving_mean", [n]); ("moving_variance", [n])])%list
  | WNone => []
  end.

(** keras_weights_names: decomon_layers.py:264-273, 514-524, 882-893, layers/core.py:186-188 *)
Definition keras_weights_names (k : wkind) : list string :=
  match k with
  | WDense _ _ ub | WConv2D _ _ _ _ ub => "kernel" :: (if ub then ["bias"] else [])
  | WBatchNorm _ center scale =>
      (["moving_mean"; "moving_variance"] ++ (if center then ["beta"] else []) ++ (if scale then ["gamma"] else []))%list
  | WNone => []
  end.

(** the variables of the session: their values, and the next one to be created *)
Record wheap := mk_wheap { wh_store : store; wh_next : nat }.
(** self.add_weight(shape=..., initializer=...): a new variable; [init]: the entries given by the initializer *)
Definition add_weight (init : string -> nat -> R) (name : string) (shape : list nat) (h : wheap) : nat * wheap :=
  (wh_next h, mk_wheap (upd (wh_store h) (wh_next h) (mk_tval shape (init name))) (S (wh_next h))).
Fixpoint add_weights (init : string -> nat -> R) (ws : list (string * list nat)) (h : wheap) : list (string * nat) * wheap :=
  match ws with
  | [] => ([], h)
  | (n, s) :: ws =>
      let (v, h) := add_weight init n s h in
      let (q, h) := add_weights init ws h in ((n, v) :: q, h)
  end.

(** share_weights: decomon_layers.py:133-137 (Conv2D: the bias is None without use_bias), 396-405 (Dense);
    layers/core.py:239-240: the other layers, BatchNormalization among them, do nothing *)
Definition share_attr (orig : wlayer) (name : string) (new : wlayer) : result wlayer :=
  match wl_attr orig name with Some v => set_attr new name v | None => Err AttributeError end.
Definition share_weights (k : wkind) (shared : bool) (orig new : wlayer) : result wlayer :=
  match k with
  | WDense _ _ ub =>
      if negb shared then Ok new else
      l <- share_attr orig "kernel" new ;
      if ub then share_attr orig "bias" l else Ok l
  | WConv2D _ _ _ _ _ =>
      if negb shared then Ok new else
      l <- share_attr orig "kernel" new ;
      match wl_attr orig "bias" with Some v => set_attr l "bias" v | None => Ok l end
  | WBatchNorm _ _ _ | WNone => Ok new
  end.
(** build: `if not self.shared` for Dense and Conv2D *)
Definition created_weights (k : wkind) (shared : bool) : list (string * list nat) :=
  match k with
  | WDense _ _ _ | WConv2D _ _ _ _ _ => if shared then [] else build_weights k
  | WBatchNorm _ _ _ | WNone => build_weights k
  end.

(** layers/convert.py:62-77, 100-117 *)
Definition to_decomon_weights (k : wkind) (shared : bool) (init : string -> nat -> R) (orig : wlayer) (h : wheap) : result (wlayer * wheap) :=
  if negb (wl_built orig) then Err ValueError else
  l <- share_weights k shared orig (mk_wlayer false [] (fun _ => None)) ;
  let (created, h) := add_weights init (created_weights k shared) h in
  l <- build_layer created l ;
  st <- decomon_reset_layer (wh_store h) l orig (keras_weights_names k) ;
  Ok (l, mk_wheap st (wh_next h)).

(** forward_cloning.py:205-219: one conversion per layer object, in the order of the nodes *)
Fixpoint convert_layers (shared : bool) (init : nat -> string -> nat -> R) (ls : list (wkind * wlayer)) (h : wheap)
    : result (list wlayer * wheap) :=
  match ls with
  | [] => Ok ([], h)
  | (k, orig) :: q =>
      lh <- to_decomon_weights k shared (init (wh_next h)) orig h ;
      qh <- convert_layers shared init q (snd lh) ;
      Ok (fst lh :: fst qh, snd qh)
  end.
