(** Specification vocabulary for C80: the network read off the layers and the current values of their variables *)
From Coq Require Import String Reals List Arith Bool ZArith.
From Verif Require Import RLib Spec Spec_Layers M_Core M_Utils M_MergeLayers M_Ops M_Layers M_Convert M_State Spec_State M_Weights.
From Verif Require Import Spec_Backward Spec_Convert Spec_Network.
Import ListNotations.
Local Open Scope string_scope.

(** what a layer computes, apart from the values of its weights *)
Inductive ldesc :=
| LDDense (rows d units : nat) (use_bias : bool)
| LDConv2D (g : conv_geo) (use_bias : bool)
| LDBatchNorm (pre : list nat) (k : nat) (post : list nat) (axis : Z) (eps : R) (center scale : bool)
| LDFixed (L : nlayer).
Definition ld_kind (d : ldesc) : wkind :=
  match d with
  | LDDense _ d units ub => WDense d units ub
  | LDConv2D g ub => WConv2D (wn_k (cg_y g)) (wn_k (cg_x g)) (cg_cin g) (cg_cout g) ub
  | LDBatchNorm _ k _ _ _ center scale => WBatchNorm k center scale
  | LDFixed _ => WNone
  end.

(** the entries (row-major) of the variable held by an attribute *)
Definition entries (st : store) (l : wlayer) (name : string) : vec := tv_data (st (ov l name)).
Definition entries_if (b : bool) (st : store) (l : wlayer) (name : string) : option vec := if b then Some (entries st l name) else None.
(** the layer with the values its variables have in [st] *)
Definition layer_at (st : store) (d : ldesc) (l : wlayer) : nlayer :=
  match d with
  | LDDense rows d units ub => NDense rows d units (fun c u => entries st l "kernel" (c * units + u)%nat) (entries_if ub st l "bias")
  | LDConv2D g ub =>
      NConv2D g (fun ky kx c u => entries st l "kernel" (((ky * wn_k (cg_x g) + kx) * cg_cin g + c) * cg_cout g + u)%nat) (entries_if ub st l "bias")
  | LDBatchNorm pre k post axis eps center scale =>
      NBatchNorm pre k post axis (entries_if scale st l "gamma") (entries_if center st l "beta") (entries st l "moving_mean") (entries st l "moving_variance") eps
  | LDFixed L => L
  end.

(** a built Keras layer: its attributes are variables it tracks, one per name, of the shapes of its kind *)
Definition keras_built (h : wheap) (k : wkind) (l : wlayer) : Prop :=
  wl_built l = true /\
  (forall n s, In (n, s) (build_weights k) -> exists v, wl_attr l n = Some v /\ In v (wl_weights l) /\ (v < wh_next h)%nat /\ tv_shape (wh_store h v) = s) /\
  (forall n n', In n (map fst (build_weights k)) -> In n' (map fst (build_weights k)) -> ov l n = ov l n' -> n = n') /\
  (forall n, ~ In n (map fst (build_weights k)) -> wl_attr l n = None).

(** a network of layer objects: a node names the object it calls, several nodes may call the same one *)
Definition wnodes := list (option nat * list nat).
Definition net_at (st : store) (ds : list ldesc) (ls : list wlayer) (nodes : wnodes) : network :=
  map (fun q => (match fst q with
                 | None => None
                 | Some k => match nth_error ds k, nth_error ls k with Some d, Some l => Some (layer_at st d l) | _, _ => None end
                 end, snd q)) nodes.
Definition has_batchnorm (d : ldesc) : bool := match d with LDBatchNorm _ _ _ _ _ _ _ => true | _ => false end.
(** the layers of a Keras model, built, and what the conversion is applied to *)
Definition all_built (h : wheap) (ds : list ldesc) (ls : list wlayer) : Prop := Forall2 (fun d l => keras_built h (ld_kind d) l) ds ls.
Definition pairs (ds : list ldesc) (ls : list wlayer) : list (wkind * wlayer) := combine (map ld_kind ds) ls.
