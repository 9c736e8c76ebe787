(** Specification vocabulary for C41-C45. Independent of the definitions which mirror the code. *)
From Coq Require Import String Ascii Reals List Arith Bool.
From Verif Require Import RLib Spec Spec_Layers M_Core M_Utils M_MergeLayers M_Ops M_Layers M_Convert M_State.
Import ListNotations.

(** ** C41 *)
(** references of a user's model are allocated objects *)
Definition obj_wf (h : heap) : Prop := forall r b, (r < h_next h)%nat -> lo_act (h_obj h r) = ALayer b -> (b < h_next h)%nat.
Definition refs_wf (h : heap) (l : list nat) : Prop := forall r, In r l -> (r < h_next h)%nat.
(** the conversion uses the user's own object for layer r (there is no activation to split) *)
Definition unsplit (h : heap) (r : nat) : Prop :=
  lo_class (h_obj h r) = CActivation \/ lo_act (h_obj h r) = ANone \/ lo_act (h_obj h r) = AName "linear".
(** when r is the last layer, the object holding the softmax is the user's object b *)
Definition owns_softmax (h : heap) (r b : nat) : Prop :=
  lo_class (h_obj h b) <> CSoftmax /\ lo_act (h_obj h b) = AName "softmax" /\
  ((b = r /\ lo_class (h_obj h r) = CActivation) \/ (lo_class (h_obj h r) <> CActivation /\ lo_act (h_obj h r) = ALayer b)).

(** ** C43: a group is frozen when the last operation on it is a freeze *)
Definition fop_eqb (a b : fop) : bool :=
  match a, b with FreezeW, FreezeW | UnfreezeW, UnfreezeW | FreezeA, FreezeA | UnfreezeA, UnfreezeA => true | _, _ => false end.
Fixpoint frozen_after (freeze unfreeze : fop) (os : list fop) (b : bool) : bool :=
  match os with
  | [] => b
  | o :: q => frozen_after freeze unfreeze q (if fop_eqb o freeze then true else if fop_eqb o unfreeze then false else b)
  end.
Definition weights_frozen (os : list fop) : bool := frozen_after FreezeW UnfreezeW os false.
Definition alpha_frozen (os : list fop) : bool := frozen_after FreezeA UnfreezeA os false.

(** ** C45: the last name which designates variable v in layer l *)
Fixpoint last_name (l : wlayer) (v : nat) (names : list string) : option string :=
  match names with
  | [] => None
  | n :: q => match last_name l v q with
              | Some m => Some m
              | None => match wl_attr l n with Some w => if Nat.eqb w v then Some n else None | None => None end
              end
  end.
(** the variable a name designates *)
Definition ov (l : wlayer) (n : string) : nat := match wl_attr l n with Some v => v | None => O end.
(** the name designates a weight of the layer *)
Definition has_weight (l : wlayer) (n : string) : Prop := exists v, wl_attr l n = Some v /\ In v (wl_weights l).

(** ** C41: clone applied k times to the same model *)
Fixpoint clone_times (k : nat) (h : heap) (inputs ops : list nat) : result heap :=
  match k with O => Ok h | S k => h1 <- clone_objs h inputs ops ; clone_times k h1 inputs ops end.
(** an object which the model does not call and which is not the activation of a called layer *)
Definition apart (h : heap) (ops : list nat) (i : nat) : Prop :=
  (i < h_next h)%nat /\ ~ In i ops /\ forall r, In r ops -> lo_act (h_obj h r) <> ALayer i.

(** ** C43: a history applied to one layer *)
Definition run {A} (step : fop -> A -> A) (os : list fop) (l : A) : A := fold_left (fun l o => step o l) os l.
Definition var_eq_dec : forall a b : var, {a = b} + {a <> b}.
Proof. decide equality; apply Nat.eq_dec. Defined.
(** a layer as built *)
Definition forward_init (l : flayer) : Prop :=
  (exists b, l = LDense (fdense_init b)) \/ (exists ft m k, l = LAct (fact_init ft m k)) \/ (exists tw, l = LOther tw).
(** the trainable weights expected after a history: those of the layer, or none while frozen *)
Definition expected_tw (os : list fop) (l : flayer) : list var :=
  match l with
  | LDense d => if weights_frozen os then [] else fd_tw d
  | LAct a => if alpha_frozen os then [] else fa_tw a
  | _ => flayer_tw l
  end.

(** ** C44: the function of the sequence of layers, and its dimensions *)
Definition dop_fn (o : dop) (y : vec) : vec :=
  match o with
  | DDense d units kernel bias => keras_dense d units kernel (match bias with Some b => b | None => fun _ => 0%R end) y
  | DRelu _ => fun j => Rmax (y j) 0
  end.
Definition ops_fn (ops : list dop) (y : vec) : vec := fold_left (fun y o => dop_fn o y) ops y.
Fixpoint ops_dim (m : nat) (ops : list dop) (m' : nat) : Prop :=
  match ops with
  | [] => m = m'
  | DDense d units _ _ :: q => m = d /\ (0 < units)%nat /\ ops_dim units q m'
  | DRelu _ :: q => ops_dim m q m'
  end.
(** set_domain called with each domain of a list *)
Definition set_domains (Ds : list domain) (m : dmodel) : result dmodel := foldR set_domain Ds m.

(** a sequence of freeze_grid (true) and unfreeze_grid (false) *)
Definition grid_run (os : list bool) (l : bact) : bact := fold_left (fun s (b : bool) => if b then freeze_grid s else unfreeze_grid s) os l.
