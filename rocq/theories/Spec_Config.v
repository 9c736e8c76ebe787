(** What can be read on a layer of decomon once it is built: its options. Nothing in this file depends on the model files. *)
From Coq Require Import String List Bool ZArith Reals.
From Verif Require Import Spec.
Import ListNotations.

(** values of the arguments and of the configurations. [VRaw]: a value that decomon hands over to Keras without reading it *)
Inductive cval :=
| VNone | VBool (b : bool) | VInt (k : Z) | VStr (s : string) | VMode (m : fmode) | VSlope (s : slope) | VDomain (D : domain) | VRaw (k : nat).
Definition dict := list (string * cval).

(** the classes of src/decomon/layers and the two layers of src/decomon/metrics/loss.py *)
Inductive lclass := CConv2D | CDense | CActivation | CFlatten | CBatchNormalization | CDropout | CInputLayer | CReshape | CPermute | CMaxPooling2D
  | CAdd | CAverage | CSubtract | CMinimum | CMaximum | CConcatenate | CMultiply | CDot | CLossFusion | CRadiusRobust.

(** options of a layer; [at_keras]: attributes of the Keras layer, [at_own]: those of the class only, [at_spec]: (dc_decomp, mode,
    domain) given to the object which reads the inputs of the layer *)
Record attrs := mk_attrs {
  at_class : lclass; at_keras : dict; at_domain : domain; at_dc : bool; at_mode : fmode; at_finetune : bool; at_shared : bool; at_fast : bool;
  at_own : dict; at_spec : bool * fmode * domain }.

(** the object which reads the inputs agrees with the layer *)
Definition coherent (a : attrs) : Prop := at_spec a = (at_dc a, at_mode a, at_domain a).
(** two layers with the same options *)
Definition same_options (a b : attrs) : Prop := a = b.
(** up to the options of the class *)
Definition same_but_own (a b : attrs) : Prop :=
  at_class a = at_class b /\ at_keras a = at_keras b /\ at_domain a = at_domain b /\ at_dc a = at_dc b /\ at_mode a = at_mode b /\
  at_finetune a = at_finetune b /\ at_shared a = at_shared b /\ at_fast a = at_fast b /\ at_spec a = at_spec b.
(** the layer after set_domain: its attribute changes, the object which reads its inputs does not *)
Definition with_domain (a : attrs) (D : domain) : attrs :=
  mk_attrs (at_class a) (at_keras a) D (at_dc a) (at_mode a) (at_finetune a) (at_shared a) (at_fast a) (at_own a) (at_spec a).
(** the layer built for the domain *)
Definition for_domain (a : attrs) (D : domain) : attrs :=
  mk_attrs (at_class a) (at_keras a) D (at_dc a) (at_mode a) (at_finetune a) (at_shared a) (at_fast a) (at_own a) (at_dc a, at_mode a, D).

(** layers of the backward pass; the wrapped layer is a Keras layer or a decomon layer *)
Inductive bclass := BDense | BConv2D | BActivation | BFlatten | BReshape | BPermute | BDropout | BBatchNormalization | BInputLayer | BMerge | BMaxPooling2D.
Inductive wrapped := WKeras (c : lclass) (k : dict) | WDecomon (a : attrs).
Record battrs := mk_battrs {
  bt_class : bclass; bt_layer : wrapped; bt_keras : dict; bt_rec : Z; bt_mode : fmode; bt_domain : domain; bt_dc : bool;
  bt_own : option (slope * bool); bt_spec : bool * fmode * domain }.

(** Convert2Mode, MetricLayer, MergeWithPrevious, Fuse, Convert2BackwardMode *)
Record cattrs := mk_cattrs { ct_from : fmode; ct_to : fmode; ct_domain : domain; ct_input_dim : Z }.
(** domains with their option for the optimisation *)
Inductive optim := Lagrangian | Milp.
Inductive pdomain := PBox (o : optim) | PBall (eps : R) (p : pord) (o : optim).
