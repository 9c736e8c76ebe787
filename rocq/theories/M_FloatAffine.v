(** Forward-affine mode on a box in floating-point arithmetic: Dense, Conv2D, relu, and the layers that copy entries.
    Definitions only. [op x y]: y is a result of the operation of exact result x. [dot d x w y]: y is a result of the inner
    product of the d first entries of x and w. *)
From Coq Require Import Reals List Arith Bool ZArith.
From Verif Require Import RLib Spec Spec_Layers Spec_Network Spec_Near Spec_Rounding Spec_Float Spec_FloatAffine M_Core M_Utils M_MergeLayers M_Ops M_Layers M_Convert M_Network M_Rounding M_Float M_FloatHull.
Import ListNotations.
Local Open Scope R_scope.

(** core.py:466-525 get_upper_box and get_lower_box on one line of weights w and bias c: K.sum(w_pos * a + w_neg * b, 1) + c,
    an inner product of 2 n terms; K.maximum and K.minimum do not round *)
Definition fl_bound (op : R -> R -> Prop) (dot : nat -> vec -> vec -> R -> Prop) (n : nat) (a b w : vec) (c y : R) : Prop :=
  exists s,
    dot (n + n)%nat (fun i => if i <? n then a i else b (i - n)%nat) (fun i => if i <? n then Rmax (w i) 0 else Rmin (w (i - n)%nat) 0) s /\
    op (s + c) y.
(** core.py:333-347 with 59-68: u_c and l_c of the neuron j, from x (row 0: x_min, row 1: x_max) and the lines *)
Definition fl_upper (op : R -> R -> Prop) (dot : nat -> vec -> vec -> R -> Prop) (n : nat) (x w b : tensor) (j : nat) (y : R) : Prop :=
  fl_bound op dot n (x 1%nat) (x 0%nat) (fun i => w i j) (b 0%nat j) y.
Definition fl_lower (op : R -> R -> Prop) (dot : nat -> vec -> vec -> R -> Prop) (n : nat) (x w b : tensor) (j : nat) (y : R) : Prop :=
  fl_bound op dot n (x 0%nat) (x 1%nat) (fun i => w i j) (b 0%nat j) y.

(** DecomonDense.call and DecomonConv2D.call: decomon_layers.py:461-495 and 200-257 in affine mode; the weights without
    bias, the constant terms with it *)
Definition no_bias (F : lin) : lin := mk_lin (ln_out F) (ln_d F) (ln_src F) (ln_w F) None (ln_unit F).
Definition float_linear_affine (op : R -> R -> Prop) (dot : nat -> vec -> vec -> R -> Prop) (n : nat) (F : lin) (ts ts' : list tensor) : Prop :=
  match ts, ts' with
  | [x; wu; bu; wl; bl], [x'; wu'; bu'; wl'; bl'] =>
      x' = x /\ forall j, (j < ln_out F)%nat ->
        (forall i, (i < n)%nat -> float_neuron op dot (no_bias F) (wu i) (wl i) j (wu' i j) /\ float_neuron op dot (no_bias F) (wl i) (wu i) j (wl' i j)) /\
        float_neuron op dot F (bu 0%nat) (bl 0%nat) j (bu' 0%nat j) /\ float_neuron op dot F (bl 0%nat) (bu 0%nat) j (bl' 0%nat j)
  | _, _ => False
  end.
(** utils.py:343-402 relu_ in affine mode: the bounds of the lines, the hull (utils.py:128-201), then
    w_out * w and w_out * b + b_out *)
Definition float_relu_affine (op : R -> R -> Prop) (dot : nat -> vec -> vec -> R -> Prop) (ke : R) (n m : nat) (sl : slope) (ft : option vec) (ts ts' : list tensor) : Prop :=
  match ts, ts' with
  | [x; wu; bu; wl; bl], [x'; wu'; bu'; wl'; bl'] =>
      x' = x /\ forall j, (j < m)%nat -> exists u l h p q,
        fl_upper op dot n x wu bu j u /\ fl_lower op dot n x wl bl j l /\
        fl_hull_relu op ke sl (option_map (fun v : vec => v j) ft) u l h /\
        (forall i, (i < n)%nat -> op (h_wu h * wu i j) (wu' i j) /\ op (h_wl h * wl i j) (wl' i j)) /\
        op (h_wu h * bu 0%nat j) p /\ op (p + h_bu h) (bu' 0%nat j) /\ op (h_wl h * bl 0%nat j) q /\ op (q + h_bl h) (bl' 0%nat j)
  | _, _ => False
  end.

(** the layers above *)
Definition affine_layer (L : nlayer) : Prop :=
  match L with
  | NDense _ _ _ _ _ | NConv2D _ _ _ | NFlatten _ _ _ | NReshape _ | NPermute _ _ | NDropout _ => True
  | NActivation a _ => a = Alinear \/ a = Arelu
  | _ => False
  end.
Definition float_call_affine (op : R -> R -> Prop) (dot : nat -> vec -> vec -> R -> Prop) (ke : R) (n : nat) (o : lopts) (L : nlayer) (ts ts' : list tensor) : Prop :=
  match lin_of L, L with
  | Some F, _ => float_linear_affine op dot n F ts ts'
  | None, NActivation Arelu m => float_relu_affine op dot ke n m (lo_slope o) (lo_ft o) ts ts'
  | None, _ => decomon_layer ke (mk_spec false AFFINE Box n) o L ts = Ok ts'
  end.
(** clone with method forward-affine on a box, then a call: the input lines are the identity (models/utils.py:97-143);
    Convert2Mode from affine to affine copies its inputs, to ibp computes the bounds of the lines (models/utils.py:285-334) *)
Definition float_run_affine (op : R -> R -> Prop) (dot : nat -> vec -> vec -> R -> Prop) (ke : R) (n : nat) (opts : nat -> lopts) (net : network) (z : tensor) (r : run) : Prop :=
  get_input_tensors (Some Box) AFFINE n z = Ok (r_inputs r) /\
  (forall i q ps, nth_error net i = Some (q, ps) ->
     match q with
     | None => r_nodes r i = r_inputs r
     | Some L => float_call_affine op dot ke n (opts i) L (concat (map (r_nodes r) ps)) (r_nodes r i)
     end).
Definition float_final_affine (op : R -> R -> Prop) (dot : nat -> vec -> vec -> R -> Prop) (n m : nat) (final : fmode) (ts out : list tensor) : Prop :=
  match final, ts, out with
  | AFFINE, _, _ => out = ts
  | IBP, [x; wu; bu; wl; bl], [u; l] =>
      forall j, (j < m)%nat -> fl_upper op dot n x wu bu j (u 0%nat j) /\ fl_lower op dot n x wl bl j (l 0%nat j)
  | _, _, _ => False
  end.

(** the rounding error of every layer is at most E, for inputs between -X and X; A: size of the numbers that are added *)
Definition affine_errors (u eta : R) (k N : nat) (ke : R) (n : nat) (X A E : R) (net : network) (r : run) : Prop :=
  forall i L ps, nth_error net i = Some (Some L, ps) -> forall x wu bu wl bl, concat (map (r_nodes r) ps) = [x; wu; bu; wl; bl] ->
    match lin_of L, L with
    | Some F, _ =>
        float_error u eta k N A * (1 + INR n * X) <= E /\ forall j, (j < ln_out F)%nat ->
          lin_size F (fun c => Rmax (Rabs (bu 0%nat c)) (Rabs (bl 0%nat c))) j <= A /\
          forall i, (i < n)%nat -> lin_size (no_bias F) (fun c => Rmax (Rabs (wu i c)) (Rabs (wl i c))) j <= A
    | None, NActivation Arelu m =>
        relu_error u eta k N ke n X A <= E /\ forall j, (j < m)%nat -> line_size n X wu (bu 0%nat) j <= A /\ line_size n X wl (bl 0%nat) j <= A
    | None, _ => True
    end.
