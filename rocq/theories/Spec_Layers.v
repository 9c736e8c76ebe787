(** What the Keras layers and backend operations compute, on flat (row-major) blocks of one sample.
    Nothing in this file depends on the model files. *)
From Coq Require Import Reals List Arith Bool ZArith.
From Verif Require Import RLib Spec.
Import ListNotations.
Local Open Scope R_scope.

(** ** keras.layers.Dense on a block of shape pre ++ [d]: position p * units + u of the output *)
Definition keras_dense (d units : nat) (kernel : mat) (bias : vec) (v : vec) : vec :=
  fun j => rsum d (fun c => v (j / units * d + c)%nat * kernel c (j mod units)%nat) + bias (j mod units)%nat.

(** ** 2D windows *)

(** geometry of a window sliding over one axis *)
Record win := mk_win {
  wn_in : nat;    (* size of the axis *)
  wn_k : nat;     (* kernel size *)
  wn_s : nat;     (* stride *)
  wn_d : nat;     (* dilation *)
  wn_same : bool  (* padding "same" (true) or "valid" (false) *)
}.

Definition wn_eff (g : win) : nat := (wn_k g - 1) * wn_d g + 1.
(** number of output positions: ceil(in / s) or floor((in - eff) / s) + 1 *)
Definition wn_out (g : win) : nat :=
  if wn_same g then (wn_in g + wn_s g - 1) / wn_s g
  else if wn_eff g <=? wn_in g then (wn_in g - wn_eff g) / wn_s g + 1 else 0.
(** padding before the first element (tensorflow convention for "same") *)
Definition wn_pad (g : win) : nat :=
  if wn_same g then ((wn_out g - 1) * wn_s g + wn_eff g - wn_in g) / 2 else 0.
(** coordinate read by offset k of window o, [None] in the padding *)
Definition wn_src (g : win) (o k : nat) : option nat :=
  let y := (o * wn_s g + k * wn_d g)%nat in
  if wn_pad g <=? y then
    if (y - wn_pad g) <? wn_in g then Some (y - wn_pad g)%nat else None
  else None.

(** an image of height h, width w and c channels, in one of the two data formats *)
Record img := mk_img { im_h : nat; im_w : nat; im_c : nat; im_last : bool }.
Definition im_size (m : img) : nat := (im_h m * im_w m * im_c m)%nat.
Definition im_pos (m : img) (y x c : nat) : nat :=
  if im_last m then ((y * im_w m + x) * im_c m + c)%nat else ((c * im_h m + y) * im_w m + x)%nat.
Definition im_y (m : img) (j : nat) : nat :=
  if im_last m then (j / im_c m / im_w m)%nat else (j / im_w m mod im_h m)%nat.
Definition im_x (m : img) (j : nat) : nat :=
  if im_last m then (j / im_c m mod im_w m)%nat else (j mod im_w m)%nat.
Definition im_ch (m : img) (j : nat) : nat :=
  if im_last m then (j mod im_c m)%nat else (j / im_w m / im_h m)%nat.

(** pixel under offset (ky, kx) of window (oy, ox), channel c *)
Definition px_src (last : bool) (gy gx : win) (ch : nat) (oy ox ky kx c : nat) : option nat :=
  match wn_src gy oy ky, wn_src gx ox kx with
  | Some y, Some x => Some (im_pos (mk_img (wn_in gy) (wn_in gx) ch last) y x c)
  | _, _ => None
  end.
Definition px (v : vec) (o : option nat) : R := match o with Some i => v i | None => 0 end.

(** ** K.conv (2D): kernel indexed by (ky, kx, channel in, channel out); padding reads 0 *)
Record conv_geo := mk_geo { cg_last : bool; cg_y : win; cg_x : win; cg_cin : nat; cg_cout : nat }.
Definition kernel4 := nat -> nat -> nat -> nat -> R.
Definition cg_in (g : conv_geo) : img := mk_img (wn_in (cg_y g)) (wn_in (cg_x g)) (cg_cin g) (cg_last g).
Definition cg_out (g : conv_geo) : img := mk_img (wn_out (cg_y g)) (wn_out (cg_x g)) (cg_cout g) (cg_last g).

Definition conv2d (g : conv_geo) (kernel : kernel4) (v : vec) : vec := fun j =>
  let o := cg_out g in
  rsum (wn_k (cg_y g)) (fun ky => rsum (wn_k (cg_x g)) (fun kx => rsum (cg_cin g) (fun c =>
    kernel ky kx c (im_ch o j) *
    px v (px_src (cg_last g) (cg_y g) (cg_x g) (cg_cin g) (im_y o j) (im_x o j) ky kx c)))).

(** keras.layers.Conv2D *)
Definition keras_conv2d (g : conv_geo) (kernel : kernel4) (bias : vec) (v : vec) : vec :=
  fun j => conv2d g kernel v j + bias (im_ch (cg_out g) j).

(** ** keras.layers.BatchNormalization (inference) along the axis between pre and post *)
Definition keras_bn (gamma beta mean var : vec) (eps : R) (c : nat) (y : R) : R :=
  gamma c * (y - mean c) / sqrt (var c + eps) + beta c.

(** ** keras.layers.Permute: entry p of the input is entry (p_{perm 0}, p_{perm 1}, ...) of the output *)
Definition permuted (perm : list nat) (p : list nat) : list nat := map (fun a => nth a p O) perm.

(** ** keras.layers.MaxPooling2D: maximum of the pixels of the window that are in the image *)
Definition pool_px (g : conv_geo) (j : nat) : list nat :=
  let o := cg_out g in
  flat_map (fun ky => flat_map (fun kx =>
    match px_src (cg_last g) (cg_y g) (cg_x g) (cg_cin g) (im_y o j) (im_x o j) ky kx (im_ch o j) with
    | Some i => [i] | None => [] end) (seq 0 (wn_k (cg_x g)))) (seq 0 (wn_k (cg_y g))).
(** a pooling geometry keeps the channels *)
Definition max_pool (g : conv_geo) (v : vec) : vec := fun j =>
  match map v (pool_px g j) with [] => 0 | a :: l => max_list a l end.

(** ** keras.layers.Concatenate: g is made of the blocks fs, of lengths ks along the axis *)
Definition offset (ks : list nat) (t : nat) : nat := fold_right Nat.add O (firstn t ks).
Definition total (ks : list nat) : nat := fold_right Nat.add O ks.
Definition concatenated (pre post : list nat) (ks : list nat) (fs : list (vec -> vec)) (g : vec -> vec) : Prop :=
  forall z t p c q f, nth_error fs t = Some f -> in_shape pre p -> in_shape post q -> (c < nth t ks O)%nat ->
    g z (ravel (pre ++ total ks :: post) (p ++ (offset ks t + c)%nat :: q)) =
    f z (ravel (pre ++ nth t ks O :: post) (p ++ c :: q)).

(** ** keras.layers.Dot on blocks of shapes pre0 ++ k :: post0 and pre1 ++ k :: post1 *)
Definition dotted (pre0 post0 pre1 post1 : list nat) (k : nat) (f0 f1 g : vec -> vec) : Prop :=
  forall z p0 q0 p1 q1, in_shape pre0 p0 -> in_shape post0 q0 -> in_shape pre1 p1 -> in_shape post1 q1 ->
    g z (ravel ((pre0 ++ post0) ++ (pre1 ++ post1)) ((p0 ++ q0) ++ (p1 ++ q1))) =
    rsum k (fun c => f0 z (ravel (pre0 ++ k :: post0) (p0 ++ c :: q0)) *
                     f1 z (ravel (pre1 ++ k :: post1) (p1 ++ c :: q1))).

(** ** Identity inputs: tensors whose weights have the same rank as the biases denote the input itself *)
Definition valid_identity (D : domain) (mode : fmode) (dc : bool)
    (S : vec -> Prop) (n : nat) (ts : list tensor) : Prop :=
  length ts = spec_nb mode dc /\
  match mode, ts with
  | IBP, u :: l :: _ => const_ok S n (fun z => z) (u 0%nat) (l 0%nat)
  | AFFINE, x :: _ => forall z, S z -> in_dom D n x z
  | HYBRID, x :: u :: _ :: _ :: l :: _ =>
      (forall z, S z -> in_dom D n x z) /\ const_ok S n (fun z => z) (u 0%nat) (l 0%nat)
  | _, _ => False
  end.

(** ** Exactness: the affine upper bound and the affine lower bound are the same function *)
Definition exact_weights (mode : fmode) (n m : nat) (ts : list tensor) : Prop :=
  let same (wu bu wl bl : tensor) :=
    forall j, (j < m)%nat -> bu 0%nat j = bl 0%nat j /\ forall i, (i < n)%nat -> wu i j = wl i j in
  match mode, ts with
  | AFFINE, x :: wu :: bu :: wl :: bl :: _ => same wu bu wl bl
  | HYBRID, x :: u :: wu :: bu :: l :: wl :: bl :: _ => same wu bu wl bl
  | _, _ => True
  end.

(** ** Difference-of-convex decompositions *)
Definition comb (t : R) (x y : vec) : vec := fun i => t * x i + (1 - t) * y i.
Definition convex_on (S : vec -> Prop) (h : vec -> R) : Prop :=
  forall x y t, S x -> S y -> 0 <= t <= 1 -> S (comb t x y) -> h (comb t x y) <= t * h x + (1 - t) * h y.
Definition concave_on (S : vec -> Prop) (g : vec -> R) : Prop :=
  forall x y t, S x -> S y -> 0 <= t <= 1 -> S (comb t x y) -> t * g x + (1 - t) * g y <= g (comb t x y).
(** the tensors h (convex) and g (concave), as functions of the input, sum to f *)
Definition dc_ok (S : vec -> Prop) (m : nat) (f : vec -> vec) (h g : vec -> tensor) : Prop :=
  forall j, (j < m)%nat -> (forall z, S z -> h z 0%nat j + g z 0%nat j = f z j) /\
    convex_on S (fun z => h z 0%nat j) /\ concave_on S (fun z => g z 0%nat j).
