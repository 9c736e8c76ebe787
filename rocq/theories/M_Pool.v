(** Model of src/decomon/layers/maxpooling.py, utils_pooling.py and of the constraints of layers/utils.py.
    Definitions only. *)
From Coq Require Import Reals List Arith Bool ZArith.
From Verif Require Import RLib Spec Spec_Layers M_Core M_Utils M_MergeLayers M_Ops M_Layers.
Import ListNotations.
Local Open Scope R_scope.

(** ** DecomonMaxPooling2D.__init__: src/decomon/layers/maxpooling.py:84-90.
    filters = zeros((ph, pw, 1, ph * pw)); filters[i, j, 0, i * ph + j] = 1 in two nested loops:
    the first index out of range raises. *)
Definition filter_index (ph i j : nat) : nat := (i * ph + j)%nat.
Definition pool_writes (ph pw : nat) : list (nat * nat) := list_prod (seq 0 ph) (seq 0 pw).
Definition pool_filters := nat -> nat -> nat -> R.
Definition set_filter (t : pool_filters) (i j p : nat) : pool_filters :=
  fun i' j' p' => if (Nat.eqb i i' && Nat.eqb j j' && Nat.eqb p p')%bool then 1 else t i' j' p'.
Definition pool_init (ph pw : nat) : result pool_filters :=
  foldR (fun t ij => let '(i, j) := ij : nat * nat in
           if filter_index ph i j <? ph * pw then Ok (set_filter t i j (filter_index ph i j)) else Err IndexError)
        (pool_writes ph pw) (fun _ _ _ => 0).

(** ** internal_op / internal_op_w on each channel, concatenated on axis -2 (lines 93-153 and 199-221), for
    data_format channels_last: the block [oh; ow; C] becomes [oh; ow; C; P], P = ph * pw. Entry q = j * P + p. *)
Definition pool_p (g : conv_geo) : nat := (wn_k (cg_y g) * wn_k (cg_x g))%nat.
Definition pool_conv (g : conv_geo) (fl : pool_filters) (t : tensor) : tensor := fun i q =>
  let o := cg_out g in
  let j := (q / pool_p g)%nat in
  let p := (q mod pool_p g)%nat in
  rsum (wn_k (cg_y g)) (fun ky => rsum (wn_k (cg_x g)) (fun kx =>
    fl ky kx p * px (t i) (px_src (cg_last g) (cg_y g) (cg_x g) (cg_cin g) (im_y o j) (im_x o j) ky kx (im_ch o j)))).

(** ** _pooling_function_fast: maxpooling.py:158-185; K.max_pool ignores the padding *)
Definition pool_fast (sp : spec) (g : conv_geo) (ts : list tensor) : result (list tensor) :=
  r <- get_fullinputs sp true true ts ;
  let l_c : tensor := vt (max_pool g (f_lc r 0%nat)) in
  let u_c : tensor := vt (max_pool g (f_uc r 0%nat)) in
  let a := get_affine (sp_mode sp) in
  finish sp (mk_full (f_x r) u_c (when a (fun i j => 0 * u_c i j)) (when a u_c) l_c (when a (fun i j => 0 * u_c i j)) (when a l_c)
     empty_tensor empty_tensor).

(** ** _pooling_function_not_fast: maxpooling.py:187-234 (channels_last) *)
Definition pool_not_fast (ke : R) (sp : spec) (g : conv_geo) (fl : pool_filters) (ts : list tensor) : result (list tensor) :=
  r <- get_fullinputs sp false true ts ;
  let c := pool_conv g fl in
  op_max ke sp [im_h (cg_out g); im_w (cg_out g); im_c (cg_out g); pool_p g] (-1) None
    (extract (sp_mode sp) (sp_dc sp) (move_full sp c c r)).

(** ** constructor then call: maxpooling.py:236-240 *)
Definition decomon_max_pooling (ke : R) (sp : spec) (fast : bool) (g : conv_geo) (ts : list tensor) : result (list tensor) :=
  fl <- pool_init (wn_k (cg_y g)) (wn_k (cg_x g)) ;
  if fast then pool_fast sp g ts else pool_not_fast ke sp g fl ts.

(** ** get_upper_linear_hull_max: src/decomon/layers/utils_pooling.py:19-133, one line of length n along the axis.
    [solve n a b]: K.solve of an n x n system. Row t < n of the system: the corner with l at t and u elsewhere
    (u shifted by index_collapse), row n: all u; last column: 1. Right-hand side: max of the unshifted corner. *)
Definition index_collapse (l u : vec) (j : nat) : R := 1 - Rsgn (l j - u j).
Definition corner (l u : vec) (t j : nat) : R := if Nat.eqb t j then l j else u j.
Definition corner_collapse (l u : vec) (t j : nat) : R := if Nat.eqb t j then l j else u j + index_collapse l u j.
Definition corner_system (n : nat) (l u : vec) : mat := fun t j => if Nat.eqb j n then 1 else corner_collapse l u t j.
Definition corner_pred (n : nat) (l u : vec) : vec := fun t => rmax n (corner l u t).
Definition upper_line (solve : nat -> mat -> vec -> vec) (n : nat) (l u : vec) : vec :=
  solve (S n) (corner_system n l u) (corner_pred n l u).

(** ** get_lower_linear_hull_max: utils_pooling.py:136-197, one line *)
Fixpoint argmin_to (k : nat) (v : vec) : nat :=
  match k with
  | O => O
  | S k' => let a := argmin_to k' v in if Rlt_dec (v k) (v a) then k else a
  end.
Definition argmin (n : nat) (v : vec) : nat := argmin_to (pred n) v.
Definition argmax (n : nat) (v : vec) : nat := argmin n (fun j => - v j).
Definition one_hot (i : nat) : vec := fun j => if Nat.eqb i j then 1 else 0.
Definition lower_score (n : nat) (l u : vec) : vec := fun j =>
  let V j := u j + l j in
  let M := - u j + rmax n l in
  V j + rmax n (fun k => Rabs (V k)) * (Rsgn M + 1).
Definition lower_line (n : nat) (l u : vec) (ft : option vec) : vec :=
  let w := one_hot (argmin n (lower_score n l u)) in
  match ft with
  | None => w
  | Some alpha =>
      let y j := alpha j * u j + (1 - alpha j) * l j in
      fun j => (1 - alpha j) * w j + alpha j * one_hot (argmax n y) j
  end.

(** ** the two functions on blocks: position (o, c, i) of a block pre ++ n :: post *)
Definition line_at (t : tensor) (n inner o i : nat) : vec := fun c => t 0%nat (flat n inner o c i).
Definition hull_axis (s : list nat) (axis : Z) : result nat :=
  let axis := if Z.eqb axis (Z.of_nat (length s + 1)) then (-1)%Z else axis in
  if (negb (Z.eqb axis (-1)) && Z.ltb axis 0)%bool then Err NotImplementedError else b_axis s axis.
(** the weights, one per entry of the block, and the biases, one per line *)
Definition by_line (n inner : nat) (w : nat -> nat -> vec) : tensor := fun _ q =>
  w (q / inner / n)%nat (q mod inner)%nat (q / inner mod n)%nat.
Definition per_line (inner : nat) (b : nat -> nat -> R) : tensor := fun _ q => b (q / inner)%nat (q mod inner)%nat.

Definition upper_hull_max (solve : nat -> mat -> vec -> vec) (sp : spec) (s : list nat) (axis : Z) (ts : list tensor)
  : result (tensor * tensor) :=
  r <- get_fullinputs sp true true ts ;
  a <- hull_axis s axis ;
  let n := ax_len s a in
  let inner := ax_inner s a in
  let sol o i := upper_line solve n (line_at (f_lc r) n inner o i) (line_at (f_uc r) n inner o i) in
  Ok (by_line n inner sol, per_line inner (fun o i => sol o i n)).

Definition lower_hull_max (sp : spec) (s : list nat) (axis : Z) (ft : option vec) (ts : list tensor)
  : result (tensor * tensor) :=
  r <- get_fullinputs sp true true ts ;
  a <- hull_axis s axis ;
  let n := ax_len s a in
  let inner := ax_inner s a in
  let fl o i := option_map (fun v => line_at (vt v) n inner o i) ft in
  let sol o i := lower_line n (line_at (f_lc r) n inner o i) (line_at (f_uc r) n inner o i) (fl o i) in
  Ok (by_line n inner sol, per_line inner (fun o i => rsum n (fun c => 0 * sol o i c))).

(** ** Constraints: src/decomon/layers/utils.py:29-77. A weight of shape k :: s: entry (i, q), i < k. *)
Inductive constraint := NonPos | NonNeg | ClipAlpha | ClipAlphaGrid.
Definition apply_constraint (k : nat) (c : constraint) (w : mat) : mat :=
  match c with
  | NonPos => fun i q => Rmin (w i q) 0
  | NonNeg => fun i q => Rmax (w i q) 0
  | ClipAlpha => fun i q => Rclip (w i q) 0 1
  | ClipAlphaGrid => fun i q => Rclip (w i q) 0 1 / Rmax (rsum k (fun i' => Rclip (w i' q) 0 1)) 1
  end.
(** utils.py:80-95 MultipleConstraint *)
Definition multiple_constraint (c0 : option constraint) (c1 : constraint) : list constraint :=
  match c0 with Some c => [c; c1] | None => [c1] end.
Definition apply_multiple (k : nat) (cs : list constraint) (w : mat) : mat :=
  fold_left (fun w c => apply_constraint k c w) cs w.

(** utils.py:59-67 ClipAlphaAndSumtoOne: shape of w / w_scale[:, None, None, None], w of shape k :: s, by numpy
    broadcasting (right-aligned); [None] when the shapes do not broadcast or when w_scale cannot be indexed *)
Fixpoint bc_rev (a b : list nat) : option (list nat) :=
  match a, b with
  | [], _ => Some b
  | _, [] => Some a
  | x :: a', y :: b' =>
      match bc_rev a' b' with
      | Some r => if Nat.eqb x y then Some (x :: r) else if Nat.eqb x 1 then Some (y :: r) else if Nat.eqb y 1 then Some (x :: r) else None
      | None => None
      end
  end.
Definition sum_to_one_shape (k : nat) (s : list nat) : option (list nat) :=
  match s with
  | [] => None
  | a :: q => option_map (@rev nat) (bc_rev (rev (k :: s)) (rev (a :: 1%nat :: 1%nat :: 1%nat :: q)))
  end.

(** a training step: the optimiser adds an arbitrary update, then Keras applies the constraint *)
Definition train_step (k : nat) (cs : list constraint) (w upd : mat) : mat :=
  apply_multiple k cs (fun i q => w i q + upd i q).
Definition train (k : nat) (cs : list constraint) (w : mat) (upds : list mat) : mat :=
  fold_left (train_step k cs) upds w.

(** utils.py:98-121 Project_initializer_pos / Project_initializer_neg *)
Definition project_initializer (pos : bool) (w : mat) : mat :=
  fun i q => if pos then Rmax 0 (w i q) else Rmin 0 (w i q).
