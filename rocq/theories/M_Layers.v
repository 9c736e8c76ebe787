(** Model of src/decomon/layers/decomon_layers.py, decomon_reshape.py, of the Concatenate and Dot layers of
    decomon_merge_layers.py and of permute_dimensions / broadcast (layers/utils.py). Definitions only. *)
From Coq Require Import Reals List Arith Bool ZArith.
From Verif Require Import RLib Spec Spec_Layers M_Core M_Utils M_MergeLayers M_Ops.
Import ListNotations.
Local Open Scope R_scope.

(** src/decomon/core.py:333-347 when the weights may have the rank of the biases
    ([same_rank] of get_upper / get_lower); [complete] is the case [false]. *)
Definition complete_r (same_rank : bool) (sp : spec) (ca ti : bool) (r : full tensor) : result (full tensor) :=
  if (ca && mode_eqb (sp_mode sp) AFFINE) || (ti && mode_eqb (sp_mode sp) HYBRID) then
    ua <- get_upper (sp_dom sp) (sp_n sp) same_rank (f_x r) (f_wu r) (f_bu r 0%nat) no_kw ;
    la <- get_lower (sp_dom sp) (sp_n sp) same_rank (f_x r) (f_wl r) (f_bl r 0%nat) no_kw ;
    let '(uc, lc) :=
      if mode_eqb (sp_mode sp) AFFINE then (vt ua, vt la)
      else (vt (fun j => Rmin (f_uc r 0%nat j) (ua j)), vt (fun j => Rmax (f_lc r 0%nat j) (la j))) in
    Ok (mk_full (f_x r) uc (f_wu r) (f_bu r) lc (f_wl r) (f_bl r) (f_h r) (f_g r))
  else Ok r.
Definition get_fullinputs_r (same_rank : bool) (sp : spec) (ca ti : bool) (ts : list tensor) : result (full tensor) :=
  r <- unpack empty_tensor (sp_mode sp) (sp_dc sp) ts ;
  complete_r same_rank sp ca ti r.

Definition tadd : tensor -> tensor -> tensor := ew2 Rplus.
(** adding a bias to every row *)
Definition tbias (b : vec) (t : tensor) : tensor := fun i j => t i j + b j.
Definition vadd_opt (b : option vec) (t : tensor) : tensor :=
  match b with Some v => tbias v t | None => t end.

(** ** DecomonDense.call: src/decomon/layers/decomon_layers.py:421-511 *)

(** K.dot(t, kernel) on a block whose last axis has length d *)
Definition kdot (d units : nat) (kernel : mat) (t : tensor) : tensor :=
  fun i j => rsum d (fun c => t i (j / units * d + c)%nat * kernel c (j mod units)%nat).
(** K.maximum(z_value, kernel) and K.minimum(z_value, kernel) *)
Definition kpos (k : mat) : mat := fun i j => Rmax 0 (k i j).
Definition kneg (k : mat) : mat := fun i j => Rmin 0 (k i j).
(** line 437: kernel = K.sum(kernel[None, :, :, None] * back_bound[:, None], 2) *)
Definition kback (units : nat) (kernel back : mat) : mat :=
  fun i k => rsum units (fun j => kernel i j * back j k).
(** line 495: b = K.sum(back_bound * bias[None, None], 1) *)
Definition bback (units : nat) (bias : vec) (back : mat) : vec :=
  fun k => rsum units (fun j => back j k * bias k).

(** positions: bias of unit j mod units *)
Definition tile (units : nat) (b : vec) : vec := fun j => b (j mod units)%nat.

(** [ident]: len(w_u.shape) == len(b_u.shape); [back]: the tensor inputs[-1] when has_backward_bounds *)
Definition dense_full (sp : spec) (d units : nat) (kernel : mat) (bias : option vec) (ident : bool) (back : option mat)
    (r : full tensor) : result (full tensor) :=
  let ibp := get_ibp (sp_mode sp) in
  let aff_ := get_affine (sp_mode sp) in
  let kd := kdot d units in
  let kp := kpos kernel in
  let kn := kneg kernel in
  let '(h_out, g_out) :=
    if sp_dc sp then (tadd (kd kp (f_h r)) (kd kn (f_g r)), tadd (kd kp (f_g r)) (kd kn (f_h r)))
    else (empty_tensor, empty_tensor) in
  let '(cp, cn) := match back with
                   | None => (kp, kn)
                   | Some c => (kpos (kback units kernel c), kneg (kback units kernel c))
                   end in
  let u_c := when ibp (tadd (kd cp (f_uc r)) (kd cn (f_lc r))) in
  let l_c := when ibp (tadd (kd cp (f_lc r)) (kd cn (f_uc r))) in
  if (aff_ && negb ident && is_some back)%bool then Err NotImplementedError else
  let '(w_u, b_u, w_l, b_l) :=
    if aff_ then
      if ident then (kernel, empty_tensor, kernel, empty_tensor)
      else (tadd (kd kp (f_wu r)) (kd kn (f_wl r)), tadd (kd kp (f_bu r)) (kd kn (f_bl r)),
            tadd (kd kp (f_wl r)) (kd kn (f_wu r)), tadd (kd kp (f_bl r)) (kd kn (f_bu r)))
    else (empty_tensor, empty_tensor, empty_tensor, empty_tensor) in
  match bias with
  | None => Ok (mk_full (f_x r) u_c w_u b_u l_c w_l b_l h_out g_out)
  | Some bv =>
      let b := match back with None => tile units bv | Some c => tile units (bback units bv c) end in
      if (sp_dc sp && is_some back)%bool then Err NotImplementedError else
      Ok (mk_full (f_x r) (when ibp (tbias b u_c)) w_u (when aff_ (tbias b b_u)) (when ibp (tbias b l_c)) w_l (when aff_ (tbias b b_l))
            (if sp_dc sp then tbias (tile units (fun j => Rmax 0 (bv j))) h_out else h_out)
            (if sp_dc sp then tbias (tile units (fun j => Rmin 0 (bv j))) g_out else g_out))
  end.

Definition decomon_dense (sp : spec) (d units : nat) (kernel : mat) (bias : option vec) (ident : bool) (back : option mat)
    (ts : list tensor) : result (list tensor) :=
  r <- get_fullinputs_r ident sp false true ts ;
  o <- dense_full sp d units kernel bias ident back r ;
  Ok (extract (sp_mode sp) (sp_dc sp) o).

(** src/decomon/layers/decomon_layers.py:407-419 set_back_bounds *)
Definition set_back_bounds (activation_is_linear built has_shape back : bool) : result bool :=
  if (negb activation_is_linear && back)%bool then Err ValueError
  else if (built && back && negb has_shape)%bool then Err ValueError
  else Ok back.

(** ** DecomonConv2D.call: src/decomon/layers/decomon_layers.py:139-255 *)
Definition k4pos (k : kernel4) : kernel4 := fun a b c d => Rmax 0 (k a b c d).
Definition k4neg (k : kernel4) : kernel4 := fun a b c d => Rmin 0 (k a b c d).
Definition kconv (g : conv_geo) (k : kernel4) (t : tensor) : tensor := fun i => conv2d g k (t i).
(** lines 233-238: the bias reshaped to (1,..,1,filters) or (1,filters,1,1) *)
Definition conv_bias (g : conv_geo) (b : vec) : vec := fun j => b (im_ch (cg_out g) j).

Definition conv_full (sp : spec) (g : conv_geo) (kernel : kernel4) (bias : option vec) (ident : bool)
    (r : full tensor) : result (full tensor) :=
  let ibp := get_ibp (sp_mode sp) in
  let aff_ := get_affine (sp_mode sp) in
  let conv_pos := kconv g (k4pos kernel) in
  let conv_neg := kconv g (k4neg kernel) in
  let '(h_out, g_out) :=
    if sp_dc sp then (tadd (conv_pos (f_h r)) (conv_neg (f_g r)), tadd (conv_pos (f_g r)) (conv_neg (f_h r)))
    else (empty_tensor, empty_tensor) in
  let u_c := when ibp (tadd (conv_pos (f_uc r)) (conv_neg (f_lc r))) in
  let l_c := when ibp (tadd (conv_pos (f_lc r)) (conv_neg (f_uc r))) in
  ws <- (if aff_ then
           if ident then
             let w : tensor := fun i => conv2d g kernel (fun k => if Nat.eqb k i then 1 else 0) in
             Ok (w, empty_tensor, w, empty_tensor)
           else
             (* x_max: computed, not used *)
             _ <- get_upper (sp_dom sp) (sp_n sp) false (f_x r) (ew2 Rminus (f_wu r) (f_wl r)) (ew2 Rminus (f_bu r) (f_bl r) 0%nat) no_kw ;
             Ok (tadd (conv_pos (f_wu r)) (conv_neg (f_wl r)), tadd (conv_pos (f_bu r)) (conv_neg (f_bl r)),
                 tadd (conv_pos (f_wl r)) (conv_neg (f_wu r)), tadd (conv_pos (f_bl r)) (conv_neg (f_bu r)))
         else Ok (empty_tensor, empty_tensor, empty_tensor, empty_tensor)) ;
  let '(w_u, b_u, w_l, b_l) := ws in
  match bias with
  | None => Ok (mk_full (f_x r) u_c w_u b_u l_c w_l b_l h_out g_out)
  | Some bv =>
      let b := conv_bias g bv in
      Ok (mk_full (f_x r) (when ibp (tbias b u_c)) w_u (when aff_ (tbias b b_u)) (when ibp (tbias b l_c)) w_l (when aff_ (tbias b b_l))
            (if sp_dc sp then tbias (conv_bias g (fun j => Rmax 0 (bv j))) h_out else h_out)
            (if sp_dc sp then tbias (conv_bias g (fun j => Rmin 0 (bv j))) g_out else g_out))
  end.

Definition decomon_conv2d (sp : spec) (g : conv_geo) (kernel : kernel4) (bias : option vec) (ident : bool)
    (ts : list tensor) : result (list tensor) :=
  r <- get_fullinputs_r ident sp false true ts ;
  o <- conv_full sp g kernel bias ident r ;
  Ok (extract (sp_mode sp) (sp_dc sp) o).

(** ** DecomonBatchNormalization.call: src/decomon/layers/decomon_layers.py:815-879.
    [s]: shape of the block, [axis]: Python axis, c channels *)
Definition bn_chan (s : list nat) (a : nat) (j : nat) : nat := (j / ax_inner s a mod ax_len s a)%nat.

Definition decomon_bn (sp : spec) (s : list nat) (axis : Z) (gamma beta : option vec) (mean var : vec) (eps : R)
    (training : bool) (ts : list tensor) : result (list tensor) :=
  if training then Err NotImplementedError else
  r <- get_fullinputs sp false true ts ;
  a <- b_axis s axis ;
  let ch := bn_chan s a in
  let ga := match gamma with Some g => g | None => fun _ => 1 end in
  let be := match beta with Some b => b | None => fun _ => 0 end in
  let nrm (t : tensor) : tensor := fun i j => (t i j - mean (ch j)) / sqrt (var (ch j) + eps) in
  let nrmw (t : tensor) : tensor := fun i j => t i j / sqrt (var (ch j) + eps) in
  let comb (t t' : tensor) : tensor := fun i j => Rmax 0 (ga (ch j)) * t i j + Rmin 0 (ga (ch j)) * t' i j in
  let combb (t t' : tensor) : tensor := fun i j => comb t t' i j + be (ch j) in
  let ibp := get_ibp (sp_mode sp) in
  let aff_ := get_affine (sp_mode sp) in
  finish sp (mk_full (f_x r) (when ibp (combb (nrm (f_uc r)) (nrm (f_lc r))))
     (when aff_ (comb (nrmw (f_wu r)) (nrmw (f_wl r)))) (when aff_ (combb (nrm (f_bu r)) (nrm (f_bl r))))
     (when ibp (combb (nrm (f_lc r)) (nrm (f_uc r))))
     (when aff_ (comb (nrmw (f_wl r)) (nrmw (f_wu r)))) (when aff_ (combb (nrm (f_bl r)) (nrm (f_bu r))))
     empty_tensor empty_tensor).

(** ** Moving entries of the block: [op] on constants and biases, [opw] on the weights *)
Definition move_full (sp : spec) (op opw : tensor -> tensor) (r : full tensor) : full tensor :=
  let ibp := get_ibp (sp_mode sp) in
  let aff_ := get_affine (sp_mode sp) in
  mk_full (f_x r) (when ibp (op (f_uc r))) (when aff_ (opw (f_wu r))) (when aff_ (op (f_bu r)))
          (when ibp (op (f_lc r))) (when aff_ (opw (f_wl r))) (when aff_ (op (f_bl r)))
          (when (sp_dc sp) (op (f_h r))) (when (sp_dc sp) (op (f_g r))).

(** entry j of the result is entry [idx j] *)
Definition gather (idx : nat -> nat) (t : tensor) : tensor := fun i j => t i (idx j).

(** DecomonFlatten.call: src/decomon/layers/decomon_layers.py:721-755.
    Flatten.call transposes channels_first blocks (ch, spatial) to (spatial, ch) before flattening;
    K.reshape of the weights does not. *)
Definition flatten_idx (channels_first : bool) (ch sp_size : nat) : nat -> nat :=
  if channels_first then fun j => (j mod ch * sp_size + j / ch)%nat else fun j => j.
Definition decomon_flatten (sp : spec) (channels_first : bool) (ch sp_size : nat) (ts : list tensor) : result (list tensor) :=
  r <- get_fullinputs sp false true ts ;
  Ok (extract (sp_mode sp) (sp_dc sp) (move_full sp (gather (flatten_idx channels_first ch sp_size)) (fun t => t) r)).

(** DecomonReshape.call: src/decomon/layers/decomon_reshape.py:72-114. A reshape keeps row-major positions. *)
Definition decomon_reshape (sp : spec) (ts : list tensor) : result (list tensor) :=
  r <- get_fullinputs sp false true ts ;
  Ok (extract (sp_mode sp) (sp_dc sp) (move_full sp (fun t => t) (fun t => t) r)).

(** K.transpose(t, perm): position read by output position j *)
Fixpoint index_of (a : nat) (l : list nat) : nat :=
  match l with [] => O | b :: q => if Nat.eqb a b then O else S (index_of a q) end.
Definition transpose_idx (s perm : list nat) (j : nat) : nat :=
  let q := unravel (permuted perm s) j in
  ravel s (map (fun a => nth (index_of a perm) q O) (seq 0 (length s))).

(** DecomonPermute.call: src/decomon/layers/decomon_reshape.py:180-218; [dims] are 1-based block axes *)
Definition decomon_permute (sp : spec) (s dims : list nat) (ts : list tensor) : result (list tensor) :=
  r <- get_fullinputs sp false true ts ;
  let op := gather (transpose_idx s (map pred dims)) in
  Ok (extract (sp_mode sp) (sp_dc sp) (move_full sp op op r)).

(** DecomonDropout.call: src/decomon/layers/decomon_layers.py:933-937 *)
Definition decomon_dropout (training : bool) (ts : list tensor) : result (list tensor) :=
  if training then Err NotImplementedError else Ok ts.

(** ** DecomonConcatenate.call: src/decomon/layers/decomon_merge_layers.py:438-479 *)

(** input number and local coordinate of a coordinate along the concatenated axis *)
Fixpoint locate (ks : list nat) (c : nat) : nat * nat :=
  match ks with
  | [] => (O, c)
  | k :: q => if c <? k then (O, c) else let '(t, c') := locate q (c - k) in (S t, c')
  end.
(** K.concatenate of blocks along position a, lengths ks, inner size *)
Definition cat_t (ks : list nat) (inner : nat) (ts : list tensor) : tensor := fun i j =>
  let k := total ks in
  let o := (j / inner / k)%nat in
  let '(t, c) := locate ks (j / inner mod k)%nat in
  nth t ts empty_tensor i (flat (nth t ks O) inner o c (j mod inner)).

(** shapes ss of the blocks; axis is normalised on rank+1 for the blocks and rank+2 for the weights.
    Blocks whose other dimensions differ raise in Keras: they are not considered. *)
Definition cat_lens (ss : list (list nat)) (a : nat) : list nat := map (fun s => ax_len s a) ss.
Definition decomon_concatenate (sp : spec) (ss : list (list nat)) (axis : Z) (ts : list tensor) : result (list tensor) :=
  r <- get_fullinputs_by_type sp false true ts ;
  let s := nth 0 ss [] in
  ab <- b_axis s axis ;
  aw <- (if get_affine (sp_mode sp) then w_axis s (shift_axis axis) else Ok O) ;
  let op := cat_t (cat_lens ss ab) (ax_inner s ab) in
  let opw := cat_t (cat_lens ss aw) (ax_inner s aw) in
  let ibp := get_ibp (sp_mode sp) in
  let aff_ := get_affine (sp_mode sp) in
  finish sp (mk_full (nth 0 (f_x r) empty_tensor) (when ibp (op (f_uc r))) (when aff_ (opw (f_wu r))) (when aff_ (op (f_bu r)))
     (when ibp (op (f_lc r))) (when aff_ (opw (f_wl r))) (when aff_ (op (f_bl r))) empty_tensor empty_tensor).

(** ** permute_dimensions: src/decomon/layers/utils.py:524-587, axis_perm = 1.
    index = insert(delete(arange(rank), axis), 1, axis); index_w = insert(delete(arange(rank + 1), axis), 2, axis). *)
Definition delete_nth {A} (a : nat) (l : list A) : list A := firstn a l ++ skipn (S a) l.
Definition insert_nth {A} (k : nat) (x : A) (l : list A) : list A := firstn k l ++ x :: skipn k l.
(** permutation used by K.transpose on a tensor of the given rank (negative entries count from the end) *)
Definition move_axis (rank k : nat) (axis : Z) : result (list nat) :=
  a <- norm_axis rank axis ; Ok (insert_nth k a (delete_nth a (seq 0 rank))).

(** a permutation of (batch, block): read on the block. It must keep the batch axis first. *)
Definition drop_batch (perm : list nat) : result (list nat) :=
  match perm with O :: q => Ok (map pred q) | _ => Err ValueError end.
(** a permutation of (batch, input, block): K.transpose of the weights, whose row-major position is i * prodn s + j *)
Definition transpose_w (n : nat) (s perm : list nat) (t : tensor) : tensor := fun i j =>
  let s' := permuted perm (n :: s) in
  let p := transpose_idx (n :: s) perm (i * prodn (tl s') + j) in
  t (p / prodn s)%nat (p mod prodn s)%nat.

Definition permute_dimensions (sp : spec) (s : list nat) (axis : Z) (ts : list tensor) : result (list tensor) :=
  r <- get_fullinputs sp false false ts ;
  if length s <=? 1 then Ok ts else
  index <- move_axis (length s + 1) 1 axis ;
  perm <- drop_batch index ;
  index_w <- move_axis (length s + 2) 2 axis ;
  perm_w <- drop_batch index_w ;
  finish sp (move_full sp (gather (transpose_idx s perm)) (transpose_w (sp_n sp) s perm_w) r).

(** ** DecomonDot.call: src/decomon/layers/decomon_merge_layers.py:573-633.
    Blocks after permute_dimensions: (k, rest). broadcast + multiply read the entry (c, r0, r1) of the product at
    (c, r0) and (c, r1) (numpy broadcasting); then K.sum along the first axis of the block. *)
Definition dot_idx0 (n0 n1 : nat) (j : nat) : nat := (j / n1)%nat.
Definition dot_idx1 (n0 n1 : nat) (j : nat) : nat := (j / (n0 * n1) * n1 + j mod n1)%nat.
Definition broadcast (sp : spec) (idx : nat -> nat) (ts : list tensor) : result (list tensor) :=
  r <- get_fullinputs sp false false ts ;
  if sp_dc sp then Err NotImplementedError else
  Ok (extract (sp_mode sp) (sp_dc sp) (move_full sp (gather idx) (gather idx) r)).

(** shape of the block after permute_dimensions *)
Definition permuted_shape (s : list nat) (axis : Z) : result (list nat) :=
  if length s <=? 1 then Ok s else
  index <- move_axis (length s + 1) 1 axis ;
  perm <- drop_batch index ;
  Ok (permuted perm s).
(** shape of the weights after permute_dimensions *)
Definition permuted_shape_w (n : nat) (s : list nat) (axis : Z) : result (list nat) :=
  if length s <=? 1 then Ok (n :: s) else
  index <- move_axis (length s + 2) 2 axis ;
  perm <- drop_batch index ;
  Ok (permuted perm (n :: s)).
Definition shape_eqb (a b : list nat) : bool := if list_eq_dec Nat.eq_dec a b then true else false.

Definition decomon_dot (sp : spec) (s0 s1 : list nat) (axis0 axis1 : Z) (ts : list tensor) : result (list tensor) :=
  if sp_dc sp then Err NotImplementedError else
  match split_to_merge (nb_tensors (sp_mode sp) (sp_dc sp)) ts with
  | [_] => Ok ts
  | [in0; in1] =>
      (* permute_dimensions is called with its default perturbation domain *)
      let spb := mk_spec (sp_dc sp) (sp_mode sp) Box (sp_n sp) in
      p0 <- permute_dimensions spb s0 axis0 in0 ;
      p1 <- permute_dimensions spb s1 axis1 in1 ;
      t0 <- permuted_shape s0 axis0 ;
      t1 <- permuted_shape s1 axis1 ;
      tw0 <- permuted_shape_w (sp_n sp) s0 axis0 ;
      tw1 <- permuted_shape_w (sp_n sp) s1 axis1 ;
      (* incompatible shapes raise in the element-wise product *)
      if (get_affine (sp_mode sp) && negb (shape_eqb tw0 (sp_n sp :: t0) && shape_eqb tw1 (sp_n sp :: t1)))%bool
      then Err ValueError else
      let n0 := prodn (tl t0) in
      let n1 := prodn (tl t1) in
      let k := hd 1%nat t0 in
      if negb (Nat.eqb k (hd 1%nat t1)) then Err ValueError else
      b0 <- broadcast sp (dot_idx0 n0 n1) p0 ;
      b1 <- broadcast sp (dot_idx1 n0 n1) p1 ;
      o <- multiply sp b0 b1 ;
      r <- get_fullinputs sp false true o ;
      finish sp (move_full sp (red_axis rsum [k; (n0 * n1)%nat] 0) (red_axis rsum [k; (n0 * n1)%nat] 0) r)
  | _ => Err NotImplementedError
  end.
