(** Model of src/decomon/backward_layers/*.py and src/decomon/models/crown.py. Definitions only.
    Batch axis dropped, except in the shape computations at the end. *)
From Coq Require Import Reals List Arith Bool ZArith.
From Verif Require Import RLib Spec Spec_Layers Spec_Backward M_Core M_Utils M_MergeLayers M_Ops M_Layers M_Pool.
Import ListNotations.
Local Open Scope R_scope.

(** ** models/crown.py *)

(** weights of rank 2 (batch, n) or 3 (batch, n_in, n_out) *)
Inductive wt := WDiag (v : vec) | WFull (w : mat).
(** BatchedDiagLike: src/decomon/keras_utils.py:41-63 *)
Definition diag (v : vec) : mat := fun i j => if Nat.eqb i j then v j else 0.
Definition full_w (w : wt) : mat := match w with WDiag v => diag v | WFull w => w end.

(** batch_dot(a, b, (-1, -2)), contraction on n_h *)
Definition mm (n_h : nat) (a b : mat) : mat := fun i j => rsum n_h (fun k => a i k * b k j).
Definition vm (n_h : nat) (v : vec) (b : mat) : vec := fun j => rsum n_h (fun k => v k * b k j).
Definition mpos (w : mat) : mat := fun i j => Rmax (w i j) 0.
Definition mneg (w : mat) : mat := fun i j => Rmin (w i j) 0.

(** crown.py:149-186 merge_with_previous *)
Definition merge_with_previous (n_h : nat) (w_u_out : wt) (b_u_out : vec) (w_l_out : wt) (b_l_out : vec)
    (w_b_u : wt) (b_b_u : vec) (w_b_l : wt) (b_b_l : vec) : bb :=
  let w_u_out := full_w w_u_out in
  let w_l_out := full_w w_l_out in
  let w_b_u := full_w w_b_u in
  let w_b_l := full_w w_b_l in
  mk_bb
    (fun i j => mm n_h w_u_out (mpos w_b_u) i j + mm n_h w_l_out (mneg w_b_u) i j)
    (fun j => vm n_h b_u_out (mpos w_b_u) j + vm n_h b_l_out (mneg w_b_u) j + b_b_u j)
    (fun i j => mm n_h w_l_out (mpos w_b_l) i j + mm n_h w_u_out (mneg w_b_l) i j)
    (fun j => vm n_h b_l_out (mpos w_b_l) j + vm n_h b_u_out (mneg w_b_l) j + b_b_l j).

Definition merge_bb (n_h : nat) (B D : bb) : bb :=
  merge_with_previous n_h (WFull (bb_wu B)) (bb_bu B) (WFull (bb_wl B)) (bb_bl B)
    (WFull (bb_wu D)) (bb_bu D) (WFull (bb_wl D)) (bb_bl D).

(** crown.py:136-147 merge_with_previous_compute_output_shape; shapes without the batch axis.
    The unpacking of a shape into three names raises ValueError when its rank is not 3 *)
Definition merge_output_shape (shapes : list (list nat)) : result (list (list nat)) :=
  match shapes with
  | w_out :: _ :: _ =>
      match rev shapes with
      | b_b :: w_b :: _ =>
          match w_out, w_b with
          | [n_in; _], [_; n_out] => Ok [[n_in; n_out]; b_b; [n_in; n_out]; b_b]
          | _, _ => Err ValueError
          end
      | _ => Err ValueError
      end
  | _ => Err ValueError
  end.
(** shapes of the tensors actually computed by merge_with_previous *)
Definition diag_shape (s : list nat) : list nat := match s with [n] => [n; n] | _ => s end.
Definition mm_shape (a b : list nat) : result (list nat) :=
  match a, b with
  | [n; h], [h'; k] => if Nat.eqb h h' then Ok [n; k] else Err ValueError
  | [h], [h'; k] => if Nat.eqb h h' then Ok [k] else Err ValueError
  | _, _ => Err ValueError
  end.
Definition merge_shape (shapes : list (list nat)) : result (list (list nat)) :=
  match shapes with
  | [w_u_out; b_u_out; w_l_out; b_l_out; w_b_u; b_b_u; w_b_l; b_b_l] =>
      w_u <- mm_shape (diag_shape w_u_out) (diag_shape w_b_u) ;
      w_l <- mm_shape (diag_shape w_l_out) (diag_shape w_b_l) ;
      b_u <- mm_shape b_u_out (diag_shape w_b_u) ;
      b_l <- mm_shape b_l_out (diag_shape w_b_l) ;
      Ok [w_u; b_u; w_l; b_l]
  | _ => Err ValueError
  end.

(** crown.py:13-31 Fuse.call: [ts] are the tensors of the input node; [n_h] its number of neurons *)
Definition fuse (mode : fmode) (n_h : nat) (ts : list tensor) (B : bb) : result bb :=
  match mode, ts with
  | AFFINE, [x; wu; bu; wl; bl] => Ok (merge_bb n_h (mk_bb wu (bu 0%nat) wl (bl 0%nat)) B)
  | HYBRID, [x; u; wu; bu; l; wl; bl] => Ok (merge_bb n_h (mk_bb wu (bu 0%nat) wl (bl 0%nat)) B)
  | IBP, _ => Ok B
  | _, _ => Err ValueError
  end.

(** crown.py:66-92 Convert2BackwardMode.call. In ibp mode x_0 has rank 3, as for a box; the methods of a ball
    expect rank 2, their shapes do not match (modelled as an error) *)
Definition convert2backward (mode : fmode) (D : domain) (n : nat) (ts : list tensor) (B : bb) : result (list tensor) :=
  x_0 <- match mode, ts with
         | IBP, [u_c; l_c] => Ok (fun c => if Nat.eqb c 0 then l_c 0%nat else u_c 0%nat)
         | IBP, _ => Err ValueError
         | _, x :: _ => Ok x
         | _, [] => Err IndexError
         end ;
  match mode with
  | AFFINE => Ok [x_0; bb_wu B; vt (bb_bu B); bb_wl B; vt (bb_bl B)]
  | _ =>
      if (mode_eqb mode IBP && match D with Box => false | Ball _ _ => true end)%bool then Err ValueError else
      u <- get_upper D n false x_0 (bb_wu B) (bb_bu B) no_kw ;
      l <- get_lower D n false x_0 (bb_wl B) (bb_bl B) no_kw ;
      match mode with
      | IBP => Ok [vt u; vt l]
      | _ => Ok [x_0; vt u; bb_wu B; vt (bb_bu B); vt l; bb_wl B; vt (bb_bl B)]
      end
  end.

(** ** backward_layers/utils.py *)

(** utils.py:649-669 get_identity_lirpa *)
Definition id_mat : mat := fun i j => if Nat.eqb i j then 1 else 0.
Definition zero_vec : vec := fun _ => 0.
Definition identity_lirpa : bb := mk_bb id_mat zero_vec id_mat zero_vec.

(** utils.py:24-82 backward_add; m neurons *)
Definition backward_add (sp : spec) (m : nat) (in0 in1 : list tensor) (out : bb) : result (bb * bb) :=
  r0 <- get_fullinputs sp true true in0 ;
  r1 <- get_fullinputs sp true true in1 ;
  let up (r : full tensor) := get_upper_box m false (f_lc r 0%nat) (f_uc r 0%nat) (bb_wu out) (bb_bu out) in
  let lo (r : full tensor) := get_lower_box m false (f_lc r 0%nat) (f_uc r 0%nat) (bb_wl out) (bb_bl out) in
  Ok (mk_bb (bb_wu out) (up r1) (bb_wl out) (lo r1), mk_bb (bb_wu out) (up r0) (bb_wl out) (lo r0)).

(** utils.py:160-226 backward_maximum *)
Definition backward_maximum (ke : R) (sp : spec) (m : nat) (in0 in1 : list tensor) (out : bb) : result (bb * bb) :=
  a_0 <- subtract sp in0 in1 ;
  step_0 <- relu_ ke sp V_SLOPE None a_0 ;
  p_1 <- backward_add sp m step_0 in1 out ;
  a_1 <- subtract sp in1 in0 ;
  step_1 <- relu_ ke sp V_SLOPE None a_1 ;
  p_0 <- backward_add sp m step_1 in0 out ;
  Ok (snd p_0, snd p_1).

(** utils.py:405-424 backward_minus *)
Definition vopp (v : vec) : vec := fun j => - v j.
Definition mopp (w : mat) : mat := fun i j => - w i j.
Definition backward_minus (out : bb) : bb := mk_bb (mopp (bb_wl out)) (vopp (bb_bl out)) (mopp (bb_wu out)) (vopp (bb_bu out)).

(** utils.py:427-452 backward_scale *)
Definition mscal (c : R) (w : mat) : mat := fun i j => c * w i j.
Definition vscal (c : R) (v : vec) : vec := fun j => c * v j.
Definition backward_scale (c : R) (out : bb) : bb :=
  if Rle_dec 0 c then mk_bb (mscal c (bb_wu out)) (bb_bu out) (mscal c (bb_wl out)) (bb_bl out)
  else mk_bb (mscal c (bb_wl out)) (bb_bl out) (mscal c (bb_wu out)) (bb_bu out).

(** utils.py:352-402 backward_minimum *)
Definition backward_minimum (ke : R) (sp : spec) (m : nat) (in0 in1 : list tensor) (out : bb) : result (bb * bb) :=
  p <- backward_maximum ke sp m in0 in1 (backward_minus out) ;
  Ok (backward_minus (fst p), backward_minus (snd p)).

(** utils.py:455-498 backward_subtract *)
Definition backward_subtract (sp : spec) (m : nat) (in0 in1 : list tensor) (out : bb) : result (bb * bb) :=
  m_1 <- minus sp in1 ;
  p <- backward_add sp m in0 m_1 out ;
  let b_1 := snd p in
  Ok (fst p, mk_bb (mopp (bb_wu b_1)) (bb_bu b_1) (mopp (bb_wl b_1)) (bb_bl b_1)).

(** utils.py:230-349 backward_max_ on a block of shape (k,), axis = -1. The i-th slice has one neuron.
    [pairs]: the (output_tmp, output_i) of lines 301-309, first one first. *)
Fixpoint max_pairs (ke : R) (sp : spec) (tmp : list tensor) (rest : list (list tensor)) : result (list (list tensor * list tensor)) :=
  match rest with
  | [] => Ok []
  | o :: q =>
      t <- maximum ke sp None tmp o ;
      l <- max_pairs ke sp t q ;
      Ok ((tmp, o) :: l)
  end.
(** lines 311-320, on the reversed pairs: bounds, last slice first. backward_maximum is called with its default
    perturbation domain (a box) *)
Fixpoint max_bounds (ke : R) (sp : spec) (pairs : list (list tensor * list tensor)) (out : bb) : result (list bb) :=
  match pairs with
  | [] => Ok [out]
  | (i0, i1) :: q =>
      p <- backward_maximum ke sp 1 i0 i1 out ;
      l <- max_bounds ke sp q (fst p) ;
      Ok (snd p :: l)
  end.
Definition sum_v (l : list vec) : vec := fun j => fold_right (fun v a => v j + a) 0 l.
Definition rows (l : list mat) : mat := fun i => nth i l (fun _ _ => 0) 0%nat.
Definition backward_max_ (ke : R) (sp : spec) (k : nat) (ts : list tensor) (out : bb) : result bb :=
  if sp_dc sp then Err NotImplementedError else
  r <- get_fullinputs sp false false ts ;
  let sl i := extract (sp_mode sp) false (slice_full [k] 0 0 i r) in
  pairs <- max_pairs ke sp (sl 0%nat) (map sl (seq 1 (k - 1))) ;
  match pairs with
  | [] => Err ValueError  (* K.concatenate([]) *)
  | _ =>
      l <- max_bounds ke (mk_spec (sp_dc sp) (sp_mode sp) Box (sp_n sp)) (rev pairs) out ;
      let l := rev l in
      Ok (mk_bb (rows (map bb_wu l)) (sum_v (map bb_bu l)) (rows (map bb_wl l)) (sum_v (map bb_bl l)))
  end.

(** utils.py:540-560: the McCormick coefficients of backward_multiply for one neuron, first operand:
    ((a_u_0, b_u_0), (a_l_0, b_l_0)); the second operand exchanges the roles *)
Definition mult_coeffs (u0 l0 u1 l1 : R) : (R * R) * (R * R) :=
  ((u1, Rmax l0 0 * u1 + Rmin l0 0 * l1 - u1 * l0), (l1, Rmax l0 0 * l1 + Rmin l0 0 * u1 - l1 * l0)).
(** numpy broadcasting of two shapes *)
Definition bc_shape (a b : list nat) : result (list nat) :=
  match bc_rev (rev a) (rev b) with Some r => Ok (rev r) | None => Err ValueError end.
(** utils.py:543-569: shape of w_u_out_0 for a batch, block of n neurons, w_u_out of shape [batch; n; k];
    n_shape = [-1, n] + [1] * len(w_u_out.shape[1:]) *)
Definition mult_w_shape (batch n k : nat) : result (list nat) := bc_shape [batch; n; k] [batch; n; 1%nat; 1%nat].

(** utils.py:584-646 backward_sort, shapes only, block (n,), downstream weights [batch; n; k].
    K.reshape(t, [-1, n, n]) of a tensor with [batch * n] entries *)
Definition reshape_nn (entries n : nat) : result (list nat) :=
  if Nat.eqb (entries mod (n * n)) 0 then Ok [(entries / (n * n))%nat; n; n] else Err ValueError.
(** K.sum(t, 1) *)
Definition sum_axis1 (s : list nat) : list nat := match s with a :: _ :: q => a :: q | _ => s end.
Definition sort_w_shape (batch n k : nat) : result (list nat) :=
  w_tmp <- reshape_nn (batch * n) n ;
  p <- bc_shape [batch; n; k] (w_tmp ++ [1%nat]) ;
  Ok (sum_axis1 p).

(** ** backward_layers/activations.py: hulls of the neurons *)

(** activations.py:42-87 backward_relu *)
Definition backward_relu (ke : R) (sp : spec) (alpha : R) (max_value : option R) (threshold : R) (sl : slope)
    (upper_grid : bool) (ft : option vec) (ts : list tensor) : result (nat -> hull) :=
  if sp_dc sp then Err NotImplementedError else
  if Req_EM_T threshold 0 then
    if Req_EM_T alpha 0 then
      match max_value with
      | None =>
          r <- get_fullinputs sp true true ts ;
          if upper_grid then Err NotImplementedError else
          Ok (fun j => hull_relu ke sl (option_map (fun v : vec => v j) ft) (f_uc r 0%nat j) (f_lc r 0%nat j))
      | Some _ => Err NotImplementedError
      end
    else Err NotImplementedError
  else Err NotImplementedError.

(** activations.py:90-149 backward_sigmoid, backward_tanh; 328-356 backward_softsign (no test on dc_decomp) *)
Definition backward_s (ke : R) (sp : spec) (check_dc : bool) (f fp : R -> R) (ts : list tensor) : result (nat -> hull) :=
  if (check_dc && sp_dc sp)%bool then Err NotImplementedError else
  r <- get_fullinputs sp true true ts ;
  Ok (fun j => hull_s_shape ke f fp (f_uc r 0%nat j) (f_lc r 0%nat j)).

(** activations.py:297-325 backward_softplus; m neurons *)
Definition backward_softplus (ke : R) (sp : spec) (sl : slope) (ft : option (vec * vec)) (m : nat) (ts : list tensor) : result (nat -> hull) :=
  if sp_dc sp then Err NotImplementedError else
  r <- get_fullinputs sp true true ts ;
  l <- hulls (fun j => hull_softplus ke sl (option_map (fun p : vec * vec => (fst p j, snd p j)) ft) (f_uc r 0%nat j) (f_lc r 0%nat j)) m ;
  Ok (fun j => nth j l zero_hull).

(** activation names known to activations.deserialize (lines 426-458), after name.lower() *)
Inductive act := ActSoftmax | ActElu | ActSelu | ActSoftplus | ActSoftsign | ActSigmoid | ActTanh | ActRelu | ActExponential | ActLinear.

(** backward_layers.py:374-405 BackwardActivation.call. [ft_l], [ft_u]: alpha_b_l, alpha_b_u when finetune *)
Definition hull_bb (hl : nat -> hull) : bb :=
  mk_bb (diag (fun j => h_wu (hl j))) (fun j => h_bu (hl j)) (diag (fun j => h_wl (hl j))) (fun j => h_bl (hl j)).
Definition backward_activation (ke : R) (sp : spec) (a : act) (sl : slope) (ft : option (vec * vec)) (m : nat) (ts : list tensor) : result bb :=
  match a with
  | ActLinear => Ok identity_lirpa
  | ActRelu => hl <- backward_relu ke sp 0 None 0 sl false (option_map snd ft) ts ; Ok (hull_bb hl)
  | ActSigmoid => hl <- backward_s ke sp true sigmoid sigmoid_prime ts ; Ok (hull_bb hl)
  | ActTanh => hl <- backward_s ke sp true tanh tanh_prime ts ; Ok (hull_bb hl)
  | ActSoftsign => hl <- backward_s ke sp false softsign softsign_prime ts ; Ok (hull_bb hl)
  | ActSoftplus => hl <- backward_softplus ke sp sl ft m ts ; Ok (hull_bb hl)
  | ActSoftmax | ActElu | ActSelu | ActExponential => Err NotImplementedError
  end.

(** shape of the weights returned by BackwardActivation.call on a block of shape s: backward_relu and
    backward_softsign flatten the hull, backward_sigmoid, backward_tanh and backward_softplus do not;
    BatchedDiagLike is applied to weights of rank 2 only *)
Definition act_w_shape (a : act) (s : list nat) : list nat :=
  let n := prodn s in
  match a with
  | ActLinear | ActRelu | ActSoftsign => [n; n]
  | _ => match s with [k] => [k; k] | _ => s end
  end.

(** ** backward_layers/backward_layers.py *)

(** lines 68-101 BackwardDense.call on a block (rows, d): block-diagonal kernel *)
Definition block_diag (d units : nat) (kernel : mat) : mat :=
  fun i j => if Nat.eqb (i / d) (j / units) then kernel (i mod d)%nat (j mod units)%nat else 0.
Definition backward_dense (d units : nat) (kernel : mat) (bias : option vec) : bb :=
  let w := block_diag d units kernel in
  let b := match bias with Some v => tile units v | None => zero_vec end in
  mk_bb w b w b.

(** utils_conv.py:33-100 get_toeplitz_channels_last: patches of the identity, flattened (row-major) input i:
    entry (i; oy, ox, f, ci), f = ky * filter_size + kx *)
Definition patch (gy gx : win) (cin i oy ox ky kx ci : nat) : R :=
  px (fun k => if Nat.eqb k i then 1 else 0) (px_src true gy gx cin oy ox ky kx ci).
Definition toeplitz (gy gx : win) (cin cout : nat) (kernel : kernel4) : mat := fun i j =>
  let ho := wn_out gy in
  let wo := wn_out gx in
  let o := mk_img ho wo cout true in
  let fs := wn_k gy in
  rsum cin (fun ci => rsum (fs * fs) (fun f =>
    patch gy gx cin i (im_y o j) (im_x o j) (f / fs) (f mod fs) ci * kernel (f / fs)%nat (f mod fs)%nat ci (im_ch o j))).
(** lines 103-160 get_toeplitz_channels_first: the patches are taken with strides and dilation 1 on an image with the
    channels last, then reshaped with the output sizes of the layer (channels_first image) *)
Definition win1 (g : win) : win := mk_win (wn_in g) (wn_k g) 1 1 (wn_same g).
Definition get_toeplitz (g : conv_geo) (kernel : kernel4) : result mat :=
  let gy := cg_y g in
  let gx := cg_x g in
  (* K.reshape(kernel, (filter_size ** 2, c_in, c_out)) *)
  if negb (Nat.eqb (wn_k gy * wn_k gx) (wn_k gy * wn_k gy)) then Err ValueError else
  if cg_last g then Ok (toeplitz gy gx (cg_cin g) (cg_cout g) kernel)
  else
    (* K.reshape(diag_patches, (w_in, h_in, c_in, w_out, h_out, filter_size**2, c_in)) *)
    if negb (Nat.eqb (wn_out (win1 gy) * wn_out (win1 gx)) (wn_out gy * wn_out gx)) then Err ValueError else
    Ok (fun i j =>
      let o := mk_img (wn_out gy) (wn_out gx) (cg_cout g) true in
      let fs := wn_k gy in
      let q := (im_y o j * wn_out gx + im_x o j)%nat in
      rsum (cg_cin g) (fun ci => rsum (fs * fs) (fun f =>
        patch (win1 gy) (win1 gx) (cg_cin g) i (q / wn_out (win1 gx)) (q mod wn_out (win1 gx)) (f / fs) (f mod fs) ci *
        kernel (f / fs)%nat (f mod fs)%nat ci (im_ch o j)))).
(** backward_layers.py:132-228 BackwardConv2D.get_affine_components, call *)
Definition backward_conv2d (g : conv_geo) (kernel : kernel4) (bias : option vec) : result bb :=
  w <- get_toeplitz g kernel ;
  let b := match bias with Some v => conv_bias g v | None => zero_vec end in
  Ok (mk_bb w b w b).

(** backward_layers.py:574-606 BackwardBatchNormalization.call; [a]: position of the axis in the block s *)
Definition backward_bn (s : list nat) (a : nat) (gamma beta : option vec) (mean var : vec) (eps : R) : bb :=
  let ga := match gamma with Some g => g | None => fun _ => 1 end in
  let be := match beta with Some b => b | None => fun _ => 0 end in
  let w : vec := fun c => ga c / sqrt (var c + eps) in
  let b : vec := fun c => be c - w c * mean c in
  let w_b : mat := fun i j => (if Nat.eqb i j then 1 else 0) * w (bn_chan s a i) in
  let b_b : vec := fun j => b (bn_chan s a j) in
  mk_bb w_b b_b w_b b_b.

(** backward_layers.py:434-483, 527-549, 609-: Flatten, Reshape, Dropout, InputLayer *)
Definition backward_identity : bb := identity_lirpa.

(** backward_layers.py:506-524 BackwardPermute.call: the identity, reshaped to s ++ [n], transposed by argsort(dims)
    (the inverse permutation) and reshaped *)
Definition inverse_perm (perm : list nat) : list nat := map (fun a => index_of a perm) (seq 0 (length perm)).
Definition backward_permute (s dims : list nat) : bb :=
  let inv := inverse_perm (map pred dims) in
  let w : mat := fun i j => id_mat (transpose_idx s inv i) j in
  mk_bb w zero_vec w zero_vec.

(** ** backward_layers/backward_merge.py: BackwardXxx.call *)
Definition split_in (sp : spec) (ts : list tensor) : list (list tensor) := split_to_merge (nb_tensors (sp_mode sp) (sp_dc sp)) ts.

(** lines 164-189 *)
Definition backward_add_layer (sp : spec) (m : nat) (ts : list tensor) : result (list bb) :=
  match split_in sp ts with
  | [_] => Ok [identity_lirpa]
  | [in0; in1] => p <- backward_add sp m in0 in1 identity_lirpa ; Ok [fst p; snd p]
  | _ => Err NotImplementedError
  end.
(** lines 275-296, 320-341, 365-386: merges of exactly two inputs *)
Definition backward_merge2 (op : list tensor -> list tensor -> bb -> result (bb * bb)) (sp : spec) (ts : list tensor) : result (list bb) :=
  match split_in sp ts with
  | [in0; in1] => p <- op in0 in1 identity_lirpa ; Ok [fst p; snd p]
  | _ => Err NotImplementedError
  end.
Definition backward_subtract_layer (sp : spec) (m : nat) := backward_merge2 (backward_subtract sp m) sp.
Definition backward_maximum_layer (ke : R) (sp : spec) (m : nat) := backward_merge2 (backward_maximum ke sp m) sp.
Definition backward_minimum_layer (ke : R) (sp : spec) (m : nat) := backward_merge2 (backward_minimum ke sp m) sp.

(** lines 215-251 BackwardAverage.call; [j] runs from n_elem - 1 down to 1; [acc] is input_bounds (last added first).
    self.op is DecomonAdd with dc_decomp=False *)
Definition bb_scale (c : R) (B : bb) : bb := mk_bb (mscal c (bb_wu B)) (vscal c (bb_bu B)) (mscal c (bb_wl B)) (vscal c (bb_bl B)).
Fixpoint average_loop (sp : spec) (m : nat) (ins : list (list tensor)) (j : nat) (out : bb) (acc : list bb) : result (list bb) :=
  match j with
  | O => Ok acc
  | S j' =>
      in0 <- (if Nat.eqb j 1 then Ok (nth 0 ins []) else decomon_add (no_dc sp) (concat (firstn (j - 1) ins))) ;
      p <- backward_add sp m in0 (nth j ins []) out ;
      average_loop sp m ins j' (fst p) (if Nat.eqb j 1 then fst p :: snd p :: acc else snd p :: acc)
  end.
Definition backward_average_layer (sp : spec) (m : nat) (ts : list tensor) : result (list bb) :=
  let ins := split_in sp ts in
  match ins with
  | [_] => Ok [identity_lirpa]
  | _ =>
      l <- average_loop sp m ins (length ins - 1) identity_lirpa [] ;
      Ok (map (bb_scale (1 / INR (length ins))) l)
  end.

(** lines 411-431 BackwardConcatenate.call on blocks of shape (n_i,), axis = -1, shapes only: the identity has the size
    of the last input; K.split at the cumulated sizes along the last axis (numpy: empty pieces past the end) *)
Fixpoint split_sizes (len : nat) (cuts : list nat) (from : nat) : list nat :=
  match cuts with
  | [] => [(len - Nat.min from len)%nat]
  | c :: q => (Nat.min c len - Nat.min from len)%nat :: split_sizes len q c
  end.
Fixpoint cumsum (acc : nat) (l : list nat) : list nat := match l with [] => [] | k :: q => (acc + k)%nat :: cumsum (acc + k) q end.
Definition backward_concat_shapes (ns : list nat) : list (list nat) :=
  let n := last ns O in
  map (fun c => [n; c]) (split_sizes n (cumsum 0 (removelast ns)) 0).

(** backward_maxpooling.py: the constructor always raises *)
Definition backward_maxpool_layer : result bb := Err NotImplementedError.
