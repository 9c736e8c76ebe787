(** The backward pass (crown) on tensors with their batch axis: backward layers, MergeWithPrevious, Fuse,
    Convert2BackwardMode, crown_, get_input_nodes, convert_backward. Definitions only. Same conventions as M_Batch;
    fuse = True, no back bounds, one output, no nested model. *)
From Coq Require Import Reals List Arith Bool ZArith.
From Verif Require Import RLib Spec Spec_Batch M_Core M_Utils M_MergeLayers M_Ops M_Backward M_Convert M_Network M_Batch.
Import ListNotations.
Local Open Scope R_scope.

(** w_u, b_u, w_l, b_l *)
Record tbb := mk_tbb { tb_wu : nd; tb_bu : nd; tb_wl : nd; tb_bl : nd }.
(** inputs[-1] *)
Definition last_nd (T : list nd) : nd := last T none_nd.

(** ** backward_layers *)
(** backward_layers/utils.py:649-661 get_identity_lirpa *)
Definition t_identity_lirpa (T : list nd) : result tbb :=
  let y := last_nd T in
  y_flat <- k_reshape y [prodn (tl (nd_shape y))] ;
  let w := k_identity y_flat in
  let b := k1 (fun _ => 0) y_flat in
  Ok (mk_tbb w b w b).
(** backward_layers.py:68-101 BackwardDense.call: K.concatenate of an empty list fails *)
Definition t_backward_dense (kernel : nd) (bias : option nd) (T : list nd) : result tbb :=
  let y := last_nd T in
  match nd_shape y, nd_shape kernel with
  | B :: s, [d; units] =>
      let rows := prodn (removelast s) in
      if Nat.eqb rows 0 then Err ValueError else
      let h := (rows * d)%nat in
      let k := (rows * units)%nat in
      let w := mk_nd [B; h; k] (fun q =>
                 let i := ((q / k) mod h)%nat in
                 let j := (q mod k)%nat in
                 if Nat.eqb (i / d) (j / units) then nd_data kernel ((i mod d) * units + j mod units)%nat else 0) in
      let b := mk_nd [B; k] (fun q => match bias with Some a => nd_data a ((q mod k) mod units)%nat | None => 0 end) in
      Ok (mk_tbb w b w b)
  | _, _ => Err ValueError
  end.
(** BatchedDiagLike on the weights of rank 2: backward_layers.py:398-403 *)
Definition t_to_matrix (t : nd) : nd := if Nat.eqb (rank t) 2 then k_diag t else t.
(** backward_layers.py:374-405 BackwardActivation.call with activations.py:40-86 backward_relu *)
Definition t_backward_relu (ke : R) (D : domain) (mode : fmode) (sl : slope) (ft : option nd) (T : list nd) : result tbb :=
  r <- t_fullinputs D mode true true T ;
  hl <- t_hull_relu ke sl ft (f_uc r) (f_lc r) ;
  let '(w_u, b_u, w_l, b_l) := hl in
  let dim := prodn (tl (nd_shape (last_nd T))) in
  w_u <- k_reshape w_u [dim] ;
  b_u <- k_reshape b_u [dim] ;
  w_l <- k_reshape w_l [dim] ;
  b_l <- k_reshape b_l [dim] ;
  Ok (mk_tbb (t_to_matrix w_u) b_u (t_to_matrix w_l) b_l).
(** backward_layers.py:576-606 BackwardBatchNormalization.call *)
Definition t_backward_bn (axis : Z) (gamma beta : option nd) (mean var : nd) (eps : R) (T : list nd) : result tbb :=
  let y := last_nd T in
  let n_out := prodn (tl (nd_shape y)) in
  s <- bn_shape (rank y) axis (hd O (nd_shape mean)) ;
  let ga := match gamma with Some a => a | None => k1 (fun _ => 1) var end in
  let be := match beta with Some a => a | None => k1 (fun _ => 0) mean end in
  w <- k2 Rdiv ga (k1 (fun v => sqrt (v + eps)) var) ;
  wm <- k2 Rmult w mean ;
  b <- k2 Rminus be wm ;
  y_flat <- k_reshape y [n_out] ;
  id <- k_reshape_to (k_identity y_flat) (nd_shape y ++ [n_out]) ;
  ws <- k_reshape_to w (s ++ [1%nat]) ;
  p <- k2 Rmult id ws ;
  w_b <- k_reshape p [n_out; n_out] ;
  bs <- k_reshape_to b s ;
  q <- k2 Rmult (k1 (fun _ => 1) y) bs ;
  b_b <- k_reshape q [n_out] ;
  Ok (mk_tbb w_b b_b w_b b_b).
(** backward_layers.py:507-524 BackwardPermute.call; np.argsort of a permutation is its inverse, and K.transpose refuses
    the others *)
Definition t_backward_permute (dims : list nat) (T : list nd) : result tbb :=
  A <- t_identity_lirpa T ;
  let y := last_nd T in
  let n := prodn (tl (nd_shape y)) in
  let perm := inverse_perm (0%nat :: dims ++ [rank y]) in
  let tr w := (a <- k_reshape w (tl (nd_shape y) ++ [n]) ; c <- k_transpose a perm ; k_reshape c [n; n]) in
  wu <- tr (tb_wu A) ;
  wl <- tr (tb_wl A) ;
  Ok (mk_tbb wu (tb_bu A) wl (tb_bl A)).
(** backward_layers/convert.py:16-48 to_backward, then call. [o]: slope and alpha_b_l of BackwardActivation. Flatten
    434-456, Reshape 459-481, Dropout 527-549, InputLayer 609-631: the identity. The merges: as in M_Network *)
Definition t_backward_call (ke : R) (D : domain) (mode : fmode) (o : slope * option nd) (L : tlayer) : list nd -> result tbb :=
  match L with
  | TDense kernel bias => t_backward_dense kernel bias
  | TRelu _ _ => t_backward_relu ke D mode (fst o) (snd o)
  | TLinear | TDropout | TFlatten | TReshape _ => t_identity_lirpa
  | TBatchNorm axis gamma beta mean var eps => t_backward_bn axis gamma beta mean var eps
  | TPermute dims => t_backward_permute dims
  | TAdd | TAverage | TSubtract | TMaximum | TMinimum => fun _ => Err NotImplementedError
  end.

(** ** models/crown.py *)
(** 133-186 MergeWithPrevious.call *)
Definition t_merge_bb (A C : tbb) : result tbb :=
  q <- t_merge_previous (tb_wu A) (tb_bu A) (tb_wl A) (tb_bl A) (tb_wu C) (tb_bu C) (tb_wl C) (tb_bl C) ;
  let '(w_u, b_u, w_l, b_l) := q in
  Ok (mk_tbb w_u b_u w_l b_l).
(** 18-31 Fuse.call *)
Definition t_fuse (mode : fmode) (T : list nd) (C : tbb) : result tbb :=
  match mode, T with
  | AFFINE, [x; w_u; b_u; w_l; b_l] => t_merge_bb (mk_tbb w_u b_u w_l b_l) C
  | HYBRID, [x; u; w_u; b_u; l; w_l; b_l] => t_merge_bb (mk_tbb w_u b_u w_l b_l) C
  | IBP, _ => Ok C
  | _, _ => Err ValueError
  end.
(** 66-92 Convert2BackwardMode.call *)
Definition t_convert2backward (mode : fmode) (D : domain) (T : list nd) (C : tbb) : result (list nd) :=
  x_0 <- match mode, T with
         | IBP, [u_c; l_c] => k_pair (k_expand l_c 1) (k_expand u_c 1)
         | IBP, _ => Err ValueError
         | _, x :: _ => Ok x
         | _, [] => Err IndexError
         end ;
  match mode with
  | AFFINE => Ok [x_0; tb_wu C; tb_bu C; tb_wl C; tb_bl C]
  | _ =>
      u <- t_get_upper D x_0 (tb_wu C) (tb_bu C) ;
      l <- t_get_lower D x_0 (tb_wl C) (tb_bl C) ;
      match mode with
      | IBP => Ok [u; l]
      | _ => Ok [x_0; u; tb_wu C; tb_bu C; l; tb_wl C; tb_bl C]
      end
  end.

(** ** models/backward_cloning.py *)
Definition tgraph := list ((list nd -> result tbb) * list nat).
(** 82-215 crown_ *)
Fixpoint t_crown (mode : fmode) (g : tgraph) (imap : list (list nd)) (fuel i : nat) (back : option tbb) : result tbb :=
  match fuel with
  | O => Err NotImplementedError
  | S fuel' =>
      match nth_error g i, nth_error imap i with
      | Some (call, parents), Some inputs =>
          A <- call inputs ;
          A' <- match back with None => Ok A | Some C => t_merge_bb A C end ;
          match parents with
          | [] => t_fuse mode inputs A'
          | [p] => t_crown mode g imap fuel' p (Some A')
          | _ => Err NotImplementedError
          end
      | _, _ => Err KeyError
      end
  end.
(** 218-282 get_input_nodes *)
Definition t_node_inputs (mode : fmode) (D : domain) (its : list nd) (fmap : nat -> option (list nd))
    (g : tgraph) (imap : list (list nd)) (parents : list nat) : result (list nd) :=
  match parents with
  | [] => Ok its
  | _ =>
      l <- mapR (fun p => match fmap p with
                          | Some ts => Ok ts
                          | None => C <- t_crown mode g imap (S p) p None ; t_convert2backward mode D its C
                          end) parents ;
      Ok (concat l)
  end.
Fixpoint t_input_nodes (mode : fmode) (D : domain) (its : list nd) (fmap : nat -> option (list nd))
    (g todo : tgraph) (imap : list (list nd)) : result (list (list nd)) :=
  match todo with
  | [] => Ok imap
  | (_, ps) :: q =>
      T <- t_node_inputs mode D its fmap g imap ps ;
      t_input_nodes mode D its fmap g q (imap ++ [T])
  end.
Definition t_backward_net (ke : R) (D : domain) (mode : fmode) (bo : nat -> slope * option nd) (net : tnetwork) : tgraph :=
  map (fun q => (match fst (snd q) with None => t_identity_lirpa | Some L => t_backward_call ke D mode (bo (fst q)) L end, snd (snd q)))
    (combine (seq 0 (length net)) net).
(** 285-399 crown_model on the output nodes [l], then 402-463 convert_backward: when the mode changes from ibp, the first
    tensor becomes the two input tensors, concatenated *)
Definition t_convert_backward (mode final : fmode) (D : domain) (g : tgraph) (l : list nat) (fmap : nat -> option (list nd)) (its : list nd) : result (list nd) :=
  imap <- t_input_nodes mode D its fmap g g [] ;
  o <- mapR (fun o => C <- t_crown mode g imap (S o) o None ; t_convert2backward mode D its C) l ;
  c <- t_convert2mode D mode final (concat o) ;
  if (negb (mode_eqb final mode) && mode_eqb mode IBP)%bool then
    match its, c with
    | u :: l :: _, _ :: q => x <- k_pair (k_expand l 1) (k_expand u 1) ; Ok (x :: q)
    | _, _ => Err IndexError
    end
  else Ok c.
(** clone with a crown method, called on a batch. [fwd]: crown-forward-xxx *)
Definition t_clone_backward (ke : R) (D : domain) (mode final : fmode) (fwd : bool) (bo : nat -> slope * option nd) (net : tnetwork) (outs : list nat) (z : nd) : result (list nd) :=
  its <- t_input_tensors D mode z ;
  fm <- (if fwd then om <- convert_nodes (t_net ke D mode net) (fun _ => None) its ; Ok om else Ok (fun _ => None)) ;
  l <- output_nodes (t_net ke D mode net) outs ;
  t_convert_backward mode final D (t_backward_net ke D mode bo net) l fm its.
(** options of the backward layers on one sample *)
Definition tbo_opts (bo : nat -> slope * option nd) (i : nat) : bopts :=
  mk_bopts (fst (bo i)) (option_map (fun a => (nd_data a, nd_data a)) (snd (bo i))).
