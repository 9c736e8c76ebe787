(** The operations of Keras on tensors with their batch axis, and the code of decomon written with them: domains,
    completion of the inputs, Dense, relu, Flatten, Reshape, Permute, Dropout, BatchNormalization, Add, Average, Subtract, Maximum, Minimum, the input
    tensors, the conversion between modes, the composition of crown. Definitions only. dc_decomp = False, no backward
    bounds, data_format channels_last. Products with a constant 0 added to a tensor (casts) are kept. *)
From Coq Require Import Reals List Arith Bool ZArith.
From Verif Require Import RLib Spec Spec_Layers Spec_Batch M_Core M_Utils M_MergeLayers M_Ops M_Layers M_Convert M_Network.
Import ListNotations.
Local Open Scope R_scope.

(** ** keras.ops *)
Definition rank (t : nd) : nat := length (nd_shape t).
Definition k1 (f : R -> R) (t : nd) : nd := mk_nd (nd_shape t) (fun q => f (nd_data t q)).
(** broadcasting: shapes are aligned on the right; an axis of length 1 is repeated *)
Definition pad (r : nat) (s : list nat) : list nat := repeat 1%nat (r - length s) ++ s.
Fixpoint bc_dims (a b : list nat) : result (list nat) :=
  match a, b with
  | [], [] => Ok []
  | x :: a', y :: b' =>
      q <- bc_dims a' b' ;
      if Nat.eqb x y then Ok (x :: q) else if Nat.eqb x 1 then Ok (y :: q) else if Nat.eqb y 1 then Ok (x :: q) else Err ValueError
  | _, _ => Err ValueError
  end.
Definition bc_shape (a b : list nat) : result (list nat) :=
  let r := Nat.max (length a) (length b) in bc_dims (pad r a) (pad r b).
(** entry read in a tensor of shape s at entry q of a result of shape [out] (of the same rank) *)
Fixpoint bc_pos (s out : list nat) (q : nat) : nat :=
  match s, out with
  | d :: s', _ :: out' =>
      let i := (q / prodn out')%nat in
      ((if Nat.eqb d 1 then 0 else i) * prodn s' + bc_pos s' out' (q mod prodn out'))%nat
  | _, _ => O
  end.
Definition bc_get (out : list nat) (t : nd) (q : nat) : R := nd_data t (bc_pos (pad (length out) (nd_shape t)) out q).
Definition k2 (f : R -> R -> R) (a b : nd) : result nd :=
  s <- bc_shape (nd_shape a) (nd_shape b) ;
  Ok (mk_nd s (fun q => f (bc_get s a q) (bc_get s b q))).
(** reductions along axis [ax] *)
Definition k_reduce (red : nat -> (nat -> R) -> R) (t : nd) (ax : nat) : result nd :=
  match skipn ax (nd_shape t) with
  | [] => Err ValueError
  | n :: post =>
      let P := prodn post in
      Ok (mk_nd (firstn ax (nd_shape t) ++ post) (fun q => red n (fun i => nd_data t ((q / P * n + i) * P + q mod P)%nat)))
  end.
Definition k_sum := k_reduce rsum.
Definition k_max := k_reduce rmax.
(** t[:, k] *)
Definition k_index (t : nd) (k : nat) : result nd :=
  match nd_shape t with
  | B :: c :: post =>
      let P := prodn post in
      if (k <? c)%nat then Ok (mk_nd (B :: post) (fun q => nd_data t ((q / P * c + k) * P + q mod P)%nat)) else Err IndexError
  | _ => Err IndexError
  end.
(** K.expand_dims(t, ax) *)
Definition k_expand (t : nd) (ax : nat) : nd := mk_nd (firstn ax (nd_shape t) ++ 1%nat :: skipn ax (nd_shape t)) (nd_data t).
Definition k_expand_last (t : nd) : nd := mk_nd (nd_shape t ++ [1%nat]) (nd_data t).
(** K.reshape(t, (-1,) + tail) *)
Definition k_reshape (t : nd) (tail : list nat) : result nd :=
  let P := prodn tail in
  if (Nat.eqb P 0 || negb (Nat.eqb (prodn (nd_shape t) mod P) 0))%bool then Err ValueError
  else Ok (mk_nd ((prodn (nd_shape t) / P)%nat :: tail) (nd_data t)).
(** K.reshape(t, s), no -1 in s *)
Definition k_reshape_to (t : nd) (s : list nat) : result nd :=
  if Nat.eqb (prodn s) (prodn (nd_shape t)) then Ok (mk_nd s (nd_data t)) else Err ValueError.
(** K.transpose(t, perm): perm lists every axis *)
Definition k_transpose (t : nd) (perm : list nat) : result nd :=
  if (Nat.eqb (length perm) (rank t) && forallb (fun a => existsb (Nat.eqb a) perm) (seq 0 (rank t)))%bool
  then Ok (mk_nd (permuted perm (nd_shape t)) (fun q => nd_data t (transpose_idx (nd_shape t) perm q))) else Err ValueError.
(** K.dot(t, k), k of shape (d, u) *)
Definition k_dot (t k : nd) : result nd :=
  match rev (nd_shape t), nd_shape k with
  | d :: rest, [d'; u] =>
      if Nat.eqb d d' then
        Ok (mk_nd (rev rest ++ [u]) (fun q => rsum d (fun c => nd_data t (q / u * d + c)%nat * nd_data k (c * u + q mod u)%nat)))
      else Err ValueError
  | _, _ => Err ValueError
  end.
(** keras.src.layers.merging.dot.batch_dot(x, y, (-1, -2)): x of shape (batch, n, h) or (batch, h), y of shape (batch, h, k) *)
Definition k_batch_dot (x y : nd) : result nd :=
  match nd_shape x, nd_shape y with
  | [B; n; h], [B'; h'; k] =>
      if (Nat.eqb B B' && Nat.eqb h h')%bool then
        Ok (mk_nd [B; n; k] (fun q => rsum h (fun c => nd_data x (q / k * h + c)%nat * nd_data y ((q / (n * k) * h + c) * k + q mod k)%nat)))
      else Err ValueError
  | [B; h], [B'; h'; k] =>
      if (Nat.eqb B B' && Nat.eqb h h')%bool then
        Ok (mk_nd [B; k] (fun q => rsum h (fun c => nd_data x (q / k * h + c)%nat * nd_data y ((q / k * h + c) * k + q mod k)%nat)))
      else Err ValueError
  | _, _ => Err ValueError
  end.
(** keras.src.backend.rnn(step, w)[1]: the step is applied to t[:, i] for each i, the results are stacked along axis 1 *)
Definition k_stack (B : nat) (post : list nat) (l : list nd) : nd :=
  let P := prodn post in
  let n := length l in
  mk_nd (B :: n :: post) (fun q => nd_data (nth ((q / P) mod n) l (mk_nd [] (fun _ => 0))) (q / P / n * P + q mod P)%nat).
Definition k_rnn (step : nd -> result nd) (t : nd) : result nd :=
  match nd_shape t with
  | _ :: n :: _ =>
      l <- mapR (fun i => x <- k_index t i ; step x) (seq 0 n) ;
      match l with
      | y :: _ => match nd_shape y with B :: post => Ok (k_stack B post l) | [] => Err ValueError end
      | [] => Err ValueError
      end
  | _ => Err ValueError
  end.
(** keras_utils.py:16-39 BatchedIdentityLike: the identity, repeated; 41-63 BatchedDiagLike: the parts of a split along
    the batch axis are flattened *)
Definition k_identity (t : nd) : nd :=
  let d := last (nd_shape t) O in
  mk_nd (nd_shape t ++ [d]) (fun q => if Nat.eqb ((q / d) mod d) (q mod d) then 1 else 0).
Definition k_diag (t : nd) : nd :=
  match nd_shape t with
  | B :: rest =>
      let P := prodn rest in
      mk_nd [B; P; P] (fun q => if Nat.eqb ((q / P) mod P) (q mod P) then nd_data t (q / P / P * P + q mod P)%nat else 0)
  | [] => t
  end.
(** K.concatenate([a, b], 1) of tensors of shape (batch, 1) + post *)
Definition k_pair (a b : nd) : result nd :=
  match nd_shape a with
  | B :: _ :: post =>
      let P := prodn post in
      if Nat.eqb (length (nd_shape a)) (length (nd_shape b))
      then Ok (mk_nd (B :: 2%nat :: post) (fun q => nd_data (if Nat.eqb ((q / P) mod 2) 0 then a else b) (q / P / 2 * P + q mod P)%nat))
      else Err ValueError
  | _ => Err ValueError
  end.

(** ** core.py *)
Definition none_nd : nd := mk_nd [O] (fun _ => 0).
Fixpoint expand_last (k : nat) (t : nd) : nd := match k with O => t | S k' => expand_last k' (k_expand_last t) end.

(** core.py:466-497 get_upper_box; 500-525 get_lower_box *)
Definition t_upper_box (x_min x_max w b : nd) : result nd :=
  if Nat.eqb (rank w) (rank b) then Ok x_max else
  let w_pos := k1 (fun v => Rmax v 0) w in
  let w_neg := k1 (fun v => Rmin v 0) w in
  let e := (rank w - rank x_max)%nat in
  let x_min_out := expand_last e (k1 (fun v => v + 0 * v) x_min) in
  let x_max_out := expand_last e (k1 (fun v => v + 0 * v) x_max) in
  p <- k2 Rmult w_pos x_max_out ;
  m <- k2 Rmult w_neg x_min_out ;
  s <- k2 Rplus p m ;
  r <- k_sum s 1 ;
  k2 Rplus r b.
Definition t_lower_box (x_min x_max w b : nd) : result nd :=
  if Nat.eqb (rank w) (rank b) then Ok x_min else
  let w_pos := k1 (fun v => Rmax v 0) w in
  let w_neg := k1 (fun v => Rmin v 0) w in
  let e := (rank w - rank x_max)%nat in
  let x_min_out := expand_last e (k1 (fun v => v + 0 * v) x_min) in
  let x_max_out := expand_last e (k1 (fun v => v + 0 * v) x_max) in
  p <- k2 Rmult w_pos x_min_out ;
  m <- k2 Rmult w_neg x_max_out ;
  s <- k2 Rplus p m ;
  r <- k_sum s 1 ;
  k2 Rplus r b.
(** core.py:528-546 get_lq_norm *)
Definition t_lq_norm (w : nd) (p : pord) (axis : nat) : result nd :=
  match p with
  | Pnum 1 => k_max (k1 Rabs w) axis
  | Pnum 2 => s <- k_sum (k1 (fun v => v ^ 2) w) axis ; Ok (k1 sqrt s)
  | _ => Err NotImplementedError
  end.
(** core.py:549-583 get_upper_ball, 586-620 get_lower_ball, without keyword arguments *)
Definition t_upper_ball (x_0 : nd) (eps : R) (p : pord) (w b : nd) : result nd :=
  if Nat.eqb (rank w) (rank b) then Ok (k1 (fun v => v + eps) x_0)
  else match p with
  | Pinf => t_upper_box (k1 (fun v => v - eps) x_0) (k1 (fun v => v + eps) x_0) w b
  | _ =>
      q <- t_lq_norm w p 1 ;
      upper <- k2 Rplus (k1 (fun v => eps * v) q) b ;
      wx <- k2 Rmult w (expand_last (rank w - rank x_0) x_0) ;
      s <- k_sum wx 1 ;
      k2 Rplus s upper
  end.
Definition t_lower_ball (x_0 : nd) (eps : R) (p : pord) (w b : nd) : result nd :=
  if Nat.eqb (rank w) (rank b) then Ok (k1 (fun v => v - eps) x_0)
  else match p with
  | Pinf => t_lower_box (k1 (fun v => v - eps) x_0) (k1 (fun v => v + eps) x_0) w b
  | _ =>
      q <- t_lq_norm w p 1 ;
      lower <- k2 Rplus (k1 (fun v => - eps * v) q) b ;
      wx <- k2 Rmult w (expand_last (rank w - rank x_0) x_0) ;
      s <- k_sum wx 1 ;
      k2 Rplus s lower
  end.
(** core.py:59-68, 104-108 get_upper / get_lower of the domains *)
Definition t_get_upper (D : domain) (x w b : nd) : result nd :=
  match D with
  | Box => x_min <- k_index x 0 ; x_max <- k_index x 1 ; t_upper_box x_min x_max w b
  | Ball eps p => t_upper_ball x eps p w b
  end.
Definition t_get_lower (D : domain) (x w b : nd) : result nd :=
  match D with
  | Box => x_min <- k_index x 0 ; x_max <- k_index x 1 ; t_lower_box x_min x_max w b
  | Ball eps p => t_lower_ball x eps p w b
  end.
(** core.py:278-347 get_fullinputs_from_inputsformode *)
Definition t_complete (D : domain) (mode : fmode) (ca tight : bool) (r : full nd) : result (full nd) :=
  if (ca && mode_eqb mode AFFINE) || (tight && mode_eqb mode HYBRID) then
    ua <- t_get_upper D (f_x r) (f_wu r) (f_bu r) ;
    la <- t_get_lower D (f_x r) (f_wl r) (f_bl r) ;
    if mode_eqb mode AFFINE then Ok (mk_full (f_x r) ua (f_wu r) (f_bu r) la (f_wl r) (f_bl r) (f_h r) (f_g r))
    else
      u <- k2 Rmin (f_uc r) ua ;
      l <- k2 Rmax (f_lc r) la ;
      Ok (mk_full (f_x r) u (f_wu r) (f_bu r) l (f_wl r) (f_bl r) (f_h r) (f_g r))
  else Ok r.
Definition t_fullinputs (D : domain) (mode : fmode) (ca tight : bool) (T : list nd) : result (full nd) :=
  r <- unpack none_nd mode false T ;
  t_complete D mode ca tight r.

(** when cond t: [t] if the mode needs it, the empty tensor otherwise *)
Definition t_when (c : bool) (r : result nd) : result nd := if c then r else Ok none_nd.

(** ** utils.py *)
(** utils.py:295-340 add: the nine sums are always computed *)
Definition t_add (D : domain) (mode : fmode) (in0 in1 : list nd) : result (list nd) :=
  r0 <- t_fullinputs D mode true true in0 ;
  r1 <- t_fullinputs D mode true true in1 ;
  h <- k2 Rplus (f_h r0) (f_h r1) ;
  g <- k2 Rplus (f_g r0) (f_g r1) ;
  u <- k2 Rplus (f_uc r0) (f_uc r1) ;
  l <- k2 Rplus (f_lc r0) (f_lc r1) ;
  wu <- k2 Rplus (f_wu r0) (f_wu r1) ;
  wl <- k2 Rplus (f_wl r0) (f_wl r1) ;
  bu <- k2 Rplus (f_bu r0) (f_bu r1) ;
  bl <- k2 Rplus (f_bl r0) (f_bl r1) ;
  Ok (extract mode false (mk_full (f_x r0) u wu bu l wl bl h g)).
(** utils.py:404-440 minus *)
Definition t_minus (D : domain) (mode : fmode) (T : list nd) : result (list nd) :=
  r <- t_fullinputs D mode false false T ;
  let o := k1 Ropp in
  Ok (extract mode false (mk_full (f_x r) (o (f_lc r)) (o (f_wl r)) (o (f_bl r)) (o (f_uc r)) (o (f_wu r)) (o (f_bu r)) (o (f_g r)) (o (f_h r)))).
(** utils.py:268-292 subtract *)
Definition t_subtract (D : domain) (mode : fmode) (in0 in1 : list nd) : result (list nd) :=
  m1 <- t_minus D mode in1 ;
  t_add D mode in0 m1.
(** utils.py:128-201 get_linear_hull_relu; [ft]: kwargs["finetune"], one coefficient per neuron *)
Definition t_hull_relu (ke : R) (sl : slope) (ft : option nd) (upper lower : nd) : result (nd * nd * nd * nd) :=
  d <- k2 Rminus (k1 Rrelu upper) (k1 Rrelu lower) ;
  e <- k2 Rminus upper lower ;
  alpha <- k2 Rdiv d (k1 (Rmax ke) e) ;
  let w_u := alpha in
  al <- k2 Rmult alpha lower ;
  b_u <- k2 Rminus (k1 Rrelu lower) al ;
  let b_l := k1 (fun v => 0 * v) b_u in
  w_l <- match sl with
         | V_SLOPE => s <- k2 Rplus upper lower ; Ok (k1 (fun v => 1 - v) (k1 (fun v => - Rclip (Rsgn v - 1) (-1) 0) s))
         | A_SLOPE => Ok (k1 (fun v => Rclip (Rsgn (v - 1/2)) 0 1) w_u)
         | Z_SLOPE => Ok (k1 (fun v => 0 * v) w_u)
         | O_SLOPE => Ok (k1 (fun v => 0 * v + 1) w_u)
         | S_SLOPE => Ok w_u
         end ;
  w_l <- match ft with
         | None => Ok (k1 (fun v => 1 * v + (1 - 1) * (1 - v)) w_l)
         | Some a =>
             let gamma := k_expand a 0 in
             p <- k2 Rmult gamma w_l ;
             q <- k2 Rmult (k1 (fun v => 1 - v) gamma) (k1 (fun v => 1 - v) w_l) ;
             k2 Rplus p q
         end ;
  let dead := k1 (fun v => 1 - index_dead v) upper in
  let lin := k1 index_linear lower in
  let nlin := k1 (fun v => 1 - v) lin in
  w_u <- k2 Rmult dead w_u ; w_l <- k2 Rmult dead w_l ; b_u <- k2 Rmult dead b_u ; b_l <- k2 Rmult dead b_l ;
  w_u <- k2 Rmult nlin w_u ; w_u <- k2 Rplus w_u lin ;
  w_l <- k2 Rmult nlin w_l ; w_l <- k2 Rplus w_l lin ;
  b_u <- k2 Rmult nlin b_u ; b_l <- k2 Rmult nlin b_l ;
  Ok (w_u, b_u, w_l, b_l).
(** utils.py:343-401 relu_ *)
Definition t_relu (ke : R) (D : domain) (mode : fmode) (sl : slope) (ft : option nd) (T : list nd) : result (list nd) :=
  r <- t_fullinputs D mode true true T ;
  let ibp := get_ibp mode in
  let u := if ibp then k1 Rrelu (f_uc r) else none_nd in
  let l := if ibp then k1 Rrelu (f_lc r) else none_nd in
  q <- (if get_affine mode then
          h <- t_hull_relu ke sl ft (f_uc r) (f_lc r) ;
          let '(w_u, b_u, w_l, b_l) := h in
          bu <- k2 Rmult w_u (f_bu r) ; bu <- k2 Rplus bu b_u ;
          bl <- k2 Rmult w_l (f_bl r) ; bl <- k2 Rplus bl b_l ;
          wu <- k2 Rmult (k_expand w_u 1) (f_wu r) ;
          wl <- k2 Rmult (k_expand w_l 1) (f_wl r) ;
          Ok (wu, bu, wl, bl)
        else Ok (none_nd, none_nd, none_nd, none_nd)) ;
  let '(wu, bu, wl, bl) := q in
  Ok (extract mode false (mk_full (f_x r) u wu bu l wl bl none_nd none_nd)).
(** utils.py:443-481 maximum, 484-521 minimum is not used by the layers *)
Definition t_maximum (ke : R) (D : domain) (mode : fmode) (in0 in1 : list nd) : result (list nd) :=
  o0 <- t_subtract D mode in1 in0 ;
  o1 <- t_relu ke D mode V_SLOPE None o0 ;
  t_add D mode o1 in0.

(** ** layers *)
(** decomon_layers.py:421-511 DecomonDense.call *)
Definition t_dense (D : domain) (mode : fmode) (kernel : nd) (bias : option nd) (T : list nd) : result (list nd) :=
  let kp := k1 (fun v => Rmax 0 v) kernel in
  let kn := k1 (fun v => Rmin 0 v) kernel in
  r <- t_fullinputs D mode false true T ;
  let two a b := (p <- k_dot a kp ; q <- k_dot b kn ; k2 Rplus p q) in
  let ibp := get_ibp mode in
  let aff_ := get_affine mode in
  u <- t_when ibp (two (f_uc r) (f_lc r)) ;
  l <- t_when ibp (two (f_lc r) (f_uc r)) ;
  q <- (if negb aff_ then Ok (none_nd, none_nd, none_nd, none_nd)
        else if Nat.eqb (rank (f_wu r)) (rank (f_bu r)) then
          y <- k_dot (f_bu r) kernel ;
          w <- k2 Rplus (k_expand (k1 (fun v => 0 * v) y) 1) (k_expand kernel 0) ;
          let b := k1 (fun v => 0 * v) y in
          Ok (w, b, w, b)
        else
          bu <- two (f_bu r) (f_bl r) ;
          bl <- two (f_bl r) (f_bu r) ;
          wu <- two (f_wu r) (f_wl r) ;
          wl <- two (f_wl r) (f_wu r) ;
          Ok (wu, bu, wl, bl)) ;
  let '(wu, bu, wl, bl) := q in
  let addb c t := t_when c (match bias with Some v => k2 Rplus t v | None => Ok t end) in
  u <- addb ibp u ; l <- addb ibp l ; bu <- addb aff_ bu ; bl <- addb aff_ bl ;
  Ok (extract mode false (mk_full (f_x r) u wu bu l wl bl none_nd none_nd)).
(** decomon_layers.py:721-760 DecomonFlatten.call; Flatten.call of Keras reshapes to (-1, prod) *)
Definition t_flatten (D : domain) (mode : fmode) (T : list nd) : result (list nd) :=
  r <- t_fullinputs D mode false true T ;
  let op t := k_reshape t [prodn (tl (nd_shape t))] in
  let ibp := get_ibp mode in
  let aff_ := get_affine mode in
  u <- t_when ibp (op (f_uc r)) ;
  l <- t_when ibp (op (f_lc r)) ;
  bu <- t_when aff_ (op (f_bu r)) ;
  bl <- t_when aff_ (op (f_bl r)) ;
  let input_dim := last (nd_shape (f_x r)) O in
  let output_shape := prodn (tl (nd_shape bu)) in
  wu <- t_when aff_ (k_reshape (f_wu r) [input_dim; output_shape]) ;
  wl <- t_when aff_ (k_reshape (f_wl r) [input_dim; output_shape]) ;
  Ok (extract mode false (mk_full (f_x r) u wu bu l wl bl none_nd none_nd)).
(** decomon_reshape.py:72-114 DecomonReshape.call *)
Definition t_reshape (D : domain) (mode : fmode) (target : list nat) (T : list nd) : result (list nd) :=
  r <- t_fullinputs D mode false true T ;
  let op t := k_reshape t target in
  let ibp := get_ibp mode in
  let aff_ := get_affine mode in
  let opw t := if Nat.eqb (rank (f_wu r)) (rank (f_bu r)) then op t else k_rnn op t in
  u <- t_when ibp (op (f_uc r)) ;
  l <- t_when ibp (op (f_lc r)) ;
  bu <- t_when aff_ (op (f_bu r)) ;
  bl <- t_when aff_ (op (f_bl r)) ;
  wu <- t_when aff_ (opw (f_wu r)) ;
  wl <- t_when aff_ (opw (f_wl r)) ;
  Ok (extract mode false (mk_full (f_x r) u wu bu l wl bl none_nd none_nd)).
(** decomon_reshape.py:180-218 DecomonPermute.call; Permute.call of Keras transposes the axes (0,) + dims *)
Definition t_permute (D : domain) (mode : fmode) (dims : list nat) (T : list nd) : result (list nd) :=
  r <- t_fullinputs D mode false true T ;
  let op t := k_transpose t (0%nat :: dims) in
  let ibp := get_ibp mode in
  let aff_ := get_affine mode in
  let opw t := if Nat.eqb (rank (f_wu r)) (rank (f_bu r)) then op t else k_rnn op t in
  u <- t_when ibp (op (f_uc r)) ;
  l <- t_when ibp (op (f_lc r)) ;
  bu <- t_when aff_ (op (f_bu r)) ;
  bl <- t_when aff_ (op (f_bl r)) ;
  wu <- t_when aff_ (opw (f_wu r)) ;
  wl <- t_when aff_ (opw (f_wl r)) ;
  Ok (extract mode false (mk_full (f_x r) u wu bu l wl bl none_nd none_nd)).
(** decomon_layers.py:815-879 DecomonBatchNormalization.call, training = False; call_op keeps the shape of inputs[-1] *)
Definition bn_shape (r : nat) (axis : Z) (c : nat) : result (list nat) :=
  a <- norm_axis r axis ;
  Ok (repeat 1%nat a ++ c :: repeat 1%nat (r - S a)).
Definition t_bn (D : domain) (mode : fmode) (axis : Z) (gamma beta : option nd) (mean var : nd) (eps : R) (T : list nd) : result (list nd) :=
  r <- t_fullinputs D mode false true T ;
  s <- bn_shape (rank (last T none_nd)) axis (hd O (nd_shape mean)) ;
  ga <- match gamma with Some a => k_reshape_to (k1 (fun v => v + 0) a) s | None => Ok (mk_nd s (fun _ => 1)) end ;
  be <- match beta with Some a => k_reshape_to (k1 (fun v => v + 0) a) s | None => Ok (mk_nd s (fun _ => 0)) end ;
  me <- k_reshape_to (k1 (fun v => v + 0) mean) s ;
  va <- k_reshape_to (k1 (fun v => v + 0) var) s ;
  let sd t := k1 (fun v => sqrt (v + eps)) t in
  let nrm t := (p <- k2 Rminus t me ; k2 Rdiv p (sd va)) in
  let comb g t0 t1 := (p <- k2 Rmult (k1 (fun v => Rmax 0 v) g) t0 ; q <- k2 Rmult (k1 (fun v => Rmin 0 v) g) t1 ; k2 Rplus p q) in
  let combb t0 t1 := (p <- comb ga t0 t1 ; k2 Rplus p be) in
  let ibp := get_ibp mode in
  let aff_ := get_affine mode in
  u0 <- t_when ibp (nrm (f_uc r)) ;
  l0 <- t_when ibp (nrm (f_lc r)) ;
  u <- t_when ibp (combb u0 l0) ;
  l <- t_when ibp (combb l0 u0) ;
  bu0 <- t_when aff_ (nrm (f_bu r)) ;
  bl0 <- t_when aff_ (nrm (f_bl r)) ;
  bu <- t_when aff_ (combb bu0 bl0) ;
  bl <- t_when aff_ (combb bl0 bu0) ;
  let ga' := k_expand ga 1 in
  let va' := k_expand va 1 in
  wu0 <- t_when aff_ (k2 Rdiv (f_wu r) (sd va')) ;
  wl0 <- t_when aff_ (k2 Rdiv (f_wl r) (sd va')) ;
  wu <- t_when aff_ (comb ga' wu0 wl0) ;
  wl <- t_when aff_ (comb ga' wl0 wu0) ;
  Ok (extract mode false (mk_full (f_x r) u wu bu l wl bl none_nd none_nd)).
(** decomon_merge_layers.py:118-157 DecomonAdd.call, 186-228 DecomonAverage.call. The slices by type of
    core.py:349-420 are distinct lists in hybrid mode, and are not written in affine mode with the default arguments *)
Definition t_sum (l : list nd) : result nd :=
  match l with
  | [] => Err ValueError
  | t :: q => foldR (fun acc u => k2 Rplus acc u) q (k1 (fun v => 0 + v) t)
  end.
Definition t_avg (l : list nd) : result nd := s <- t_sum l ; Ok (k1 (fun v => v / INR (length l)) s).
Definition t_merge (D : domain) (mode : fmode) (op : list nd -> result nd) (T : list nd) : result (list nd) :=
  rs <- mapR (t_fullinputs D mode false true) (split_to_merge (nb_tensors mode false) T) ;
  match rs with
  | [] => Err IndexError
  | r :: _ =>
      let ibp := get_ibp mode in
      let aff_ := get_affine mode in
      u <- t_when ibp (op (map f_uc rs)) ;
      l <- t_when ibp (op (map f_lc rs)) ;
      bu <- t_when aff_ (op (map f_bu rs)) ;
      bl <- t_when aff_ (op (map f_bl rs)) ;
      wu <- t_when aff_ (op (map f_wu rs)) ;
      wl <- t_when aff_ (op (map f_wl rs)) ;
      Ok (extract mode false (mk_full (f_x r) u wu bu l wl bl none_nd none_nd))
  end.
(** decomon_merge_layers.py:259-277 DecomonSubtract.call *)
Definition t_subtract_layer (D : domain) (mode : fmode) (T : list nd) : result (list nd) :=
  match split_to_merge (nb_tensors mode false) T with
  | [a; b] => t_subtract D mode a b
  | _ => Err ValueError
  end.
(** decomon_merge_layers.py:371-398 DecomonMaximum.call, 308-340 DecomonMinimum.call *)
Definition t_maximum_layer (ke : R) (D : domain) (mode : fmode) (T : list nd) : result (list nd) :=
  match split_to_merge (nb_tensors mode false) T with
  | [] => Err IndexError
  | [_] => Ok T
  | a :: b :: q => o <- t_maximum ke D mode a b ; foldR (t_maximum ke D mode) q o
  end.
Definition t_minimum_layer (ke : R) (D : domain) (mode : fmode) (T : list nd) : result (list nd) :=
  l <- mapR (t_minus D mode) (split_to_merge (nb_tensors mode false) T) ;
  match l with
  | [] => Err IndexError
  | [_] => Ok T
  | a :: b :: q => o <- t_maximum ke D mode a b ; o' <- foldR (t_maximum ke D mode) q o ; t_minus D mode o'
  end.

(** ** models *)
(** models/utils.py:88-148 get_input_tensors *)
Definition t_input_tensors (D : domain) (mode : fmode) (z : nd) : result (list nd) :=
  let ibp := get_ibp mode in
  let aff_ := get_affine mode in
  r <- match D with
       | Box =>
           u <- t_when ibp (k_index z 1) ;
           l <- t_when ibp (k_index z 0) ;
           z0 <- k_index z 0 ;
           Ok (u, (if aff_ then k_identity z0 else none_nd), (if aff_ then k1 (fun _ => 0) z0 else none_nd), l)
       | Ball eps Pinf =>
           let u := k1 (fun v => v + eps) z in
           let l := if ibp then k1 (fun v => v - eps) z else none_nd in
           Ok (u, (if aff_ then k_identity u else none_nd), (if aff_ then k1 (fun _ => 0) u else none_nd), l)
       | Ball eps p =>
           let w := k_identity z in
           let b := k1 (fun _ => 0) z in
           u <- t_when ibp (t_get_upper (Ball eps p) z w b) ;
           l <- t_when ibp (t_get_lower (Ball eps p) z w b) ;
           Ok (u, w, b, l)
       end ;
  let '(u, w, b, l) := r in
  Ok (extract mode false (mk_full z u w b l w b none_nd none_nd)).
(** models/utils.py:310-334 Convert2Mode.call *)
Definition t_convert2mode (D : domain) (from to_ : fmode) (T : list nd) : result (list nd) :=
  let ca := (mode_eqb from AFFINE && negb (mode_eqb to_ AFFINE))%bool in
  let tight := (mode_eqb from HYBRID && negb (mode_eqb to_ AFFINE))%bool in
  r <- t_fullinputs D from ca tight T ;
  r <- (if (mode_eqb from IBP && negb (mode_eqb to_ IBP))%bool then
          x <- k_pair (k_expand (f_lc r) 1) (k_expand (f_uc r) 1) ;
          let w := k1 (fun v => 0 * v) (k_identity (f_lc r)) in
          Ok (mk_full x (f_uc r) w (f_uc r) (f_lc r) w (f_lc r) (f_h r) (f_g r))
        else Ok r) ;
  Ok (extract to_ false r).

(** the call of the decomon layer *)
Definition t_layer (ke : R) (D : domain) (mode : fmode) (L : tlayer) : list nd -> result (list nd) :=
  match L with
  | TDense kernel bias => t_dense D mode kernel bias
  | TRelu sl ft => t_relu ke D mode sl ft
  | TLinear | TDropout => fun T => Ok T
  | TFlatten => t_flatten D mode
  | TReshape target => t_reshape D mode target
  | TBatchNorm axis gamma beta mean var eps => t_bn D mode axis gamma beta mean var eps
  | TPermute dims => t_permute D mode dims
  | TAdd => t_merge D mode t_sum
  | TAverage => t_merge D mode t_avg
  | TSubtract => t_subtract_layer D mode
  | TMaximum => t_maximum_layer ke D mode
  | TMinimum => t_minimum_layer ke D mode
  end.
Definition t_net (ke : R) (D : domain) (mode : fmode) (net : tnetwork) : fgraph nd :=
  map (fun q => mk_fnode (fst q) (match fst (snd q) with None => KInput | Some L => KOp (t_layer ke D mode L) end) (snd (snd q)))
    (combine (seq 0 (length net)) net).
(** slope and finetuning coefficients of each node (layers/decomon_layers.py:594-623) on one sample *)
Definition tnet_opts (net : tnetwork) (i : nat) : lopts :=
  match nth_error net i with
  | Some (Some (TRelu sl ft), _) => mk_opts sl (option_map nd_data ft) false
  | _ => mk_opts V_SLOPE None false
  end.
(** models/convert.py:170-258: clone with a forward method, called on a batch *)
Definition t_clone_forward (ke : R) (D : domain) (mode final : fmode) (net : tnetwork) (outs : list nat) (z : nd) : result (list nd) :=
  its <- t_input_tensors D mode z ;
  o <- convert_forward (t_net ke D mode net) outs (fun _ => None) its ;
  t_convert2mode D mode final o.

(** ** models/crown.py:149-186 merge_with_previous *)
Definition t_merge_previous (w_u_out b_u_out w_l_out b_l_out w_b_u b_b_u w_b_l b_b_l : nd) : result (nd * nd * nd * nd) :=
  let full_rank t := if Nat.eqb (rank t) 2 then k_diag t else t in
  let w_u_out := full_rank w_u_out in
  let w_l_out := full_rank w_l_out in
  let w_b_u := full_rank w_b_u in
  let w_b_l := full_rank w_b_l in
  let up := k1 (fun v => Rmax v 0) w_b_u in
  let un := k1 (fun v => Rmin v 0) w_b_u in
  let lp := k1 (fun v => Rmax v 0) w_b_l in
  let ln := k1 (fun v => Rmin v 0) w_b_l in
  let two a c b d := (p <- k_batch_dot a c ; q <- k_batch_dot b d ; k2 Rplus p q) in
  w_u <- two w_u_out up w_l_out un ;
  w_l <- two w_l_out lp w_u_out ln ;
  b_u <- two b_u_out up b_l_out un ; b_u <- k2 Rplus b_u b_b_u ;
  b_l <- two b_l_out lp b_u_out ln ; b_l <- k2 Rplus b_l b_b_l ;
  Ok (w_u, b_u, w_l, b_l).
