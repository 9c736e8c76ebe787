(** Model of the shapes of tensors: compute_output_shape of the converted layers (layers/core.py,
    layers/decomon_merge_layers.py, models/utils.py) and the shapes of the tensors their call() builds. Definitions only. *)
From Coq Require Import List Arith Bool ZArith.
From Verif Require Import RLib Spec Spec_Shapes M_Core M_Ops.
Import ListNotations.

(** ** Keras operations on shapes *)

Definition dim_eqb (a b : option nat) : bool :=
  match a, b with Some x, Some y => x =? y | None, None => true | _, _ => false end.
Fixpoint sh_eqb (s t : sh) : bool :=
  match s, t with [], [] => true | a :: q, b :: r => dim_eqb a b && sh_eqb q r | _, _ => false end.

(** keras broadcast_shapes, one axis *)
Definition dim_bcast (a b : option nat) : result (option nat) :=
  match a, b with
  | Some 1, _ => Ok b
  | _, Some 1 => Ok a
  | None, _ => Ok b
  | _, None => Ok a
  | Some x, Some y => if x =? y then Ok a else Err ValueError
  end.
(** axes from the last one *)
Fixpoint bcast_rev (s t : sh) : result sh :=
  match s, t with
  | [], _ => Ok t
  | _, [] => Ok s
  | a :: q, b :: r => d <- dim_bcast a b ; e <- bcast_rev q r ; Ok (d :: e)
  end.
(** shape of s + t, s * t, K.minimum, K.maximum *)
Definition s_bin (s t : sh) : result sh := r <- bcast_rev (rev s) (rev t) ; Ok (rev r).

(** K.dot(s, kernel), kernel of shape (d, u): contraction of the last axis. An axis of unknown size is accepted. *)
Definition s_dot (s : sh) (kernel : sh) : result sh :=
  match rev s, kernel with
  | a :: q, [d; u] => if dim_eqb a d then Ok (rev (u :: q)) else Err ValueError
  | _, _ => Err ValueError
  end.

(** product of the axes; None when one is unknown *)
Fixpoint numel (s : sh) : option nat :=
  match s with
  | [] => Some 1
  | a :: q => match a, numel q with Some x, Some y => Some (x * y) | _, _ => None end
  end.
(** product of the known axes *)
Fixpoint known (s : sh) : nat :=
  match s with [] => 1 | Some x :: q => x * known q | None :: q => known q end.
Fixpoint unknowns (s : sh) : nat :=
  match s with [] => 0 | Some _ :: q => unknowns q | None :: q => S (unknowns q) end.

(** K.reshape(s, t); None stands for -1 in t *)
Definition s_reshape (s t : sh) : result sh :=
  match unknowns t with
  | 0 => match numel s, numel t with
         | Some a, Some b => if a =? b then Ok t else Err ValueError
         | _, _ => Ok t
         end
  | 1 => if known t =? 0 then Err ValueError
         else match numel s with
              | None => Ok t
              | Some a => if a mod known t =? 0
                          then Ok (map (fun d => match d with None => Some (a / known t) | _ => d end) t)
                          else Err ValueError
              end
  | _ => Err ValueError
  end.

(** K.transpose(s, axes) *)
Definition s_transpose (axes : list nat) (s : sh) : result sh :=
  if length axes =? length s then mapR (fun a => match nth_error s a with Some d => Ok d | None => Err ValueError end) axes
  else Err ValueError.

(** K.expand_dims(s, 1) *)
Definition s_expand1 (s : sh) : result sh :=
  match s with a :: q => Ok (a :: Some 1 :: q) | [] => Err ValueError end.

Definition dim_add (a b : option nat) : option nat :=
  match a, b with Some x, Some y => Some (x + y) | _, _ => None end.
(** K.concatenate of two tensors along the axis at position a *)
Fixpoint concat2 (a : nat) (s t : sh) : result sh :=
  match a, s, t with
  | O, x :: q, y :: r => if sh_eqb q r then Ok (dim_add x y :: q) else Err ValueError
  | S k, x :: q, y :: r => if dim_eqb x y then e <- concat2 k q r ; Ok (x :: e) else Err ValueError
  | _, _, _ => Err ValueError
  end.
Fixpoint fold_sh (f : sh -> sh -> result sh) (acc : sh) (l : list sh) : result sh :=
  match l with [] => Ok acc | t :: q => r <- f acc t ; fold_sh f r q end.
(** K.concatenate(ss, axis) *)
Definition s_concat (axis : Z) (ss : list sh) : result sh :=
  match ss with
  | [] => Err ValueError
  | s :: q => a <- norm_axis (length s) axis ; fold_sh (concat2 a) s q
  end.
(** Python sum(ss): starts from 0 *)
Definition s_sum (ss : list sh) : result sh :=
  match ss with [] => Ok [] | s :: q => fold_sh s_bin s q end.

(** keras.src.backend.rnn(step, w)[1]: the step on each slice along axis 1, stacked along axis 1 *)
Definition s_rnn (op : sh -> result sh) (w : sh) : result sh :=
  match w with
  | b :: n :: r => o <- op (b :: r) ; match o with b' :: r' => Ok (b' :: n :: r') | [] => Err ValueError end
  | _ => Err ValueError
  end.

(** ** Keras layers: compute_output_shape and call *)

(** keras Flatten.compute_output_shape *)
Definition flatten_shape (s : sh) : result sh :=
  match s with b :: q => Ok [b; numel q] | [] => Err ValueError end.

(** compute_output_shape of the elementwise merging layers of Keras: the batch apart, the missing axes of an operand of
    smaller rank added after it *)
Definition keras_elementwise (y : sh) (q : list sh) : result sh := r <- fold_sh s_bin (tl y) (map (@tl _) q) ; Ok (hd None y :: r).

(** compute_output_shape of the original Keras layers on the list of input shapes *)
Definition keras_shape (L : slayer) (ys : list sh) : result sh :=
  match L, ys with
  | SDense u, [y] => match rev y with _ :: q => Ok (rev (Some u :: q)) | [] => Err ValueError end
  | SFlatten, [y] => flatten_shape y
  | SReshape t, [y] => match y with b :: _ => Ok (b :: map Some t) | [] => Err ValueError end
  | SPermute dims, [y] => s_transpose (0 :: dims) y
  | SRelu, [y] | SDropout, [y] | SSigmoid, [y] | SExponential, [y] | SSoftmax, [y] => Ok y
  | SBatchNorm axis _, [y] => _ <- norm_axis (length y) axis ; Ok y
  | SAdd, y :: q | SAverage, y :: q | SMaximum, y :: q | SMinimum, y :: q | SMultiply, y :: q => keras_elementwise y q
  | SSubtract, [y0; y1] => keras_elementwise y0 [y1]
  | SConcat a, _ => s_concat a ys
  | _, _ => Err ValueError
  end.

(** call of the original Keras layers used by the converted ones on u_c, l_c, b, h, g *)
Definition keras_op (L : slayer) (y : sh) : result sh :=
  match L with
  | SFlatten => t <- flatten_shape y ; s_reshape y t
  | SReshape t => match y with b :: _ => s_reshape y (b :: map Some t) | [] => Err ValueError end
  | SPermute dims => s_transpose (0 :: dims) y
  | _ => Ok y
  end.

(** ** The tuple of tensors *)

(** src/decomon/core.py:48-56 get_x_input_shape_wo_batchsize *)
Definition x_input_shape (D : domain) (n : nat) : sh := map Some (get_x_input_shape_wo_batchsize D n).

(** src/decomon/core.py:207-210 get_kerasinputshape_from_inputshapesformode *)
Definition kerasinputshape (l : list sh) : result sh :=
  match rev l with y :: _ => Ok y | [] => Err IndexError end.

(** src/decomon/core.py:212-276 get_fullinputshapes_from_inputshapesformode; [n] is model_input_dim *)
Definition full_shapes (D : domain) (n : nat) (mode : fmode) (dc : bool) (l : list sh) : result (full sh) :=
  r <- unpack [] mode dc l ;
  match mode with
  | HYBRID => Ok r
  | IBP => match f_uc r with
           | [] => Err IndexError
           | b :: _ =>
             let uc := f_uc r in
             let w := uc ++ [last uc None] in
             Ok (mk_full (b :: x_input_shape D n) uc w uc (f_lc r) w uc (f_h r) (f_g r))
           end
  | AFFINE => Ok (mk_full (f_x r) (f_bu r) (f_wu r) (f_bu r) (f_bu r) (f_wl r) (f_bl r) (f_h r) (f_g r))
  end.

(** src/decomon/layers/core.py:163-185 and decomon_merge_layers.py:60-82: the shapes deduced from that of the Keras layer *)
Definition deduced (D : domain) (n : nat) (mode : fmode) (dc : bool) (l : list sh) (y_out : sh) : result (list sh) :=
  r <- full_shapes D n mode dc l ;
  let w_out := if get_affine mode then hd None (f_x r) :: last (f_x r) None :: tl y_out else [] in
  Ok (extract mode dc (mk_full (f_x r) y_out w_out y_out y_out w_out y_out y_out y_out)).

(** src/decomon/layers/core.py:111-186 DecomonLayer.compute_output_shape on a list of shapes. The Keras layers of
    [slayer] all have a compute_output_shape. *)
Definition announced_layer (L : slayer) (D : domain) (n : nat) (mode : fmode) (dc : bool) (l : list sh) : result (list sh) :=
  y <- kerasinputshape l ;
  y_out <- keras_shape L [y] ;
  deduced D n mode dc l y_out.

(** src/decomon/layers/decomon_merge_layers.py:29-82 DecomonMerge.compute_output_shape *)
Definition merge_shapes (keras : list sh -> result sh) (D : domain) (n : nat) (mode : fmode) (dc : bool) (l : list sh) : result (list sh) :=
  let ls := split_to_merge (nb_tensors mode dc) l in
  ys <- mapR kerasinputshape ls ;
  y_out <- keras ys ;
  match ls, ys with
  | l0 :: _, y0 :: _ => if sh_eqb y_out y0 then Ok l0 else deduced D n mode dc l0 y_out
  | _, _ => Err IndexError
  end.
Definition announced_merge (L : slayer) : domain -> nat -> fmode -> bool -> list sh -> result (list sh) := merge_shapes (keras_shape L).

Definition announced (L : slayer) (D : domain) (n : nat) (mode : fmode) (dc : bool) (l : list sh) : result (list sh) :=
  if merging L then announced_merge L D n mode dc l else announced_layer L D n mode dc l.

(** ** The tensors returned by call() *)

(** src/decomon/utils.py get_upper_box, get_lower_box, get_upper_ball, ... through core.py:59-125: a value per output
    coordinate. x loses its component axis (x[:, 0], x[:, 1]), gains the axes of w; the axis of the input is summed. *)
Definition s_bound (D : domain) (x w b : sh) : result sh :=
  match x, w with
  | bx :: xq, bw :: nw :: r =>
      nx <- match D, xq with
            | Box, [Some 2; k] => Ok k
            | Ball _ _, [k] => Ok k
            | _, _ => Err ValueError
            end ;
      b1 <- dim_bcast bx bw ;
      _ <- dim_bcast nx nw ;
      s_bin (b1 :: r) b
  | _, _ => Err ValueError
  end.

(** src/decomon/core.py:333-347: constant bounds completed from the affine ones *)
Definition s_complete (D : domain) (mode : fmode) (from_affine : bool) (r : full sh) : result (full sh) :=
  match mode with
  | IBP => Ok r
  | AFFINE => if from_affine then
                u <- s_bound D (f_x r) (f_wu r) (f_bu r) ; v <- s_bound D (f_x r) (f_wl r) (f_bl r) ;
                Ok (mk_full (f_x r) u (f_wu r) (f_bu r) v (f_wl r) (f_bl r) (f_h r) (f_g r))
              else Ok r
  | HYBRID => u <- s_bound D (f_x r) (f_wu r) (f_bu r) ; v <- s_bound D (f_x r) (f_wl r) (f_bl r) ;
              u' <- s_bin (f_uc r) u ; v' <- s_bin (f_lc r) v ;
              Ok (mk_full (f_x r) u' (f_wu r) (f_bu r) v' (f_wl r) (f_bl r) (f_h r) (f_g r))
  end.

(** src/decomon/core.py:278-347 get_fullinputs_from_inputsformode; the empty tensor has no axis that matters: shape [] *)
Definition s_fullinputs (D : domain) (mode : fmode) (dc from_affine : bool) (l : list sh) : result (full sh) :=
  r <- unpack [] mode dc l ; s_complete D mode from_affine r.

Definition when (c : bool) (r : result sh) : result sh := if c then r else Ok [].

(** Dense.call: decomon_layers.py:421-511, without backward bounds. [d] is the first axis of the kernel. *)
Definition call_dense (d u : nat) (use_bias : bool) (D : domain) (mode : fmode) (dc : bool) (l : list sh) : result (list sh) :=
  let k := [Some d; Some u] in
  let dot2 s t := a <- s_dot s k ; b <- s_dot t k ; s_bin a b in
  let bias s := if use_bias then s_bin s [Some u] else Ok s in
  r <- s_fullinputs D mode dc false l ;
  h <- when dc (o <- dot2 (f_h r) (f_g r) ; bias o) ;
  g <- when dc (o <- dot2 (f_g r) (f_h r) ; bias o) ;
  uc <- when (get_ibp mode) (o <- dot2 (f_uc r) (f_lc r) ; bias o) ;
  lc <- when (get_ibp mode) (o <- dot2 (f_lc r) (f_uc r) ; bias o) ;
  wb <- (if get_affine mode then
           if length (f_wu r) =? length (f_bu r) then
             y <- s_dot (f_bu r) k ;
             e <- s_expand1 y ; w <- s_bin e (Some 1 :: k) ;
             b <- bias y ;
             Ok (w, b, w, b)
           else
             bu <- dot2 (f_bu r) (f_bl r) ; bl <- dot2 (f_bl r) (f_bu r) ;
             wu <- dot2 (f_wu r) (f_wl r) ; wl <- dot2 (f_wl r) (f_wu r) ;
             bu' <- bias bu ; bl' <- bias bl ;
             Ok (wu, bu', wl, bl')
         else Ok ([], [], [], [])) ;
  let '(wu, bu, wl, bl) := wb in
  Ok (extract mode dc (mk_full (f_x r) uc wu bu lc wl bl h g)).

(** Flatten.call: decomon_layers.py:721-755 *)
Definition call_flatten (D : domain) (mode : fmode) (dc : bool) (l : list sh) : result (list sh) :=
  let op := keras_op SFlatten in
  r <- s_fullinputs D mode dc false l ;
  h <- when dc (op (f_h r)) ; g <- when dc (op (f_g r)) ;
  uc <- when (get_ibp mode) (op (f_uc r)) ; lc <- when (get_ibp mode) (op (f_lc r)) ;
  bu <- when (get_affine mode) (op (f_bu r)) ; bl <- when (get_affine mode) (op (f_bl r)) ;
  let t := [None; last (f_x r) None; numel (tl bu)] in
  wu <- when (get_affine mode) (s_reshape (f_wu r) t) ;
  wl <- when (get_affine mode) (s_reshape (f_wl r) t) ;
  Ok (extract mode dc (mk_full (f_x r) uc wu bu lc wl bl h g)).

(** Reshape.call, Permute.call: decomon_reshape.py:72-114, 180-218 *)
Definition call_rnn (L : slayer) (D : domain) (mode : fmode) (dc : bool) (l : list sh) : result (list sh) :=
  let op := keras_op L in
  r <- s_fullinputs D mode dc false l ;
  h <- when dc (op (f_h r)) ; g <- when dc (op (f_g r)) ;
  uc <- when (get_ibp mode) (op (f_uc r)) ; lc <- when (get_ibp mode) (op (f_lc r)) ;
  bu <- when (get_affine mode) (op (f_bu r)) ; bl <- when (get_affine mode) (op (f_bl r)) ;
  let opw w := if length (f_wu r) =? length (f_bu r) then op w else s_rnn op w in
  wu <- when (get_affine mode) (opw (f_wu r)) ; wl <- when (get_affine mode) (opw (f_wl r)) ;
  Ok (extract mode dc (mk_full (f_x r) uc wu bu lc wl bl h g)).

(** relu_: utils.py:343-402; the slopes and offsets of get_linear_hull_relu have the shape of u_c - l_c *)
Definition call_relu (D : domain) (mode : fmode) (dc : bool) (l : list sh) : result (list sh) :=
  r <- s_fullinputs D mode dc true l ;
  h <- when dc (m <- s_bin (f_h r) (f_g r) ; a <- s_bin (f_uc r) m ; b <- s_bin (f_lc r) (f_h r) ; s_bin a b) ;
  g <- when dc (a <- s_bin (f_uc r) (f_g r) ; b <- s_bin (f_lc r) (f_g r) ; s_bin a b) ;
  wb <- (if get_affine mode then
           c <- s_bin (f_uc r) (f_lc r) ;
           bu <- s_bin c (f_bu r) ; bu' <- s_bin bu c ;
           bl <- s_bin c (f_bl r) ; bl' <- s_bin bl c ;
           e <- s_expand1 c ;
           wu <- s_bin e (f_wu r) ; wl <- s_bin e (f_wl r) ;
           Ok (wu, bu', wl, bl')
         else Ok ([], [], [], [])) ;
  let '(wu, bu, wl, bl) := wb in
  Ok (extract mode dc (mk_full (f_x r) (f_uc r) wu bu (f_lc r) wl bl h g)).

(** Dropout.call: decomon_layers.py: the inputs *)
Definition call_dropout (l : list sh) : result (list sh) := Ok l.

(** get_t_upper, get_t_lower: utils.py:610-665, 668-722: a grid of 100 points of [0, u], tangents through v *)
Definition s_tangent (u v : sh) : result sh :=
  let grid := [Some 1; Some 1; Some 100] in
  t <- s_bin grid (u ++ [Some 1]) ; a <- s_bin t (v ++ [Some 1]) ; c <- s_bin t (v ++ [Some 1]) ; q <- s_bin a c ; score <- s_bin t q ;
  let index := removelast score in
  m <- s_bin grid (u ++ [Some 1]) ; e <- s_bin (index ++ [Some 1]) (u ++ [Some 1]) ; eq <- s_bin m e ; o <- s_bin eq t ;
  w <- s_bin (removelast o) v ; b <- s_bin w v ; s_bin w b.
(** get_linear_hull_s_shape: utils.py:524-607, the slope and the offset of a side; both have the same shape *)
Definition s_hull (D : domain) (mode : fmode) (l : list sh) : result (sh * sh) :=
  r <- s_fullinputs D mode false true l ;
  let shape := tl (f_uc r) in
  u <- s_reshape (f_uc r) [None; numel shape] ; v <- s_reshape (f_lc r) [None; numel shape] ;
  coeff <- s_bin u v ; b0 <- s_bin coeff v ;
  tu <- s_tangent u v ; tl_ <- s_tangent v u ;
  a1 <- s_bin coeff b0 ; a2 <- s_bin a1 tu ; up <- s_reshape a2 (None :: shape) ;
  c1 <- s_bin coeff b0 ; c2 <- s_bin c1 tl_ ; lo <- s_reshape c2 (None :: shape) ;
  Ok (up, lo).
(** sigmoid, tanh, softsign: activations.py:85-158 linear_hull_s_shape *)
Definition s_lines (D : domain) (mode : fmode) (l : list sh) (r : full sh) : result (sh * sh * sh * sh) :=
  p <- s_hull D mode l ;
  let '(up, lo) := p in
  if length (f_wu r) =? length (f_bu r) then
    let k := numel (tl (f_wu r)) in
    wu <- s_bin (Some 1 :: k :: tl (f_wu r)) (hd None up :: k :: tl up) ; wl <- s_bin (Some 1 :: k :: tl (f_wu r)) (hd None lo :: k :: tl lo) ;
    Ok (wu, up, wl, lo)
  else
    eu <- s_expand1 up ; wu <- s_bin eu (f_wu r) ; pu <- s_bin up (f_bu r) ; bu <- s_bin up pu ;
    el <- s_expand1 lo ; wl <- s_bin el (f_wl r) ; pl <- s_bin lo (f_bl r) ; bl <- s_bin lo pl ;
    Ok (wu, bu, wl, bl).
Definition call_sigmoid (D : domain) (mode : fmode) (dc : bool) (l : list sh) : result (list sh) :=
  r <- s_fullinputs D mode dc false l ;
  let uc := if get_ibp mode then f_uc r else [] in let lc := if get_ibp mode then f_lc r else [] in
  p <- (if get_affine mode then s_lines D mode l r else Ok ([], [], [], [])) ;
  let '(wu, bu, wl, bl) := p in
  if dc then Err NotImplementedError else Ok (extract mode dc (mk_full (f_x r) uc wu bu lc wl bl [] [])).

(** exponential: layers/utils.py:1110-1170 exp; softplus: layers/utils.py:110-146 softplus_ on the hull of utils.py:214-265, without
    finetune: slopes of the shape of u_c - l_c, offsets of the shape of a slope times l_c *)
Definition call_exponential (D : domain) (mode : fmode) (dc : bool) (l : list sh) : result (list sh) :=
  r <- s_fullinputs D mode dc true l ;
  p <- (if get_affine mode then
          w0 <- s_bin (f_uc r) (f_lc r) ; b0 <- s_bin w0 (f_lc r) ;
          e <- s_expand1 w0 ; wu <- s_bin e (f_wu r) ; pu <- s_bin w0 (f_bu r) ; bu <- s_bin pu b0 ;
          wl <- s_bin e (f_wl r) ; pl <- s_bin w0 (f_bl r) ; bl <- s_bin pl b0 ;
          Ok (wu, bu, wl, bl)
        else Ok ([], [], [], [])) ;
  let '(wu, bu, wl, bl) := p in
  if dc then Err NotImplementedError else Ok (extract mode dc (mk_full (f_x r) (f_uc r) wu bu (f_lc r) wl bl [] [])).

(** BatchNormalization.call: decomon_layers.py:815-879, without training; k: size of moving_mean. The original call on the last
    input returns its shape; shape[self.axis] = k in a list of ones *)
Fixpoint ones_with (rank a k : nat) : sh :=
  match rank, a with O, _ => [] | S q, O => Some k :: repeat (Some 1) q | S q, S b => Some 1 :: ones_with q b k end.
Definition call_batchnorm (axis : Z) (k : nat) (D : domain) (mode : fmode) (dc : bool) (l : list sh) : result (list sh) :=
  r <- s_fullinputs D mode dc false l ;
  y <- kerasinputshape l ;
  a <- norm_axis (length y) axis ;
  let c := ones_with (length y) a k in
  let norm s t := s0 <- s_bin s c ; t0 <- s_bin t c ; p <- s_bin c s0 ; q <- s_bin c t0 ; o <- s_bin p q ; s_bin o c in
  uc <- when (get_ibp mode) (norm (f_uc r) (f_lc r)) ; lc <- when (get_ibp mode) (norm (f_lc r) (f_uc r)) ;
  bu <- when (get_affine mode) (norm (f_bu r) (f_bl r)) ; bl <- when (get_affine mode) (norm (f_bl r) (f_bu r)) ;
  e <- s_expand1 c ;
  let scale s t := s0 <- s_bin s e ; t0 <- s_bin t e ; p <- s_bin e s0 ; q <- s_bin e t0 ; s_bin p q in
  wu <- when (get_affine mode) (scale (f_wu r) (f_wl r)) ; wl <- when (get_affine mode) (scale (f_wl r) (f_wu r)) ;
  if dc then Err NotImplementedError else Ok (extract mode dc (mk_full (f_x r) uc wu bu lc wl bl [] [])).

(** minus: utils.py:404-440, bounds not tightened *)
Definition s_minus (mode : fmode) (dc : bool) (l : list sh) : result (list sh) :=
  r <- unpack [] mode dc l ;
  Ok (extract mode dc (mk_full (f_x r) (f_lc r) (f_wl r) (f_bl r) (f_uc r) (f_wu r) (f_bu r) (f_g r) (f_h r))).
(** add: utils.py:295-340 *)
Definition s_add (D : domain) (mode : fmode) (dc : bool) (l0 l1 : list sh) : result (list sh) :=
  r0 <- s_fullinputs D mode dc true l0 ; r1 <- s_fullinputs D mode dc true l1 ;
  h <- s_bin (f_h r0) (f_h r1) ; g <- s_bin (f_g r0) (f_g r1) ;
  uc <- s_bin (f_uc r0) (f_uc r1) ; lc <- s_bin (f_lc r0) (f_lc r1) ;
  wu <- s_bin (f_wu r0) (f_wu r1) ; wl <- s_bin (f_wl r0) (f_wl r1) ;
  bu <- s_bin (f_bu r0) (f_bu r1) ; bl <- s_bin (f_bl r0) (f_bl r1) ;
  Ok (extract mode dc (mk_full (f_x r0) uc wu bu lc wl bl h g)).
(** subtract: utils.py:268-292; maximum: utils.py:443-481 *)
Definition s_subtract (D : domain) (mode : fmode) (dc : bool) (l0 l1 : list sh) : result (list sh) :=
  m <- s_minus mode dc l1 ; s_add D mode dc l0 m.
Definition s_maximum (D : domain) (mode : fmode) (dc : bool) (l0 l1 : list sh) : result (list sh) :=
  o <- s_subtract D mode dc l1 l0 ; q <- call_relu D mode dc o ; s_add D mode dc q l0.
Fixpoint fold_tuples (f : list sh -> list sh -> result (list sh)) (acc : list sh) (l : list (list sh)) : result (list sh) :=
  match l with [] => Ok acc | t :: q => r <- f acc t ; fold_tuples f r q end.
(** Subtract.call, Maximum.call, Minimum.call: decomon_merge_layers.py:259-277, 371-398, 308-340 *)
Definition call_subtract (D : domain) (mode : fmode) (dc : bool) (l : list sh) : result (list sh) :=
  if dc then Err NotImplementedError
  else match split_to_merge (nb_tensors mode dc) l with [l0; l1] => s_subtract D mode dc l0 l1 | _ => Err ValueError end.
Definition call_maximum (D : domain) (mode : fmode) (dc : bool) (l : list sh) : result (list sh) :=
  if dc then Err NotImplementedError
  else match split_to_merge (nb_tensors mode dc) l with
       | [] => Err IndexError
       | [_] => Ok l
       | l0 :: q => fold_tuples (s_maximum D mode dc) l0 q
       end.
Definition call_minimum (D : domain) (mode : fmode) (dc : bool) (l : list sh) : result (list sh) :=
  if dc then Err NotImplementedError
  else ms <- mapR (s_minus mode dc) (split_to_merge (nb_tensors mode dc) l) ;
       match ms with
       | [] => Err IndexError
       | [_] => Ok l
       | l0 :: q => o <- fold_tuples (s_maximum D mode dc) l0 q ; s_minus mode dc o
       end.

(** multiply: layers/utils.py:430-521 *)
Definition s_multiply (D : domain) (mode : fmode) (dc : bool) (l0 l1 : list sh) : result (list sh) :=
  r0 <- s_fullinputs D mode dc true l0 ; r1 <- s_fullinputs D mode dc true l1 ;
  let mc p q t := a <- s_bin p q ; b <- s_bin q t ; o <- s_bin a b ; s_bin o q in
  uc <- when (get_ibp mode) (uu <- s_bin (f_uc r0) (f_uc r1) ; ul <- s_bin (f_uc r0) (f_lc r1) ; ll <- s_bin (f_lc r0) (f_lc r1) ; o0 <- mc uu ul ll ;
                             uu' <- s_bin (f_uc r1) (f_uc r0) ; ul' <- s_bin (f_uc r1) (f_lc r0) ; ll' <- s_bin (f_lc r1) (f_lc r0) ; o1 <- mc uu' ul' ll' ; s_bin o0 o1) ;
  lc <- when (get_ibp mode) (lu <- s_bin (f_lc r0) (f_uc r1) ; ll <- s_bin (f_lc r0) (f_lc r1) ; ul <- s_bin (f_uc r0) (f_lc r1) ; mc lu ll ul) ;
  let weights c0 wa0 wb0 c1 wa1 wb1 :=
    e0 <- s_expand1 c0 ; e1 <- s_expand1 c1 ; p <- s_bin e0 wa1 ; q <- s_bin e0 wb1 ; t <- s_bin e1 wa0 ; v <- s_bin e1 wb0 ;
    o <- s_bin p q ; o' <- s_bin o t ; s_bin o' v in
  let offsets c0 ba0 bb0 c1 ba1 bb1 :=
    p <- s_bin c0 ba1 ; q <- s_bin c0 bb1 ; t <- s_bin c1 ba0 ; v <- s_bin c1 bb0 ; z <- s_bin c0 c1 ;
    o <- s_bin p q ; o' <- s_bin o t ; o'' <- s_bin o' v ; s_bin o'' z in
  wu <- when (get_affine mode) (weights (f_uc r0) (f_wu r0) (f_wl r0) (f_lc r1) (f_wu r1) (f_wl r1)) ;
  bu <- when (get_affine mode) (offsets (f_uc r0) (f_bu r0) (f_bl r0) (f_lc r1) (f_bu r1) (f_bl r1)) ;
  wl <- when (get_affine mode) (weights (f_lc r0) (f_wl r0) (f_wu r0) (f_lc r1) (f_wl r1) (f_wu r1)) ;
  bl <- when (get_affine mode) (offsets (f_lc r0) (f_bl r0) (f_bu r0) (f_lc r1) (f_bl r1) (f_bu r1)) ;
  if dc then Err NotImplementedError else Ok (extract mode dc (mk_full (f_x r0) uc wu bu lc wl bl [] [])).
(** Multiply.call: decomon_merge_layers.py:510-537 *)
Definition call_multiply (D : domain) (mode : fmode) (dc : bool) (l : list sh) : result (list sh) :=
  if dc then Err NotImplementedError
  else match split_to_merge (nb_tensors mode dc) l with
       | [] => Err IndexError
       | [_] => Ok l
       | l0 :: q => fold_tuples (s_multiply D mode dc) l0 q
       end.

(** sum, expand_dims with axis = -1: layers/utils.py:149-195, 994-1042 *)
Definition map_full (f : sh -> sh) (mode : fmode) (r : full sh) : full sh :=
  let ibp s := if get_ibp mode then f s else [] in let aff s := if get_affine mode then f s else [] in
  mk_full (f_x r) (ibp (f_uc r)) (aff (f_wu r)) (aff (f_bu r)) (ibp (f_lc r)) (aff (f_wl r)) (aff (f_bl r)) [] [].
Definition s_sum_last (D : domain) (mode : fmode) (l : list sh) : result (list sh) :=
  r <- s_fullinputs D mode false false l ; Ok (extract mode false (map_full (@removelast _) mode r)).
Definition s_expand_last (mode : fmode) (l : list sh) : result (list sh) :=
  r <- unpack [] mode false l ; Ok (extract mode false (map_full (fun s => s ++ [Some 1]) mode r)).
(** frac_pos: layers/utils.py:198-240 *)
Definition s_frac_pos (D : domain) (mode : fmode) (l : list sh) : result (list sh) :=
  r <- s_fullinputs D mode false true l ;
  p <- (if get_affine mode then
          w0 <- s_bin (f_lc r) (f_uc r) ; b0 <- s_bin w0 (f_lc r) ; y <- s_bin (f_uc r) (f_lc r) ;
          e <- s_expand1 w0 ; wu <- s_bin e (f_wl r) ; pu <- s_bin b0 (f_bl r) ; bu <- s_bin pu b0 ;
          e' <- s_expand1 y ; wl <- s_bin e' (f_wu r) ; pl <- s_bin y (f_bu r) ; bl <- s_bin pl y ;
          Ok (wu, bu, wl, bl)
        else Ok ([], [], [], [])) ;
  let '(wu, bu, wl, bl) := p in
  Ok (extract mode false (mk_full (f_x r) (f_lc r) wu bu (f_uc r) wl bl [] [])).
(** softmax: activations.py:441-501, axis = -1 *)
Definition call_softmax (D : domain) (mode : fmode) (dc : bool) (l : list sh) : result (list sh) :=
  if dc then Err NotImplementedError
  else
    m <- s_minus mode false l ; e <- call_exponential D mode false m ;
    t <- s_sum_last D mode e ; i <- s_frac_pos D mode t ; o <- s_expand_last mode i ;
    p <- s_multiply D mode false e o ; r <- s_fullinputs D mode false false p ; Ok (extract mode false r).

(** Dot of two vectors, axes = -1 or 1. Keras announces an axis of size 1 when no other axis is left. Dot.call:
    decomon_merge_layers.py:574-633: permute_dimensions returns its inputs (layers/utils.py:558-561), broadcast adds n_0 = n_1 = 0 axes,
    the products are summed along axis 1, the weights along axis 2 *)
Definition keras_dot (ys : list sh) : result sh :=
  match ys with
  | [[b; d]; [_; e]] => if dim_eqb d e then Ok [b; Some 1] else Err ValueError
  | _ => Err ValueError
  end.
Definition announced_dot : domain -> nat -> fmode -> bool -> list sh -> result (list sh) := merge_shapes keras_dot.
Definition call_dot (D : domain) (mode : fmode) (dc : bool) (l : list sh) : result (list sh) :=
  if dc then Err NotImplementedError
  else match split_to_merge (nb_tensors mode dc) l with
       | [_] => Ok l
       | [l0; l1] => p <- s_multiply D mode false l0 l1 ; s_sum_last D mode p
       | _ => Err NotImplementedError
       end.

(** Add.call, Average.call (a quotient by a number), Concatenate.call: decomon_merge_layers.py:118-157, 189-228, 438-479, through core.py:349-420 (by type; the grouping by
    input used here holds the same tensors). *)
Definition call_merge (op opw : list sh -> result sh) (D : domain) (mode : fmode) (dc : bool) (l : list sh) : result (list sh) :=
  rs <- mapR (s_fullinputs D mode dc false) (split_to_merge (nb_tensors mode dc) l) ;
  let col f := map f rs in
  uc <- when (get_ibp mode) (op (col f_uc)) ; lc <- when (get_ibp mode) (op (col f_lc)) ;
  bu <- when (get_affine mode) (op (col f_bu)) ; bl <- when (get_affine mode) (op (col f_bl)) ;
  wu <- when (get_affine mode) (opw (col f_wu)) ; wl <- when (get_affine mode) (opw (col f_wl)) ;
  if dc then Err NotImplementedError
  else match rs with
       | r0 :: _ => Ok (extract mode dc (mk_full (f_x r0) uc wu bu lc wl bl [] []))
       | [] => Err IndexError
       end.

(** decomon_merge_layers.py:432-436: op_w shifts the axis except when it is -1 *)
Definition opw_axis (axis : Z) : Z := if (axis =? -1)%Z then axis else (axis + 1)%Z.

(** call() of a converted layer built with a kernel for inputs whose last axis is d (Keras builds it from the
    announced input shape) *)
Definition call_shapes (L : slayer) (d : nat) (use_bias : bool) (D : domain) (mode : fmode) (dc : bool) (l : list sh)
  : result (list sh) :=
  match L with
  | SDense u => call_dense d u use_bias D mode dc l
  | SFlatten => call_flatten D mode dc l
  | SReshape _ | SPermute _ => call_rnn L D mode dc l
  | SRelu => call_relu D mode dc l
  | SDropout => call_dropout l
  | SSigmoid => call_sigmoid D mode dc l
  | SExponential => call_exponential D mode dc l
  | SSoftmax => call_softmax D mode dc l
  | SBatchNorm axis k => call_batchnorm axis k D mode dc l
  | SSubtract => call_subtract D mode dc l
  | SMaximum => call_maximum D mode dc l
  | SMinimum => call_minimum D mode dc l
  | SMultiply => call_multiply D mode dc l
  | SAdd | SAverage => call_merge s_sum s_sum D mode dc l
  | SConcat a => call_merge (s_concat a) (s_concat (opw_axis a)) D mode dc l
  end.

(** ** Convert2Mode: models/utils.py:313-347 *)

Definition convert2mode_call (D : domain) (from to : fmode) (dc : bool) (l : list sh) : result (list sh) :=
  let cfa := match from, to with AFFINE, IBP | AFFINE, HYBRID => true | _, _ => false end in
  let tight := match from, to with HYBRID, IBP | HYBRID, HYBRID => true | _, _ => false end in
  r0 <- unpack [] from dc l ;
  r <- (if cfa || tight then s_complete D from true r0 else Ok r0) ;
  r' <- match from, to with
        | IBP, AFFINE | IBP, HYBRID =>
            el <- s_expand1 (f_lc r) ; eu <- s_expand1 (f_uc r) ;
            x <- s_concat 1 [el; eu] ;
            let w := f_lc r ++ [last (f_lc r) None] in
            Ok (mk_full x (f_uc r) w (f_uc r) (f_lc r) w (f_lc r) (f_h r) (f_g r))
        | _, _ => Ok r
        end ;
  Ok (extract to dc r').

Definition convert2mode_announced (D : domain) (n : nat) (from to : fmode) (dc : bool) (l : list sh) : result (list sh) :=
  r <- full_shapes D n from dc l ; Ok (extract to dc r).

(** ** Inputs prepared for a layer converted alone: layers/convert.py:120-186 *)

(** get_layer_input_shape: [nodes] lists the shapes of the inputs of each call of the layer *)
Fixpoint shs_eqb (a b : list sh) : bool :=
  match a, b with [], [] => true | s :: q, t :: r => sh_eqb s t && shs_eqb q r | _, _ => false end.
Definition get_layer_input_shape (nodes : list (list sh)) : result (list sh) :=
  match nodes with
  | [] => Err AttributeError
  | a :: q => if forallb (shs_eqb a) q then Ok a else Err AttributeError
  end.

(** _prepare_input_tensors; Input(shape) has shape (None,) + shape *)
Definition prepare_input_shapes (D : domain) (n : nat) (mode : fmode) (dc : bool) (nodes : list (list sh)) : result (list sh) :=
  shapes <- get_layer_input_shape nodes ;
  let x := None :: x_input_shape D n in
  let w s := None :: Some n :: tl s in
  let y s := None :: tl s in
  let nested := map (fun s => match mode with
                              | HYBRID => [x; y s; w s; y s; y s; w s; y s]
                              | IBP => [y s; y s]
                              | AFFINE => [x; w s; y s; w s; y s]
                              end) shapes in
  if dc then match shapes with
             | [s] => Ok (concat nested ++ [y s; y s])
             | _ => Err NotImplementedError
             end
  else Ok (concat nested).

(** ** A converted network on shapes: the announced shapes when it is built, the shapes of the tensors when it is called *)
Definition gather (env : list (list sh)) (ins : list nat) : result (list sh) :=
  l <- mapR (fun i => match nth_error env i with Some t => Ok t | None => Err IndexError end) ins ; Ok (concat l).

Fixpoint announce_net (D : domain) (n : nat) (mode : fmode) (dc : bool) (env : list (list sh)) (g : list snode)
  : result (list (list sh)) :=
  match g with
  | [] => Ok env
  | (L, ins) :: q => l <- gather env ins ; o <- announced L D n mode dc l ; announce_net D n mode dc (env ++ [o]) q
  end.

(** [env_a]: the announced shapes; the kernel of a Dense layer is built from them *)
Fixpoint call_net (D : domain) (n : nat) (mode : fmode) (dc : bool) (env_a env : list (list sh)) (g : list snode)
  : result (list (list sh)) :=
  match g with
  | [] => Ok env
  | (L, ins) :: q =>
      la <- gather env_a ins ; oa <- announced L D n mode dc la ;
      y <- kerasinputshape la ;
      l <- gather env ins ;
      o <- call_shapes L (match last y None with Some d => d | None => 0 end) true D mode dc l ;
      call_net D n mode dc (env_a ++ [oa]) (env ++ [o]) q
  end.
