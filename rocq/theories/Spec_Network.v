(** Networks of Keras layers: what each layer computes, and the values of the nodes of a network. Blocks are flat
    (row-major), without the batch. Nothing in this file depends on the model files. *)
From Coq Require Import Reals List Arith Bool ZArith Sorting.Permutation.
From Verif Require Import RLib Spec Spec_Layers Spec_Backward Spec_Convert.
Import ListNotations.
Local Open Scope R_scope.

Inductive activation := Alinear | Arelu | Asigmoid | Atanh | Asoftsign | Asoftplus | Aexponential.
Definition act_value (a : activation) (x : R) : R :=
  match a with
  | Alinear => x
  | Arelu => Rmax x 0
  | Asigmoid => / (1 + exp (- x))
  | Atanh => tanh x
  | Asoftsign => x / (1 + Rabs x)
  | Asoftplus => ln (1 + exp x)
  | Aexponential => exp x
  end.

(** layers with the attributes and weights that determine what they compute; m: number of neurons of a block, k: number of inputs *)
Inductive nlayer :=
| NDense (rows d units : nat) (kernel : mat) (bias : option vec)
| NConv2D (g : conv_geo) (kernel : kernel4) (bias : option vec)
| NBatchNorm (pre : list nat) (k : nat) (post : list nat) (axis : Z) (gamma beta : option vec) (mean var : vec) (eps : R)
| NFlatten (channels_first : bool) (ch size : nat)
| NReshape (m : nat)
| NPermute (s dims : list nat)
| NDropout (m : nat)
| NActivation (a : activation) (m : nat)
| NMaxPool (g : conv_geo)
| NAdd (m k : nat)
| NAverage (m k : nat)
| NSubtract (m : nat)
| NMultiply (m k : nat)
| NMaximum (m k : nat)
| NMinimum (m k : nat)
| NConcatenate (pre post ks : list nat) (axis : Z)
| NDot (pre0 post0 pre1 post1 : list nat) (k : nat) (axis0 axis1 : Z).

Definition opt_vec (c : R) (b : option vec) : vec := match b with Some v => v | None => fun _ => c end.

(** numbers of neurons of the inputs, and of the output *)
Definition nl_in (L : nlayer) : list nat :=
  match L with
  | NDense rows d _ _ _ => [rows * d]%nat
  | NConv2D g _ _ => [im_size (cg_in g)]
  | NBatchNorm pre k post _ _ _ _ _ _ => [prodn (pre ++ k :: post)]
  | NFlatten _ ch size => [ch * size]%nat
  | NReshape m | NDropout m | NActivation _ m => [m]
  | NPermute s _ => [prodn s]
  | NMaxPool g => [im_size (cg_in g)]
  | NAdd m k | NAverage m k | NMultiply m k | NMaximum m k | NMinimum m k => repeat m k
  | NSubtract m => [m; m]
  | NConcatenate pre post ks _ => map (fun k => prodn (pre ++ k :: post)) ks
  | NDot pre0 post0 pre1 post1 k _ _ => [prodn (pre0 ++ k :: post0); prodn (pre1 ++ k :: post1)]
  end.
Definition nl_out (L : nlayer) : nat :=
  match L with
  | NDense rows _ units _ _ => (rows * units)%nat
  | NConv2D g _ _ | NMaxPool g => im_size (cg_out g)
  | NBatchNorm pre k post _ _ _ _ _ _ => prodn (pre ++ k :: post)
  | NFlatten _ ch size => (ch * size)%nat
  | NReshape m | NDropout m | NActivation _ m | NSubtract m => m
  | NAdd m _ | NAverage m _ | NMultiply m _ | NMaximum m _ | NMinimum m _ => m
  | NPermute s dims => prodn (permuted (map pred dims) s)
  | NConcatenate pre post ks _ => prodn (pre ++ total ks :: post)
  | NDot pre0 post0 pre1 post1 _ _ _ => prodn ((pre0 ++ post0) ++ pre1 ++ post1)
  end.

(** [r] is the output of the layer for the inputs [ys] *)
Definition computes (L : nlayer) (ys : list vec) (r : vec) : Prop :=
  match L, ys with
  | NDense rows d units kernel bias, [y] =>
      forall p u, (p < rows)%nat -> (u < units)%nat ->
        r (p * units + u)%nat = rsum d (fun c => y (p * d + c)%nat * kernel c u) + opt_vec 0 bias u
  | NConv2D g kernel bias, [y] => forall j, (j < im_size (cg_out g))%nat -> r j = keras_conv2d g kernel (opt_vec 0 bias) y j
  | NBatchNorm pre k post _ gamma beta mean var eps, [y] =>
      forall p c q, in_shape pre p -> in_shape post q -> (c < k)%nat ->
        r (ravel (pre ++ k :: post) (p ++ c :: q)) =
        opt_vec 1 gamma c * (y (ravel (pre ++ k :: post) (p ++ c :: q)) - mean c) / sqrt (var c + eps) + opt_vec 0 beta c
  | NFlatten channels_first ch size, [y] =>
      if channels_first then forall c q, (c < ch)%nat -> (q < size)%nat -> r (q * ch + c)%nat = y (c * size + q)%nat
      else forall j, (j < ch * size)%nat -> r j = y j
  | NReshape m, [y] | NDropout m, [y] => forall j, (j < m)%nat -> r j = y j
  | NPermute s dims, [y] =>
      forall p, in_shape s p -> r (ravel (permuted (map pred dims) s) (permuted (map pred dims) p)) = y (ravel s p)
  | NActivation a m, [y] => forall j, (j < m)%nat -> r j = act_value a (y j)
  | NMaxPool g, [y] => forall j, (j < im_size (cg_out g))%nat -> r j = max_pool g y j
  | NAdd m _, ys => forall j, (j < m)%nat -> r j = sum_list (map (fun y => y j) ys)
  | NAverage m _, ys => forall j, (j < m)%nat -> r j = sum_list (map (fun y => y j) ys) / INR (length ys)
  | NSubtract m, [y0; y1] => forall j, (j < m)%nat -> r j = y0 j - y1 j
  | NMultiply m _, ys => forall j, (j < m)%nat -> r j = fold_right Rmult 1 (map (fun y => y j) ys)
  | NMaximum m _, y :: ys => forall j, (j < m)%nat -> r j = max_list (y j) (map (fun y => y j) ys)
  | NMinimum m _, y :: ys => forall j, (j < m)%nat -> r j = min_list (y j) (map (fun y => y j) ys)
  | NConcatenate pre post ks _, ys =>
      forall t p c q y, nth_error ys t = Some y -> in_shape pre p -> in_shape post q -> (c < nth t ks O)%nat ->
        r (ravel (pre ++ total ks :: post) (p ++ (offset ks t + c)%nat :: q)) = y (ravel (pre ++ nth t ks O :: post) (p ++ c :: q))
  | NDot pre0 post0 pre1 post1 k _ _, [y0; y1] =>
      forall p0 q0 p1 q1, in_shape pre0 p0 -> in_shape post0 q0 -> in_shape pre1 p1 -> in_shape post1 q1 ->
        r (ravel ((pre0 ++ post0) ++ (pre1 ++ post1)) ((p0 ++ q0) ++ (p1 ++ q1))) =
        rsum k (fun c => y0 (ravel (pre0 ++ k :: post0) (p0 ++ c :: q0)) * y1 (ravel (pre1 ++ k :: post1) (p1 ++ c :: q1)))
  | _, _ => False
  end.

(** Attributes under which the layer is a Keras layer (first line of each case) and decomon converts it soundly: axes it
    reads as Keras does, pools it can build. [mode]: the forward mode *)
Definition nl_ok (mode : fmode) (fast : bool) (L : nlayer) : Prop :=
  match L with
  | NDense _ _ units _ _ => (0 < units)%nat
  | NConv2D _ _ _ | NReshape _ | NDropout _ | NActivation _ _ | NSubtract _ => True
  | NBatchNorm pre k post axis _ _ _ var eps =>
      (forall c, (c < k)%nat -> 0 < var c + eps) /\ (axis = pos_axis pre \/ axis = neg_axis post)
  | NFlatten cf _ _ => mode = IBP \/ cf = false
  | NPermute s dims => Permutation dims (seq 1 (length s))
  | NMaxPool g =>
      cg_cout g = cg_cin g /\
      if fast then (wn_k (cg_y g) <= 1 \/ wn_k (cg_y g) <= wn_k (cg_x g))%nat
      else cg_last g = true /\ wn_same (cg_y g) = false /\ wn_same (cg_x g) = false /\
           (0 < wn_k (cg_x g))%nat /\ (wn_k (cg_y g) = wn_k (cg_x g) \/ wn_k (cg_y g) = 1%nat)
  | NAdd _ k | NAverage _ k | NMultiply _ k | NMaximum _ k | NMinimum _ k => (0 < k)%nat
  | NConcatenate pre post ks axis => ks <> [] /\ (axis = pos_axis pre \/ (axis = neg_axis post /\ (post = [] \/ mode = IBP)))
  | NDot pre0 post0 pre1 post1 _ axis0 axis1 =>
      (axis0 = neg_axis post0 \/ (mode = IBP /\ axis0 = pos_axis pre0) \/ (pre0 = [] /\ post0 = [])) /\
      (axis1 = neg_axis post1 \/ (mode = IBP /\ axis1 = pos_axis pre1) \/ (pre1 = [] /\ post1 = []))
  end.

(** Layers that the backward pass handles soundly: one input, and what decomon reads as Keras does *)
Definition bl_ok (L : nlayer) : Prop :=
  match L with
  | NDense _ _ units _ _ => (0 < units)%nat
  | NConv2D g _ _ => wn_k (cg_y g) = wn_k (cg_x g) /\ cg_last g = true
  | NBatchNorm pre k post axis _ _ _ var eps =>
      (forall c, (c < k)%nat -> 0 < var c + eps) /\ (axis = pos_axis pre \/ axis = neg_axis post)
  | NFlatten cf _ _ => cf = false
  | NReshape _ | NDropout _ => True
  | NPermute s dims => Permutation dims (seq 1 (length s)) /\ permuted (map pred dims) s = s
  | NActivation a _ => match a with Alinear | Arelu | Asigmoid | Atanh | Asoftsign => True | Asoftplus | Aexponential => False end
  | _ => False
  end.

(** A network: for each node, its layer ([None]: the input) and its parents, which come first *)
Definition network := list (option nlayer * list nat).
Definition net_dim (n : nat) (net : network) (i : nat) : nat :=
  match nth_error net i with Some (Some L, _) => nl_out L | _ => n end.
Definition net_ok (n : nat) (net : network) : Prop :=
  forall i o ps, nth_error net i = Some (o, ps) ->
    (forall p, In p ps -> (p < i)%nat) /\
    match o with None => ps = [] | Some L => ps <> [] /\ map (net_dim n net) ps = nl_in L end.
(** [v i y]: value of node i when the input of the network is y *)
Definition net_value (net : network) (v : nat -> vec -> vec) : Prop :=
  forall y i o ps, nth_error net i = Some (o, ps) ->
    match o with
    | None => forall j, v i y j = y j
    | Some L => computes L (map (fun p => v p y) ps) (v i y)
    end.

(** node i is an ancestor of node o, or o itself *)
Inductive leads_to (pss : list (list nat)) (o : nat) : nat -> Prop :=
| leads_self : leads_to pss o o
| leads_step : forall i k ps, nth_error pss k = Some ps -> In i ps -> leads_to pss o k -> leads_to pss o i.
