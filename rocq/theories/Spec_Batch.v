(** Tensors with their batch axis. A tensor is its shape and its entries in row-major order. Nothing in this file
    depends on the model files. *)
From Coq Require Import Reals List Arith Bool ZArith Sorting.Permutation.
From Verif Require Import RLib Spec Spec_Layers Spec_Network.
Import ListNotations.
Local Open Scope R_scope.

Record nd := mk_nd { nd_shape : list nat; nd_data : nat -> R }.

(** sample b of a batch of B blocks of shape s is the vector v *)
Definition sample_vec (B b : nat) (s : list nat) (t : nd) (v : vec) : Prop :=
  nd_shape t = B :: s /\ forall j, (j < prodn s)%nat -> nd_data t (b * prodn s + j)%nat = v j.
(** sample b of a batch of B matrices: n rows, blocks of shape s *)
Definition sample_mat (B b n : nat) (s : list nat) (t : nd) (w : mat) : Prop :=
  nd_shape t = B :: n :: s /\ forall i j, (i < n)%nat -> (j < prodn s)%nat -> nd_data t ((b * n + i) * prodn s + j)%nat = w i j.
(** sample b of a batch of domains: two corners for a box, the centre for a ball *)
Definition sample_dom (D : domain) (B b n : nat) (t : nd) (x : tensor) : Prop :=
  match D with Box => sample_mat B b 2 [n] t x | Ball _ _ => sample_vec B b [n] t (x 0%nat) end.
Definition dom_shape (D : domain) (B n : nat) : list nat := match D with Box => [B; 2%nat; n] | Ball _ _ => [B; n] end.
Definition batch_dom (D : domain) (n : nat) (t : nd) (b : nat) : tensor :=
  match D with Box => fun i j => nd_data t ((b * 2 + i) * n + j)%nat | Ball _ _ => fun _ j => nd_data t (b * n + j)%nat end.

(** what the tensors of each mode are *)
Inductive kind := KDom | KMat | KVec.
Definition kinds (mode : fmode) : list kind :=
  match mode with
  | IBP => [KVec; KVec]
  | AFFINE => [KDom; KMat; KVec; KMat; KVec]
  | HYBRID => [KDom; KVec; KMat; KVec; KVec; KMat; KVec]
  end.
Definition sample_kind (D : domain) (B b n : nat) (s : list nat) (k : kind) (t : nd) (u : tensor) : Prop :=
  match k with
  | KDom => sample_dom D B b n t u
  | KMat => sample_mat B b n s t u
  | KVec => sample_vec B b s t (u 0%nat)
  end.
Inductive Forall3 {A B C : Type} (P : A -> B -> C -> Prop) : list A -> list B -> list C -> Prop :=
| Forall3_nil : Forall3 P [] [] []
| Forall3_cons : forall a b c la lb lc, P a b c -> Forall3 P la lb lc -> Forall3 P (a :: la) (b :: lb) (c :: lc).
(** sample b of the tensors T, exchanged by the layers for a block of shape s, are the tensors ts *)
Definition sample (D : domain) (mode : fmode) (B b n : nat) (s : list nat) (T : list nd) (ts : list tensor) : Prop :=
  Forall3 (sample_kind D B b n s) (kinds mode) T ts.

(** ** Networks whose weights are tensors *)
(** Keras layers with their weights; slope and finetuning coefficients of the relu of decomon *)
Inductive tlayer :=
| TDense (kernel : nd) (bias : option nd)
| TRelu (sl : slope) (ft : option nd)
| TLinear | TDropout | TFlatten
| TReshape (target : list nat)
| TBatchNorm (axis : Z) (gamma beta : option nd) (mean var : nd) (eps : R)
| TPermute (dims : list nat)
| TAdd | TAverage | TSubtract | TMaximum | TMinimum.
Definition tnetwork := list (option tlayer * list nat).
(** the layer accepts blocks of shapes [ss] and returns blocks of shape [s'] *)
Definition tl_ok (ss : list (list nat)) (L : tlayer) (s' : list nat) : Prop :=
  match L, ss with
  | TDense kernel bias, [s] =>
      exists pre d u, s = pre ++ [d] /\ s' = pre ++ [u] /\ (0 < d)%nat /\ (0 < u)%nat /\ nd_shape kernel = [d; u] /\ forall a, bias = Some a -> nd_shape a = [u]
  | TRelu _ ft, [s] => s' = s /\ forall a, ft = Some a -> nd_shape a = s
  | TLinear, [s] | TDropout, [s] => s' = s
  | TFlatten, [s] => s' = [prodn s] /\ (0 < prodn s)%nat
  | TReshape target, [s] => s' = target /\ prodn target = prodn s /\ (0 < prodn s)%nat
  | TBatchNorm axis gamma beta mean var eps, [s] =>
      s' = s /\ exists pre k post, s = pre ++ k :: post /\ (axis = pos_axis pre \/ axis = neg_axis post) /\ nd_shape mean = [k] /\ nd_shape var = [k] /\
        (forall a, gamma = Some a -> nd_shape a = [k]) /\ (forall a, beta = Some a -> nd_shape a = [k]) /\ forall c, (c < k)%nat -> 0 < nd_data var c + eps
  | TPermute dims, [s] => s' = permuted (map pred dims) s /\ Permutation dims (seq 1 (length s))
  | TSubtract, [s0; s1] => s' = s0 /\ s' = s1
  | TAdd, s :: q | TAverage, s :: q | TMaximum, s :: q | TMinimum, s :: q => s' = s /\ forall t, In t q -> t = s
  | _, _ => False
  end.
(** position in a block of rank r of a Python axis, counted with the batch axis *)
Definition block_axis (r : nat) (axis : Z) : nat := pred (Z.to_nat (if Z.ltb axis 0 then axis + Z.of_nat (S r) else axis)).
(** the same layer on one sample *)
Definition tl_layer (ss : list (list nat)) (L : tlayer) : nlayer :=
  let m := match ss with s :: _ => prodn s | [] => O end in
  match L with
  | TDense kernel bias =>
      let d := hd O (nd_shape kernel) in
      let u := hd O (tl (nd_shape kernel)) in
      NDense (m / d) d u (fun c j => nd_data kernel (c * u + j)%nat) (option_map nd_data bias)
  | TRelu _ _ => NActivation Arelu m
  | TLinear => NActivation Alinear m
  | TDropout => NDropout m
  | TFlatten => NFlatten false m 1
  | TReshape _ => NReshape m
  | TBatchNorm axis gamma beta mean var eps =>
      let s := hd [] ss in
      let a := block_axis (length s) axis in
      NBatchNorm (firstn a s) (nth a s O) (skipn (S a) s) axis (option_map nd_data gamma) (option_map nd_data beta) (nd_data mean) (nd_data var) eps
  | TPermute dims => NPermute (hd [] ss) dims
  | TAdd => NAdd m (length ss)
  | TAverage => NAverage m (length ss)
  | TSubtract => NSubtract m
  | TMaximum => NMaximum m (length ss)
  | TMinimum => NMinimum m (length ss)
  end.
(** [shape i]: shape of the block computed by node i of a network whose input is a vector of dimension n *)
Definition tnet_ok (n : nat) (net : tnetwork) (shape : nat -> list nat) : Prop :=
  forall i o ps, nth_error net i = Some (o, ps) ->
    (forall p, In p ps -> (p < i)%nat) /\
    match o with None => ps = [] /\ shape i = [n] | Some L => ps <> [] /\ tl_ok (map shape ps) L (shape i) end.
(** the network on one sample *)
Definition tnet_network (shape : nat -> list nat) (net : tnetwork) : network :=
  map (fun q => (match fst q with None => None | Some L => Some (tl_layer (map shape (snd q)) L) end, snd q)) net.
(** finetuning coefficients lie between 0 and 1 *)
Definition tnet_ft (net : tnetwork) : Prop :=
  forall i sl a ps, nth_error net i = Some (Some (TRelu sl (Some a)), ps) -> forall j, (j < prodn (nd_shape a))%nat -> 0 <= nd_data a j <= 1.
(** layers other than relu, maximum and minimum *)
Definition tl_affine (L : tlayer) : Prop := match L with TRelu _ _ | TMaximum | TMinimum => False | _ => True end.
(** ** The backward pass *)
(** layers with one input: those that the backward pass goes through *)
Definition tl_unary (L : tlayer) : Prop := match L with TAdd | TAverage | TSubtract | TMaximum | TMinimum => False | _ => True end.
Definition tnet_chain (net : tnetwork) : Prop := forall i L ps, nth_error net i = Some (Some L, ps) -> tl_unary L.
(** [fwd]: crown-forward-xxx; [ft i]: coefficients of the backward layer of node i, one per neuron. Without the forward
    bounds, Dense, BatchNormalization and Permute are applied to vectors; with them, a relu with coefficients is applied
    to a vector, and Permute exchanges axes of the same length *)
Definition tnet_blocks (fwd : bool) (ft : nat -> option nd) (net : tnetwork) (shape : nat -> list nat) : Prop :=
  forall i L ps, nth_error net i = Some (Some L, ps) ->
    match L with
    | TDense _ _ | TBatchNorm _ _ _ _ _ _ => fwd = false -> exists d, map shape ps = [[d]]
    | TPermute _ => map shape ps = [shape i] /\ (fwd = false -> exists d, map shape ps = [[d]])
    | TRelu _ _ => forall a, ft i = Some a -> nd_shape a = [prodn (shape i)] /\ (fwd = true -> exists m, shape i = [m])
    | _ => True
    end.
(** Permute exchanges axes of the same length *)
Definition tnet_square (net : tnetwork) (shape : nat -> list nat) : Prop :=
  forall i dims ps, nth_error net i = Some (Some (TPermute dims), ps) -> map shape ps = [shape i].
(** coefficients of the backward layers between 0 and 1 *)
Definition tbo_ok (bo : nat -> slope * option nd) (net : tnetwork) (shape : nat -> list nat) : Prop :=
  forall i a, (i < length net)%nat -> snd (bo i) = Some a -> forall j, (j < prodn (shape i))%nat -> 0 <= nd_data a j <= 1.
