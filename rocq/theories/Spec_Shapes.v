(** Shapes a user expects of the tensors of a converted layer, stated without the code: Keras semantics of the layers
    on the shape of one sample, and the layout of a tuple of bounds. *)
From Coq Require Import List Arith Bool ZArith Permutation.
From Verif Require Import RLib Spec.
Import ListNotations.

(** a shape with its batch axis; an axis of unknown size is None *)
Definition sh := list (option nat).

(** number of entries of one sample *)
Fixpoint size_of (s : list nat) : nat := match s with [] => 1 | d :: q => d * size_of q end.

(** layers, with what their shapes depend on *)
Inductive slayer :=
| SDense (units : nat)
| SFlatten
| SReshape (target : list nat)
| SPermute (dims : list nat)
| SRelu
| SDropout
| SSigmoid (** sigmoid, tanh, softsign *)
| SExponential (** exponential, softplus *)
| SSoftmax (** along the last axis *)
| SBatchNorm (axis : Z) (channels : nat)
| SAdd
| SAverage
| SSubtract
| SMaximum
| SMinimum
| SMultiply
| SConcat (axis : Z).

(** operands of the same rank: an axis of size 1 takes the size of the other one *)
Inductive joined : list nat -> list nat -> list nat -> Prop :=
| joined_nil : joined [] [] []
| joined_cons : forall a c d s t r, (a = c /\ d = a) \/ (a = 1 /\ d = c) \/ (c = 1 /\ d = a) -> joined s t r -> joined (a :: s) (c :: t) (d :: r).
Inductive broadcast : list nat -> list (list nat) -> list nat -> Prop :=
| broadcast_one : forall s, broadcast s [] s
| broadcast_cons : forall s t r l u, joined s t r -> broadcast r l u -> broadcast s (t :: l) u.
(** shape of a sample of the output of a layer, given those of its inputs *)
Inductive out_shape : slayer -> list (list nat) -> list nat -> Prop :=
| out_dense : forall u pre d, out_shape (SDense u) [pre ++ [d]] (pre ++ [u])
| out_flatten : forall s, out_shape SFlatten [s] [size_of s]
| out_reshape : forall t s, size_of s = size_of t -> out_shape (SReshape t) [s] t
| out_permute : forall dims s, Permutation dims (seq 1 (length s)) ->
    out_shape (SPermute dims) [s] (map (fun d => nth (d - 1) s 0) dims)
| out_relu : forall s, out_shape SRelu [s] s
| out_dropout : forall s, out_shape SDropout [s] s
| out_sigmoid : forall s, out_shape SSigmoid [s] s
| out_exponential : forall s, out_shape SExponential [s] s
| out_softmax : forall pre d, out_shape SSoftmax [pre ++ [d]] (pre ++ [d])
| out_batchnorm : forall axis pre k post, (axis = Z.of_nat (length pre) + 1 \/ axis = - Z.of_nat (length post) - 1)%Z ->
    out_shape (SBatchNorm axis k) [pre ++ k :: post] (pre ++ k :: post)
| out_average : forall a l s, broadcast a l s -> out_shape SAverage (a :: l) s
| out_subtract : forall a c s, joined a c s -> out_shape SSubtract [a; c] s
| out_maximum : forall a l s, broadcast a l s -> out_shape SMaximum (a :: l) s
| out_minimum : forall a l s, broadcast a l s -> out_shape SMinimum (a :: l) s
| out_multiply : forall a l s, broadcast a l s -> out_shape SMultiply (a :: l) s
| out_add : forall a l s, broadcast a l s -> out_shape SAdd (a :: l) s
| out_concat : forall axis pre post d ds,
    (axis = Z.of_nat (length pre) + 1 \/ axis = - Z.of_nat (length post) - 1)%Z ->
    out_shape (SConcat axis) (map (fun k => pre ++ k :: post) (d :: ds)) (pre ++ list_sum (d :: ds) :: post).

(** x for an input of dimension n: the two corners of a box, the centre of a ball *)
Definition x_shape (D : domain) (b : option nat) (n : nat) : sh :=
  match D with Box => [b; Some 2; Some n] | Ball _ _ => [b; Some n] end.
(** a constant bound, an offset, a convex or a concave part *)
Definition value_shape (b : option nat) (s : list nat) : sh := b :: map Some s.
(** weights of an affine bound *)
Definition weight_shape (b : option nat) (n : nat) (s : list nat) : sh := b :: Some n :: map Some s.

(** shapes of the tensors of a layer whose output has shape s *)
Definition tuple_shapes (D : domain) (mode : fmode) (dc : bool) (b : option nat) (n : nat) (s : list nat) : list sh :=
  let x := x_shape D b n in let v := value_shape b s in let w := weight_shape b n s in
  match mode with
  | IBP => [v; v]
  | AFFINE => [x; w; v; w; v]
  | HYBRID => [x; v; w; v; v; w; v]
  end ++ (if dc then [v; v] else []).

(** a network on shapes: each node has a layer and the positions of its inputs among the tensors computed before it *)
Definition snode := (slayer * list nat)%type.

(** the shapes of the nodes of a network, one after the other *)
Inductive net_shapes : list (list nat) -> list snode -> list (list nat) -> Prop :=
| ns_nil : forall env, net_shapes env [] env
| ns_cons : forall env L ins args s q env', Forall2 (fun i a => nth_error env i = Some a) ins args ->
    out_shape L args s -> net_shapes (env ++ [s]) q env' -> net_shapes env ((L, ins) :: q) env'.

Definition merging (L : slayer) : bool := match L with SAdd | SAverage | SSubtract | SMaximum | SMinimum | SMultiply | SConcat _ => true | _ => false end.
(** merging layers, BatchNormalization and curved activations have no difference of convex functions *)
Definition without_dc (L : slayer) : bool := match L with SBatchNorm _ _ | SSigmoid | SExponential | SSoftmax => true | _ => merging L end.
(** concatenation along an axis counted from the end other than the last one *)
Definition odd_axis (L : slayer) : bool := match L with SConcat a => (a <? -1)%Z | _ => false end.

(** last axis of the first input *)
Definition last_axis (args : list (list nat)) : nat := last (hd [] args) 0.

(** weights given as a diagonal: a tensor of the rank of the offsets *)
Definition diagonal_tuple (D : domain) (b : option nat) (n : nat) (s : list nat) : list sh :=
  let v := value_shape b s in [x_shape D b n; v; v; v; v].
