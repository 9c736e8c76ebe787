(** The decomon layer of each Keras layer, and the graph of decomon layers of a network. Definitions only.
    src/decomon/layers/convert.py:28-118 to_decomon: the class "Decomon" + name of the Keras class, with the attributes
    and weights of the Keras layer. *)
From Coq Require Import Reals List Arith Bool ZArith.
From Verif Require Import RLib Spec Spec_Layers Spec_Backward Spec_Network M_Core M_Utils M_MergeLayers M_Ops M_Layers M_Pool M_Backward M_Crown M_Convert.
Import ListNotations.
Local Open Scope R_scope.

(** options of a converted layer: slope, finetuning coefficients of the lower line (beta_l_f, without effect in ibp mode),
    fast (max pooling) *)
Record lopts := mk_opts { lo_slope : slope; lo_ft : option vec; lo_fast : bool }.

(** DecomonActivation.call: layers/decomon_layers.py:594-623, with the functions of layers/activations.py: relu 43-82,
    sigmoid 161-190, tanh 193-223, linear 326-348, exponential 351-376, softplus 379-406, softsign 409-438. Only relu
    uses the finetuning coefficients *)
Definition decomon_activation (ke : R) (sp : spec) (o : lopts) (a : activation) (m : nat) : list tensor -> result (list tensor) :=
  match a with
  | Alinear => fun ts => Ok ts
  | Arelu => relu_ ke sp (lo_slope o) (lo_ft o)
  | Asigmoid => op_s_shape ke sp sigmoid sigmoid_prime
  | Atanh => op_s_shape ke sp tanh tanh_prime
  | Asoftsign => op_s_shape ke sp softsign softsign_prime
  | Asoftplus => op_softplus ke sp (lo_slope o) m
  | Aexponential => op_exp ke sp
  end.

(** the call of the decomon layer of a Keras layer *)
Definition decomon_layer (ke : R) (sp : spec) (o : lopts) (L : nlayer) : list tensor -> result (list tensor) :=
  match L with
  | NDense _ d units kernel bias => decomon_dense sp d units kernel bias false None
  | NConv2D g kernel bias => decomon_conv2d sp g kernel bias false
  | NBatchNorm pre k post axis gamma beta mean var eps => decomon_bn sp (pre ++ k :: post) axis gamma beta mean var eps false
  | NFlatten cf ch size => decomon_flatten sp cf ch size
  | NReshape _ => decomon_reshape sp
  | NPermute s dims => decomon_permute sp s dims
  | NDropout _ => decomon_dropout false
  | NActivation a m => decomon_activation ke sp o a m
  | NMaxPool g => decomon_max_pooling ke sp (lo_fast o) g
  | NAdd _ _ => decomon_add sp
  | NAverage _ _ => decomon_average sp
  | NSubtract _ => decomon_subtract sp
  | NMultiply _ _ => decomon_multiply sp
  | NMaximum _ _ => decomon_maximum ke sp
  | NMinimum _ _ => decomon_minimum ke sp
  | NConcatenate pre post ks axis => decomon_concatenate sp (map (fun k => pre ++ k :: post) ks) axis
  | NDot pre0 post0 pre1 post1 k axis0 axis1 => decomon_dot sp (pre0 ++ k :: post0) (pre1 ++ k :: post1) axis0 axis1
  end.

(** forward_cloning.py:93-263: one decomon layer per node *)
Definition decomon_net (ke : R) (sp : spec) (opts : nat -> lopts) (net : network) : fgraph tensor :=
  map (fun q => mk_fnode (fst q) (match fst (snd q) with None => KInput | Some L => KOp (decomon_layer ke sp (opts (fst q)) L) end) (snd (snd q)))
    (combine (seq 0 (length net)) net).

(** ** Backward layers. backward_layers/convert.py:16-48 to_backward: the class "Backward" + name of the Keras class.
    backward_layers/backward_layers.py: Dense 30-129, Conv2D 132-228, Activation 231-431, Flatten 434-456, Reshape
    459-481, Permute 484-524, Dropout 527-549, BatchNormalization 552-606, InputLayer 609-631; MaxPooling2D
    (backward_maxpooling.py) raises. Merges are not called by the backward pass on more than one parent
    (backward_cloning.py:82-215 raises NotImplementedError): their field is that exception.
    [ft]: alpha_b_l, alpha_b_u when finetune *)
Record bopts := mk_bopts { bo_slope : slope; bo_ft : option (vec * vec) }.

(** layers.activations is matched by name: backward_layers.py:374-405 *)
Definition backward_act (a : activation) : act :=
  match a with
  | Alinear => ActLinear | Arelu => ActRelu | Asigmoid => ActSigmoid | Atanh => ActTanh | Asoftsign => ActSoftsign
  | Asoftplus => ActSoftplus | Aexponential => ActExponential
  end.

Definition backward_call (ke : R) (sp : spec) (o : bopts) (L : nlayer) : list tensor -> result bb :=
  match L with
  | NDense _ d units kernel bias => fun _ => Ok (backward_dense d units kernel bias)
  | NConv2D g kernel bias => fun _ => backward_conv2d g kernel bias
  | NBatchNorm pre k post _ gamma beta mean var eps => fun _ => Ok (backward_bn (pre ++ k :: post) (length pre) gamma beta mean var eps)
  | NFlatten _ _ _ | NReshape _ | NDropout _ => fun _ => Ok backward_identity
  | NPermute s dims => fun _ => Ok (backward_permute s dims)
  | NActivation a m => backward_activation ke sp (backward_act a) (bo_slope o) (bo_ft o) m
  | NMaxPool _ => fun _ => backward_maxpool_layer
  | NAdd _ _ | NAverage _ _ | NSubtract _ | NMultiply _ _ | NMaximum _ _ | NMinimum _ _ | NConcatenate _ _ _ _ | NDot _ _ _ _ _ _ _ =>
      fun _ => Err NotImplementedError
  end.
Definition backward_layer (ke : R) (sp : spec) (o : bopts) (L : nlayer) : layer :=
  mk_layer (nth 0 (nl_in L) O) (nl_out L) (backward_call ke sp o L) false.

(** the graph of backward layers of a network of input size n *)
Definition backward_net (ke : R) (sp : spec) (bopts : nat -> bopts) (n : nat) (net : network) : graph :=
  map (fun q => (match fst (snd q) with None => mk_layer n n (fun _ => Ok backward_identity) false | Some L => backward_layer ke sp (bopts (fst q)) L end,
                 snd (snd q)))
    (combine (seq 0 (length net)) net).
