(** set_domain on the conversion of a whole network. Definitions only.
    src/decomon/models/models.py:66-71, 122-128: set_domain replaces the attribute perturbation_domain of the model and of
    every layer. The objects built at conversion keep the domain they were given: inputs_outputs_spec of each layer
    (layers/core.py:53-55, layers/decomon_merge_layers.py through the same constructor), the lambda which computes the
    input tensors (models/utils.py:97-143) and Convert2Mode (models/utils.py:285-334). *)
From Coq Require Import Reals List Arith Bool ZArith.
From Verif Require Import RLib Spec Spec_Layers Spec_Network M_Core M_Utils M_MergeLayers M_Ops M_Layers M_Pool M_Backward M_Crown M_Convert M_Network.
Import ListNotations.
Local Open Scope R_scope.

(** [sa]: with the attribute perturbation_domain; [ss]: inputs_outputs_spec *)

(** DecomonConv2D.call: decomon_layers.py:139-255. The attribute is read at line 218 only, for a value which is not used *)
Definition conv2d_domains (sa ss : spec) (g : conv_geo) (kernel : kernel4) (bias : option vec) (ts : list tensor) : result (list tensor) :=
  r <- get_fullinputs_r false ss false true ts ;
  o <- conv_full sa g kernel bias false r ;
  Ok (extract (sp_mode sa) (sp_dc sa) o).

(** DecomonMaxPooling2D: maxpooling.py:158-185 reads inputs_outputs_spec only (line 162); 187-231 reads it at line 191 and
    the attribute in the call of max_ at lines 229-231; call 233-240 *)
Definition pool_not_fast_domains (ke : R) (sa ss : spec) (g : conv_geo) (fl : pool_filters) (ts : list tensor) : result (list tensor) :=
  r <- get_fullinputs ss false true ts ;
  let c := pool_conv g fl in
  op_max ke sa [im_h (cg_out g); im_w (cg_out g); im_c (cg_out g); pool_p g] (-1) None
    (extract (sp_mode sa) (sp_dc sa) (move_full ss c c r)).
Definition max_pooling_domains (ke : R) (sa ss : spec) (fast : bool) (g : conv_geo) (ts : list tensor) : result (list tensor) :=
  fl <- pool_init (wn_k (cg_y g)) (wn_k (cg_x g)) ;
  if fast then pool_fast ss g ts else pool_not_fast_domains ke sa ss g fl ts.

(** DecomonDot: decomon_merge_layers.py:574-638. The attribute at lines 596-604 (broadcast, multiply), then
    inputs_outputs_spec at line 606 *)
Definition dot_domains (sa ss : spec) (s0 s1 : list nat) (axis0 axis1 : Z) (ts : list tensor) : result (list tensor) :=
  if sp_dc sa then Err NotImplementedError else
  match split_to_merge (nb_tensors (sp_mode sa) (sp_dc sa)) ts with
  | [_] => Ok ts
  | [in0; in1] =>
      let spb := mk_spec (sp_dc sa) (sp_mode sa) Box (sp_n sa) in
      p0 <- permute_dimensions spb s0 axis0 in0 ;
      p1 <- permute_dimensions spb s1 axis1 in1 ;
      t0 <- permuted_shape s0 axis0 ;
      t1 <- permuted_shape s1 axis1 ;
      tw0 <- permuted_shape_w (sp_n sa) s0 axis0 ;
      tw1 <- permuted_shape_w (sp_n sa) s1 axis1 ;
      if (get_affine (sp_mode sa) && negb (shape_eqb tw0 (sp_n sa :: t0) && shape_eqb tw1 (sp_n sa :: t1)))%bool
      then Err ValueError else
      let n0 := prodn (tl t0) in
      let n1 := prodn (tl t1) in
      let k := hd 1%nat t0 in
      if negb (Nat.eqb k (hd 1%nat t1)) then Err ValueError else
      b0 <- broadcast sa (dot_idx0 n0 n1) p0 ;
      b1 <- broadcast sa (dot_idx1 n0 n1) p1 ;
      o <- multiply sa b0 b1 ;
      r <- get_fullinputs ss false true o ;
      finish ss (move_full ss (red_axis rsum [k; (n0 * n1)%nat] 0) (red_axis rsum [k; (n0 * n1)%nat] 0) r)
  | _ => Err NotImplementedError
  end.

(** The call of the decomon layer of each Keras layer. inputs_outputs_spec: Dense (decomon_layers.py:421-541),
    BatchNormalization (815-893), Flatten (721-755), Reshape and Permute (decomon_reshape.py), Add, Average, Concatenate
    (decomon_merge_layers.py:118-157, 189-228, 440-479). Attribute: Activation (decomon_layers.py:594-623), Subtract
    (decomon_merge_layers.py:259-277), Minimum (308-340), Maximum (371-398), Multiply (510-537). Dropout: none *)
Definition layer_domains (ke : R) (sa ss : spec) (o : lopts) (L : nlayer) : list tensor -> result (list tensor) :=
  match L with
  | NConv2D g kernel bias => conv2d_domains sa ss g kernel bias
  | NMaxPool g => max_pooling_domains ke sa ss (lo_fast o) g
  | NDot pre0 post0 pre1 post1 k axis0 axis1 => dot_domains sa ss (pre0 ++ k :: post0) (pre1 ++ k :: post1) axis0 axis1
  | NActivation _ _ | NSubtract _ | NMultiply _ _ | NMaximum _ _ | NMinimum _ _ => decomon_layer ke sa o L
  | _ => decomon_layer ke ss o L
  end.
Definition net_domains (ke : R) (sa ss : spec) (opts : nat -> lopts) (net : network) : fgraph tensor :=
  map (fun q => mk_fnode (fst q) (match fst (snd q) with None => KInput | Some L => KOp (layer_domains ke sa ss (opts (fst q)) L) end) (snd (snd q)))
    (combine (seq 0 (length net)) net).

(** convert.py:104-167 then the call of the model: [Da]: its perturbation_domain, the attribute of every layer; [Ds]: the
    domain of the conversion. Forward methods *)
Definition forward_domains (ke : R) (Da Ds : domain) (mode final : fmode) (fwd : nat -> lopts) (n : nat) (net : network) (o : nat) (z : tensor) : result (list tensor) :=
  its <- get_input_tensors (Some Ds) mode n z ;
  r <- convert_forward (net_domains ke (mk_spec false mode Da n) (mk_spec false mode Ds n) fwd net) [o] (fun _ => None) its ;
  convert2mode Ds n mode final r.
(** Crown methods: Convert2BackwardMode (crown.py:66-84) and the backward activations (backward_layers.py:376-392) read the
    attribute. backward_cloning.py:402-463 with one output and no back_bounds. Simplification: the forward layers which do
    not reach the output are called too *)
Definition backward_domains (ke : R) (Da Ds : domain) (before : bool) (mode final : fmode) (fwd : nat -> lopts) (bwd : nat -> bopts) (n : nat) (net : network) (o : nat)
    (z : tensor) : result (list tensor) :=
  let sa := mk_spec false mode Da n in
  let ss := mk_spec false mode Ds n in
  let g := backward_net ke sa bwd n net in
  let h := net_domains ke sa ss fwd net in
  its <- get_input_tensors (Some Ds) mode n z ;
  fm <- (if before then om <- convert_nodes h (fun _ => None) its ; _ <- output_nodes h [o] ; Ok om else Ok (fun _ => None)) ;
  l <- output_nodes (bshape (seq 0 (length net)) g) [o] ;
  r <- crown_model mode Da n g l None fm its ;
  c <- convert2mode Ds n mode final (concat r) ;
  if (negb (mode_eqb final mode) && mode_eqb mode IBP)%bool then
    match its, c with
    | u :: l :: _, _ :: q => Ok ((fun k => if Nat.eqb k 0 then l 0%nat else u 0%nat) :: q)
    | _, _ => Err IndexError
    end
  else Ok c.
Definition converted_domains (ke : R) (Da Ds : domain) (m : method) (mode final : fmode) (fwd : nat -> lopts) (bwd : nat -> bopts) (n : nat) (net : network) (o : nat)
    (z : tensor) : result (list tensor) :=
  match get_direction m with
  | FORWARD => forward_domains ke Da Ds mode final fwd n net o z
  | BACKWARD => backward_domains ke Da Ds (match m with CROWN => false | _ => true end) mode final fwd bwd n net o z
  end.
