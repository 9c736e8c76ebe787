(** Theorems C28-C34: backward layers and the backward pass (CROWN).
    [valid D mode dc S n m f ts]: the tensors ts bound the m outputs of f on the set S;
    [relaxes Y n m f B]: the affine functions B enclose f on Y; [is_map]: both are f. *)
From Coq Require Import Reals List Arith Bool ZArith Sorting.Permutation.
From Verif Require Import RLib Spec Spec_Layers Spec_Backward M_Core M_Utils M_MergeLayers M_Ops M_Layers M_Pool M_Backward M_Crown.
From Verif Require Import P_Core P_Utils P_MergeLayers P_UtilsThm P_Axis P_Ops P_SShape P_Layers P_Move P_Backward P_BackwardOps P_BackwardMore P_Crown P_BackwardThm.
Import ListNotations.
Local Open Scope R_scope.

(** C28. [full_w]: weights given as a diagonal or as a matrix *)
Theorem C28_merge : forall (S T : vec -> Prop) n h k f g wu bu wl bl vu cu vl cl,
  relaxes S n h f (mk_bb (full_w wu) bu (full_w wl) bl) ->
  relaxes T h k g (mk_bb (full_w vu) cu (full_w vl) cl) ->
  (forall z, S z -> T (f z)) ->
  relaxes S n k (fun z => g (f z)) (merge_with_previous h wu bu wl bl vu cu vl cl).
Proof. exact merge_sound. Qed.
Print Assumptions C28_merge.

(** two exact affine maps compose exactly *)
Theorem C28_merge_exact : forall n h k f g B D, is_map n h f B -> is_map h k g D ->
  is_map n k (fun z => g (f z)) (merge_bb h B D).
Proof. exact merge_exact. Qed.
Print Assumptions C28_merge_exact.

(** [same_bb n m]: the same entries *)
Theorem C28_identity_left : forall n m B, same_bb n m (merge_bb n identity_lirpa B) B.
Proof. exact merge_id_l. Qed.
Print Assumptions C28_identity_left.

Theorem C28_identity_right : forall n m B, same_bb n m (merge_bb m B identity_lirpa) B.
Proof. exact merge_id_r. Qed.
Print Assumptions C28_identity_right.

(** composition with the bounds of the input node *)
Theorem C28_fuse : forall D mode (S T : vec -> Prop) n h k g f ts B, mode <> IBP ->
  valid D mode false S n h g ts -> relaxes T h k f B -> (forall z, S z -> T (g z)) ->
  exists out, fuse mode h ts B = Ok out /\ relaxes S n k (fun z => f (g z)) out.
Proof. exact fuse_sound. Qed.
Print Assumptions C28_fuse.

(** then conversion to the mode of the model *)
Theorem C28_convert : forall D mode (S : vec -> Prop) n m g f ts B, (0 < n)%nat -> norm_ok D ->
  (mode = IBP -> D = Box /\ forall z i, S z -> (i < n)%nat -> g z i = z i) ->
  valid D mode false S n n g ts -> relaxes S n m f B ->
  exists out, convert2backward mode D n ts B = Ok out /\ valid D mode false S n m f out.
Proof. exact convert_sound. Qed.
Print Assumptions C28_convert.

Theorem C28_shapes : forall n h k,
  let ss := [[n; h]; [h]; [n; h]; [h]; [h; k]; [k]; [h; k]; [k]] in
  merge_output_shape ss = Ok [[n; k]; [k]; [n; k]; [k]] /\ merge_shape ss = Ok [[n; k]; [k]; [n; k]; [k]].
Proof. exact merge_shapes_agree. Qed.
Print Assumptions C28_shapes.

(** diagonal weights: the call succeeds but the shape computation raises *)
Theorem C28_shapes_diagonal_refuted : forall n k,
  (let ss := [[n]; [n]; [n]; [n]; [n; k]; [k]; [n; k]; [k]] in
   merge_shape ss = Ok [[n; k]; [k]; [n; k]; [k]] /\ merge_output_shape ss = Err ValueError) /\
  (let ss := [[k; n]; [n]; [k; n]; [n]; [n]; [n]; [n]; [n]] in
   merge_shape ss = Ok [[k; n]; [n]; [k; n]; [n]] /\ merge_output_shape ss = Err ValueError).
Proof. exact merge_shapes_diag. Qed.
Print Assumptions C28_shapes_diagonal_refuted.

Example C28_example : exists B D : bb,
  relaxes (fun y => -1 <= y 0%nat <= 1) 1 1 (fun y j => Rrelu (y j)) B /\
  relaxes (fun y => 0 <= y 0%nat <= 1) 1 1 (fun y j => - y j) D /\
  (forall z, -1 <= z 0%nat <= 1 -> 0 <= Rrelu (z 0%nat) <= 1) /\
  ~ is_map 1 1 (fun y j => Rrelu (y j)) B.
Proof. exact ex_merge. Qed.

(** C29. [boxes P sp m ts]: the interval of each neuron satisfies P. Missing: crossing intervals shorter than epsilon *)
Theorem C29_relu_partial : forall ke sp sl ft S m f ts,
  0 < ke -> (0 < sp_n sp)%nat -> dom_ok (sp_dom sp) (sp_mode sp) -> sp_dc sp = false ->
  ft_ok m (option_map snd ft) -> valid (sp_dom sp) (sp_mode sp) (sp_dc sp) S (sp_n sp) m f ts -> boxes (gap_free ke) sp m ts ->
  exists B, backward_activation ke sp ActRelu sl ft m ts = Ok B /\ relaxes (image S f) m m (fun y j => Rrelu (y j)) B.
Proof. exact brelu_sound. Qed.
Print Assumptions C29_relu_partial.

(** without condition the error is at most epsilon *)
Theorem C29_relu_slack : forall ke sp sl ft S m f ts,
  0 < ke -> (0 < sp_n sp)%nat -> dom_ok (sp_dom sp) (sp_mode sp) -> sp_dc sp = false ->
  ft_ok m (option_map snd ft) -> valid (sp_dom sp) (sp_mode sp) (sp_dc sp) S (sp_n sp) m f ts ->
  exists B, backward_activation ke sp ActRelu sl ft m ts = Ok B /\
    forall z j, S z -> (j < m)%nat ->
      aff m (bb_wl B) (bb_bl B) (f z) j <= Rrelu (f z j) <= aff m (bb_wu B) (bb_bu B) (f z) j + ke.
Proof. exact brelu_slack. Qed.
Print Assumptions C29_relu_slack.

Theorem C29_relu_short_refuted : forall ke sl, 0 < ke ->
  exists B z, backward_activation ke (mk_spec false IBP Box 1) ActRelu sl None 1 (ts_ibp (- (ke / 4)) (ke / 4)) = Ok B /\
    - (ke / 4) <= z <= ke / 4 /\ aff 1 (bb_wu B) (bb_bu B) (fun _ => z) 0%nat < Rrelu z.
Proof. exact brelu_wrong. Qed.
Print Assumptions C29_relu_short_refuted.

Example C29_relu_example : valid Box IBP false (fun z => -1 <= z 0%nat <= 1) 1 1 (fun z => z) (ts_ibp (-1) 1) /\
  boxes (gap_free (1/10)) (mk_spec false IBP Box 1) 1 (ts_ibp (-1) 1).
Proof. exact ex_brelu. Qed.

(** [both_sides]: the interval lies on one side of 0 (with a margin). Missing: the other intervals *)
Theorem C29_s_shaped_partial : forall ke sp sl ft S m f ts,
  0 < ke -> (0 < sp_n sp)%nat -> dom_ok (sp_dom sp) (sp_mode sp) -> sp_dc sp = false -> valid (sp_dom sp) (sp_mode sp) (sp_dc sp) S (sp_n sp) m f ts ->
  (boxes (both_sides sigmoid sigmoid_prime ke) sp m ts ->
     exists B, backward_activation ke sp ActSigmoid sl ft m ts = Ok B /\ relaxes (image S f) m m (fun y j => sigmoid (y j)) B) /\
  (boxes (both_sides tanh tanh_prime ke) sp m ts ->
     exists B, backward_activation ke sp ActTanh sl ft m ts = Ok B /\ relaxes (image S f) m m (fun y j => tanh (y j)) B) /\
  (boxes (both_sides softsign softsign_prime ke) sp m ts ->
     exists B, backward_activation ke sp ActSoftsign sl ft m ts = Ok B /\ relaxes (image S f) m m (fun y j => softsign (y j)) B).
Proof. exact bact_s. Qed.
Print Assumptions C29_s_shaped_partial.

(** every interval that crosses 0 by epsilon on both sides gets a wrong bound *)
Theorem C29_s_shaped_crossing_refuted : forall ke sl ft lo hi, 0 < ke -> ke <= - lo -> ke <= hi ->
  let wrong (F : R -> R) (B : bb) (z : R) :=
    aff 1 (bb_wu B) (bb_bu B) (fun _ => z) 0%nat < F z \/ F z < aff 1 (bb_wl B) (bb_bl B) (fun _ => z) 0%nat in
  let sp := mk_spec false IBP Box 1 in
  (exists B z, backward_activation ke sp ActSigmoid sl ft 1 (ts_ibp lo hi) = Ok B /\ lo <= z <= hi /\ wrong sigmoid B z) /\
  (exists B z, backward_activation ke sp ActTanh sl ft 1 (ts_ibp lo hi) = Ok B /\ lo <= z <= hi /\ wrong tanh B z) /\
  (exists B z, backward_activation ke sp ActSoftsign sl ft 1 (ts_ibp lo hi) = Ok B /\ lo <= z <= hi /\ wrong softsign B z).
Proof. exact bact_s_wrong. Qed.
Print Assumptions C29_s_shaped_crossing_refuted.

Theorem C29_softplus_refuted : forall ke sl, 0 < ke -> sl <> A_SLOPE ->
  exists B, backward_activation ke (mk_spec false IBP Box 1) ActSoftplus sl None 1 (ts_ibp (-1) 0) = Ok B /\
    aff 1 (bb_wu B) (bb_bu B) (fun _ => 0) 0%nat < ln (1 + exp 0).
Proof. exact bsoftplus_wrong. Qed.
Print Assumptions C29_softplus_refuted.

Theorem C29_softplus_a_slope : forall ke sp ft S m f ts, (0 < sp_n sp)%nat -> dom_ok (sp_dom sp) (sp_mode sp) -> sp_dc sp = false -> (0 < m)%nat ->
  valid (sp_dom sp) (sp_mode sp) (sp_dc sp) S (sp_n sp) m f ts -> backward_activation ke sp ActSoftplus A_SLOPE ft m ts = Err ValueError.
Proof. exact bsoftplus_A. Qed.
Print Assumptions C29_softplus_a_slope.

Theorem C29_linear : forall ke sp sl ft m ts, backward_activation ke sp ActLinear sl ft m ts = Ok identity_lirpa.
Proof. exact blinear. Qed.
Print Assumptions C29_linear.

Theorem C29_shape : forall a s, a = ActRelu \/ a = ActSoftsign \/ a = ActLinear -> act_w_shape a s = [prodn s; prodn s].
Proof. exact act_shape_ok. Qed.
Print Assumptions C29_shape.

Theorem C29_shape_flat : forall a n, act_w_shape a [n] = [n; n].
Proof. exact act_shape_flat. Qed.
Print Assumptions C29_shape_flat.

(** sigmoid, tanh and softplus on a block with several axes: not a square matrix of the block size *)
Theorem C29_shape_refuted : forall a s, a = ActSigmoid \/ a = ActTanh \/ a = ActSoftplus -> length s <> 1%nat ->
  (1 < prodn s)%nat -> act_w_shape a s <> [prodn s; prodn s].
Proof. exact act_shape_wrong. Qed.
Print Assumptions C29_shape_refuted.

Theorem C29_unsupported : forall ke sp a sl ft m ts, In a [ActSoftmax; ActElu; ActSelu; ActExponential] ->
  backward_activation ke sp a sl ft m ts = Err NotImplementedError.
Proof. exact bact_unsupported. Qed.
Print Assumptions C29_unsupported.

Theorem C29_dc : forall ke sp a sl ft m ts, sp_dc sp = true -> a <> ActLinear -> a <> ActSoftsign ->
  backward_activation ke sp a sl ft m ts = Err NotImplementedError.
Proof. exact bact_dc. Qed.
Print Assumptions C29_dc.

Theorem C29_relu_arguments : forall ke sp alpha mv th sl grid ft ts, alpha <> 0 \/ mv <> None \/ th <> 0 \/ sp_dc sp = true ->
  backward_relu ke sp alpha mv th sl grid ft ts = Err NotImplementedError.
Proof. exact brelu_args. Qed.
Print Assumptions C29_relu_arguments.

(** C30. A block of [rows] rows of d entries *)
Theorem C30_dense : forall rows d units kernel bias, (0 < units)%nat ->
  is_map (rows * d) (rows * units) (keras_dense d units kernel (bias_of bias)) (backward_dense d units kernel bias).
Proof. exact dense_map. Qed.
Print Assumptions C30_dense.

(** channels_last and a square kernel *)
Theorem C30_conv2d_square : forall g kernel bias, cg_last g = true -> wn_k (cg_y g) = wn_k (cg_x g) ->
  exists B, backward_conv2d g kernel bias = Ok B /\
    is_map (im_size (cg_in g)) (im_size (cg_out g)) (keras_conv2d g kernel (bias_of bias)) B.
Proof. exact conv_last_map. Qed.
Print Assumptions C30_conv2d_square.

Theorem C30_conv2d_not_square : forall g kernel bias, (0 < wn_k (cg_y g))%nat -> wn_k (cg_y g) <> wn_k (cg_x g) ->
  backward_conv2d g kernel bias = Err ValueError.
Proof. exact conv_not_square. Qed.
Print Assumptions C30_conv2d_not_square.

(** channels_first. Missing: several channels, strides, dilation *)
Theorem C30_conv2d_channels_first_partial : forall g kernel bias, cg_last g = false -> wn_k (cg_y g) = wn_k (cg_x g) ->
  cg_cin g = 1%nat -> cg_cout g = 1%nat ->
  wn_s (cg_y g) = 1%nat -> wn_s (cg_x g) = 1%nat -> wn_d (cg_y g) = 1%nat -> wn_d (cg_x g) = 1%nat ->
  exists B, backward_conv2d g kernel bias = Ok B /\
    is_map (im_size (cg_in g)) (im_size (cg_out g)) (keras_conv2d g kernel (bias_of bias)) B.
Proof. exact conv_first_map. Qed.
Print Assumptions C30_conv2d_channels_first_partial.

Theorem C30_conv2d_channels_first_refuted : exists B, backward_conv2d cf_geo cf_kernel None = Ok B /\
  aff 4 (bb_wu B) (bb_bu B) (e_vec 2) 0%nat < keras_conv2d cf_geo cf_kernel (fun _ => 0) (e_vec 2) 0%nat.
Proof. exact conv_first_wrong. Qed.
Print Assumptions C30_conv2d_channels_first_refuted.

Theorem C30_conv2d_channels_first_error : forall g kernel bias, cg_last g = false ->
  (wn_out (win1 (cg_y g)) * wn_out (win1 (cg_x g)) <> wn_out (cg_y g) * wn_out (cg_x g))%nat ->
  backward_conv2d g kernel bias = Err ValueError.
Proof. exact conv_first_stride. Qed.
Print Assumptions C30_conv2d_channels_first_error.

Theorem C30_batch_normalization : forall pre k post gamma beta mean var eps g,
  (forall c, (c < k)%nat -> 0 < var c + eps) ->
  (forall y p c q, in_shape pre p -> in_shape post q -> (c < k)%nat ->
     g y (ravel (pre ++ k :: post) (p ++ c :: q)) =
     keras_bn (match gamma with Some v => v | None => fun _ => 1 end) (match beta with Some v => v | None => fun _ => 0 end)
       mean var eps c (y (ravel (pre ++ k :: post) (p ++ c :: q)))) ->
  is_map (prodn (pre ++ k :: post)) (prodn (pre ++ k :: post)) g (backward_bn (pre ++ k :: post) (length pre) gamma beta mean var eps).
Proof. exact bn_map. Qed.
Print Assumptions C30_batch_normalization.

(** Flatten (channels_last), Reshape, Dropout, InputLayer: the identity on the row-major order *)
Theorem C30_identity : forall n, is_map n n (fun y => y) identity_lirpa.
Proof. exact identity_map. Qed.
Print Assumptions C30_identity.

Theorem C30_flatten_channels_first_refuted : forall f, is_flatten_cf 2 3 f ->
  aff 6 (bb_wu backward_identity) (bb_bu backward_identity) (e_vec 3) 1%nat < f (e_vec 3) 1%nat.
Proof. exact flatten_cf_wrong. Qed.
Print Assumptions C30_flatten_channels_first_refuted.

Example C30_example : let g := mk_geo true (mk_win 3 2 1 1 true) (mk_win 4 2 1 1 true) 2 3 in
  cg_last g = true /\ wn_k (cg_y g) = wn_k (cg_x g) /\ im_size (cg_in g) = 24%nat /\ im_size (cg_out g) = 36%nat.
Proof. exact ex_conv_square. Qed.

(** C31. what the returned matrix computes, for every shape and permutation *)
Theorem C31_permute_reads : forall s dims y p, Permutation dims (seq 1 (length s)) -> in_shape s p ->
  let inv := inverse_perm (map pred dims) in
  aff (prodn s) (bb_wu (backward_permute s dims)) zero_vec y (ravel s p) = y (ravel (permuted inv s) (permuted inv p)).
Proof. exact permute_reads. Qed.
Print Assumptions C31_permute_reads.

(** Missing: shapes that the permutation changes (refuted below) *)
Theorem C31_permute_partial : forall s dims f, Permutation dims (seq 1 (length s)) -> permuted (map pred dims) s = s ->
  is_permute s (map pred dims) f -> is_map (prodn s) (prodn s) f (backward_permute s dims).
Proof. exact permute_map. Qed.
Print Assumptions C31_permute_partial.

Theorem C31_permute_refuted : forall f, is_permute [2%nat; 3%nat] [1%nat; 0%nat] f ->
  aff 6 (bb_wu (backward_permute [2%nat; 3%nat] [2%nat; 1%nat])) (bb_bu (backward_permute [2%nat; 3%nat] [2%nat; 1%nat])) (e_vec 1) 2%nat < f (e_vec 1) 2%nat.
Proof. exact permute_wrong. Qed.
Print Assumptions C31_permute_refuted.

Example C31_example : Permutation [2; 1]%nat (seq 1 2) /\ permuted [1; 0]%nat [3; 3]%nat = [3; 3]%nat.
Proof. exact ex_permute. Qed.

(** C32. [operand_ok S m k fi merged out B]: B, affine in fi alone, encloses the bounds [out] of the merged value *)
Theorem C32_add : forall sp S m k f0 f1 in0 in1 out,
  (0 < sp_n sp)%nat -> dom_ok (sp_dom sp) (sp_mode sp) ->
  valid (sp_dom sp) (sp_mode sp) (sp_dc sp) S (sp_n sp) m f0 in0 -> valid (sp_dom sp) (sp_mode sp) (sp_dc sp) S (sp_n sp) m f1 in1 ->
  exists B0 B1, backward_add sp m in0 in1 out = Ok (B0, B1) /\
    operand_ok S m k f0 (fun z j => f0 z j + f1 z j) out B0 /\ operand_ok S m k f1 (fun z j => f0 z j + f1 z j) out B1 /\
    (bb_wu B0 = bb_wu out /\ bb_wl B0 = bb_wl out /\ bb_wu B1 = bb_wu out /\ bb_wl B1 = bb_wl out).
Proof. exact badd_sound. Qed.
Print Assumptions C32_add.

Theorem C32_subtract : forall sp S m k f0 f1 in0 in1 out,
  (0 < sp_n sp)%nat -> dom_ok (sp_dom sp) (sp_mode sp) ->
  valid (sp_dom sp) (sp_mode sp) (sp_dc sp) S (sp_n sp) m f0 in0 -> valid (sp_dom sp) (sp_mode sp) (sp_dc sp) S (sp_n sp) m f1 in1 ->
  exists B0 B1, backward_subtract sp m in0 in1 out = Ok (B0, B1) /\
    operand_ok S m k f0 (fun z j => f0 z j - f1 z j) out B0 /\ operand_ok S m k f1 (fun z j => f0 z j - f1 z j) out B1.
Proof. exact bsub_sound. Qed.
Print Assumptions C32_subtract.

(** [bmax_gaps]: the differences of the operands have no short crossing interval (C07) *)
Theorem C32_maximum_partial : forall ke sp S m k f0 f1 in0 in1 out,
  0 < ke -> (0 < sp_n sp)%nat -> dom_ok (sp_dom sp) (sp_mode sp) ->
  valid (sp_dom sp) (sp_mode sp) (sp_dc sp) S (sp_n sp) m f0 in0 -> valid (sp_dom sp) (sp_mode sp) (sp_dc sp) S (sp_n sp) m f1 in1 -> bmax_gaps ke sp m in0 in1 ->
  exists B0 B1, backward_maximum ke sp m in0 in1 out = Ok (B0, B1) /\
    operand_ok S m k f0 (fun z j => Rmax (f0 z j) (f1 z j)) out B0 /\ operand_ok S m k f1 (fun z j => Rmax (f0 z j) (f1 z j)) out B1.
Proof. exact bmax_sound. Qed.
Print Assumptions C32_maximum_partial.

(** the coefficients computed for one neuron *)
Theorem C32_multiply_coefficients : forall u0 l0 u1 l1 y0 y1, l0 <= y0 <= u0 -> l1 <= y1 <= u1 ->
  let c := mult_coeffs u0 l0 u1 l1 in
  fst (snd c) * y0 + snd (snd c) <= y0 * y1 <= fst (fst c) * y0 + snd (fst c).
Proof. exact mult_sound. Qed.
Print Assumptions C32_multiply_coefficients.

(** the weights never have the rank of weights *)
Theorem C32_multiply_refuted : forall batch n k s, mult_w_shape batch n k = Ok s -> length s = 4%nat.
Proof. exact mult_shape_bad. Qed.
Print Assumptions C32_multiply_refuted.

Theorem C32_add_layer : forall sp S m f0 f1 in0 in1,
  (0 < sp_n sp)%nat -> dom_ok (sp_dom sp) (sp_mode sp) -> valid (sp_dom sp) (sp_mode sp) (sp_dc sp) S (sp_n sp) m f0 in0 -> valid (sp_dom sp) (sp_mode sp) (sp_dc sp) S (sp_n sp) m f1 in1 ->
  exists B0 B1, backward_add_layer sp m (in0 ++ in1) = Ok [B0; B1] /\
    forall z j, S z -> (j < m)%nat ->
      aff m (bb_wl B0) (bb_bl B0) (f0 z) j <= f0 z j + f1 z j <= aff m (bb_wu B0) (bb_bu B0) (f0 z) j /\
      aff m (bb_wl B1) (bb_bl B1) (f1 z) j <= f0 z j + f1 z j <= aff m (bb_wu B1) (bb_bu B1) (f1 z) j.
Proof. exact badd_layer_sound. Qed.
Print Assumptions C32_add_layer.

Theorem C32_add_layer_arity : forall sp m ts, (forall a, split_in sp ts <> [a]) -> (forall a b, split_in sp ts <> [a; b]) ->
  backward_add_layer sp m ts = Err NotImplementedError.
Proof. exact add_arity. Qed.
Print Assumptions C32_add_layer_arity.

Theorem C32_subtract_layer : forall sp S m f0 f1 in0 in1,
  (0 < sp_n sp)%nat -> dom_ok (sp_dom sp) (sp_mode sp) -> valid (sp_dom sp) (sp_mode sp) (sp_dc sp) S (sp_n sp) m f0 in0 -> valid (sp_dom sp) (sp_mode sp) (sp_dc sp) S (sp_n sp) m f1 in1 ->
  exists B0 B1, backward_subtract_layer sp m (in0 ++ in1) = Ok [B0; B1] /\
    forall z j, S z -> (j < m)%nat ->
      aff m (bb_wl B0) (bb_bl B0) (f0 z) j <= f0 z j - f1 z j <= aff m (bb_wu B0) (bb_bu B0) (f0 z) j /\
      aff m (bb_wl B1) (bb_bl B1) (f1 z) j <= f0 z j - f1 z j <= aff m (bb_wu B1) (bb_bu B1) (f1 z) j.
Proof. exact bsub_layer_sound. Qed.
Print Assumptions C32_subtract_layer.

Theorem C32_maximum_layer_partial : forall ke sp S m f0 f1 in0 in1, 0 < ke ->
  (0 < sp_n sp)%nat -> dom_ok (sp_dom sp) (sp_mode sp) -> valid (sp_dom sp) (sp_mode sp) (sp_dc sp) S (sp_n sp) m f0 in0 -> valid (sp_dom sp) (sp_mode sp) (sp_dc sp) S (sp_n sp) m f1 in1 ->
  bmax_gaps ke sp m in0 in1 ->
  exists B0 B1, backward_maximum_layer ke sp m (in0 ++ in1) = Ok [B0; B1] /\
    forall z j, S z -> (j < m)%nat ->
      aff m (bb_wl B0) (bb_bl B0) (f0 z) j <= Rmax (f0 z j) (f1 z j) <= aff m (bb_wu B0) (bb_bu B0) (f0 z) j /\
      aff m (bb_wl B1) (bb_bl B1) (f1 z) j <= Rmax (f0 z j) (f1 z j) <= aff m (bb_wu B1) (bb_bu B1) (f1 z) j.
Proof. exact bmax_layer_sound. Qed.
Print Assumptions C32_maximum_layer_partial.

(** the minimum layer bounds the maximum *)
Theorem C32_minimum_layer_max_refuted : forall ke sp S m f0 f1 in0 in1, 0 < ke ->
  (0 < sp_n sp)%nat -> dom_ok (sp_dom sp) (sp_mode sp) -> valid (sp_dom sp) (sp_mode sp) (sp_dc sp) S (sp_n sp) m f0 in0 -> valid (sp_dom sp) (sp_mode sp) (sp_dc sp) S (sp_n sp) m f1 in1 ->
  bmax_gaps ke sp m in0 in1 ->
  exists B0 B1, backward_minimum_layer ke sp m (in0 ++ in1) = Ok [B0; B1] /\
    forall z j, S z -> (j < m)%nat ->
      aff m (bb_wl B0) (bb_bl B0) (f0 z) j <= Rmax (f0 z j) (f1 z j) <= aff m (bb_wu B0) (bb_bu B0) (f0 z) j /\
      aff m (bb_wl B1) (bb_bl B1) (f1 z) j <= Rmax (f0 z j) (f1 z j) <= aff m (bb_wu B1) (bb_bu B1) (f1 z) j.
Proof. exact bmin_layer_max. Qed.
Print Assumptions C32_minimum_layer_max_refuted.

Theorem C32_binary_arity : forall op sp ts, (forall a b, split_in sp ts <> [a; b]) -> backward_merge2 op sp ts = Err NotImplementedError.
Proof. exact merge2_arity. Qed.
Print Assumptions C32_binary_arity.

(** any number of inputs: the bounds attached to the first two *)
Theorem C32_average_layer_partial : forall sp S m fs ls, (0 < sp_n sp)%nat -> dom_ok (sp_dom sp) (sp_mode sp) -> sp_dc sp = false ->
  Forall2 (valid (sp_dom sp) (sp_mode sp) (sp_dc sp) S (sp_n sp) m) fs ls -> (1 < length ls)%nat ->
  exists B0 B1 q, backward_average_layer sp m (concat ls) = Ok (B0 :: B1 :: q) /\ length (B0 :: B1 :: q) = length ls /\
    forall z j, S z -> (j < m)%nat ->
      aff m (bb_wl B0) (bb_bl B0) (nth 0 fs f_dflt z) j <= sum_list (vals fs z j) / INR (length fs) <= aff m (bb_wu B0) (bb_bu B0) (nth 0 fs f_dflt z) j /\
      aff m (bb_wl B1) (bb_bl B1) (nth 1 fs f_dflt z) j <= sum_list (vals fs z j) / INR (length fs) <= aff m (bb_wu B1) (bb_bu B1) (nth 1 fs f_dflt z) j.
Proof. exact baverage_two. Qed.
Print Assumptions C32_average_layer_partial.

(** the bounds attached to the third *)
Theorem C32_average_layer_refuted : exists B0 B1 B2,
  backward_average_layer (mk_spec false IBP Box 1) 1 (ts_ibp 1 1 ++ ts_ibp 1 1 ++ ts_ibp 1 1) = Ok [B0; B1; B2] /\
  aff 1 (bb_wu B2) (bb_bu B2) (fun _ => 1) 0%nat < (1 + 1 + 1) / 3.
Proof. exact baverage_wrong. Qed.
Print Assumptions C32_average_layer_refuted.

Theorem C32_concatenate_layer_refuted : forall ns s, (1 < length ns)%nat -> Forall (fun k => (0 < k)%nat) ns ->
  In s (backward_concat_shapes ns) -> forall n, s <> [n; fold_right Nat.add 0%nat ns].
Proof. exact bconcat_shape. Qed.
Print Assumptions C32_concatenate_layer_refuted.

(** C33. [follows Y mi m k op out B]: B encloses the bounds [out] of op. Missing: biases, different upper and lower weights *)
Theorem C33_minus_partial : forall m k out, (forall i j, bb_wu out i j = bb_wl out i j) -> (forall j, bb_bu out j = 0 /\ bb_bl out j = 0) ->
  follows (fun _ => True) m m k (fun y i => - y i) out (backward_minus out).
Proof. exact bminus_exact. Qed.
Print Assumptions C33_minus_partial.

Theorem C33_minus_refuted : exists out y, 
  aff 1 (bb_wu (backward_minus out)) (bb_bu (backward_minus out)) y 0%nat < aff 1 (bb_wl out) (bb_bl out) (fun i => - y i) 0%nat.
Proof. exact bminus_wrong. Qed.
Print Assumptions C33_minus_refuted.

Theorem C33_scale_nonnegative_partial : forall Y m k c out, 0 <= c -> follows Y m m k (fun y i => c * y i) out (backward_scale c out).
Proof. exact bscale_pos. Qed.
Print Assumptions C33_scale_nonnegative_partial.

Theorem C33_scale_negative_refuted : forall c, c < 0 -> exists out, 
  (forall y, aff 1 (bb_wl out) (bb_bl out) y 0%nat < aff 1 (bb_wu out) (bb_bu out) y 0%nat) /\
  ~ follows (fun _ => True) 1 1 1 (fun y i => c * y i) out (backward_scale c out).
Proof. exact bscale_neg_wrong. Qed.
Print Assumptions C33_scale_negative_refuted.

(** the two bounds are exchanged *)
Theorem C33_scale_negative_reads : forall m c out y j, c < 0 ->
  aff m (bb_wu (backward_scale c out)) (bb_bu (backward_scale c out)) y j = aff m (bb_wl out) (bb_bl out) (fun i => c * y i) j /\
  aff m (bb_wl (backward_scale c out)) (bb_bl (backward_scale c out)) y j = aff m (bb_wu out) (bb_bu out) (fun i => c * y i) j.
Proof. exact bscale_neg. Qed.
Print Assumptions C33_scale_negative_reads.

Theorem C33_minimum_is_maximum : forall ke sp S m k f0 f1 in0 in1 out,
  0 < ke -> (0 < sp_n sp)%nat -> dom_ok (sp_dom sp) (sp_mode sp) ->
  valid (sp_dom sp) (sp_mode sp) (sp_dc sp) S (sp_n sp) m f0 in0 -> valid (sp_dom sp) (sp_mode sp) (sp_dc sp) S (sp_n sp) m f1 in1 -> bmax_gaps ke sp m in0 in1 ->
  exists B0 B1, backward_minimum ke sp m in0 in1 out = Ok (B0, B1) /\
    operand_ok S m k f0 (fun z j => Rmax (f0 z j) (f1 z j)) out B0 /\ operand_ok S m k f1 (fun z j => Rmax (f0 z j) (f1 z j)) out B1.
Proof. exact bmin_is_max. Qed.
Print Assumptions C33_minimum_is_maximum.

Theorem C33_minimum_refuted : forall ke, exists B0 B1,
  backward_minimum ke (mk_spec false IBP Box 1) 1 (ts_ibp 0 0) (ts_ibp 1 1) identity_lirpa = Ok (B0, B1) /\
  Rmin 0 1 < aff 1 (bb_wl B0) (bb_bl B0) (fun _ => 0) 0%nat.
Proof. exact bmin_wrong. Qed.
Print Assumptions C33_minimum_refuted.

(** m times the bounds of the maximum are enclosed *)
Theorem C33_max_axis_reads : forall ke sp S m k f ts out,
  0 < ke -> (0 < sp_n sp)%nat -> sp_dc sp = false -> sp_dom sp = Box -> (1 < m)%nat ->
  valid (sp_dom sp) (sp_mode sp) (sp_dc sp) S (sp_n sp) m f ts ->
  (forall r, get_fullinputs sp false false ts = Ok r ->
     let sl i := extract (sp_mode sp) false (slice_full [m] 0 0 i r) in
     pairs_gaps ke sp (sl 0%nat) (map sl (seq 1 (m - 1)))) ->
  exists B, backward_max_ ke sp m ts out = Ok B /\
    forall z j, S z -> (j < k)%nat ->
      aff m (bb_wl B) (bb_bl B) (f z) j <= INR m * aff 1 (bb_wl out) (bb_bl out) (fun _ => rmax m (f z)) j /\
      INR m * aff 1 (bb_wu out) (bb_bu out) (fun _ => rmax m (f z)) j <= aff m (bb_wu B) (bb_bu B) (f z) j.
Proof. exact bmaxred_sum. Qed.
Print Assumptions C33_max_axis_reads.

Theorem C33_max_axis_refuted : forall ke, exists B,
  backward_max_ ke (mk_spec false IBP Box 1) 2 (ts_ibp (-1) (-1)) identity_lirpa = Ok B /\
  aff 2 (bb_wu B) (bb_bu B) (fun _ => -1) 0%nat = -2 /\ rmax 2 (fun _ => -1) = -1.
Proof. exact bmaxred_wrong. Qed.
Print Assumptions C33_max_axis_refuted.

Theorem C33_max_axis_single : forall ke sp S f ts out, (0 < sp_n sp)%nat -> dom_ok (sp_dom sp) (sp_mode sp) -> sp_dc sp = false ->
  valid (sp_dom sp) (sp_mode sp) (sp_dc sp) S (sp_n sp) 1 f ts -> backward_max_ ke sp 1 ts out = Err ValueError.
Proof. exact bmaxred_one. Qed.
Print Assumptions C33_max_axis_single.

(** the weights never have the right shape with two neurons or more *)
Theorem C33_sort_refuted : forall batch n k, (0 < batch)%nat -> (1 < n)%nat -> sort_w_shape batch n k <> Ok [batch; n; k].
Proof. exact sort_shape_bad. Qed.
Print Assumptions C33_sort_refuted.

Theorem C33_sort_shape : forall batch n k s, (0 < batch)%nat -> (1 < n)%nat -> sort_w_shape batch n k = Ok s ->
  batch = n /\ s = [1%nat; n; k].
Proof. exact sort_shape. Qed.
Print Assumptions C33_sort_shape.

(** C34. [bwd_sound sp P L f]: the backward layer of L relaxes f for inputs satisfying P. Missing: nested models that are not last (refuted below) *)
Theorem C34_crown_partial : forall sp (S : vec -> Prop) g0 its fmap g ops v (P : nat -> list tensor -> Prop) outs,
  (0 < sp_n sp)%nat -> norm_ok (sp_dom sp) -> sp_dc sp = false ->
  (sp_mode sp = IBP -> sp_dom sp = Box /\ forall z i, S z -> (i < sp_n sp)%nat -> g0 z i = z i) ->
  valid (sp_dom sp) (sp_mode sp) (sp_dc sp) S (sp_n sp) (sp_n sp) g0 its ->
  well_formed (sp_n sp) g -> no_merge g -> models_last g ->
  map snd ops = map snd g -> network_value ops v ->
  (forall i L ps f, nth_error g i = Some (L, ps) -> nth_error ops i = Some (f, ps) -> bwd_sound sp (P i) L (fun y => f [y])) ->
  (forall i L ps ts, nth_error g i = Some (L, ps) -> fmap i = Some ts -> valid (sp_dom sp) (sp_mode sp) (sp_dc sp) S (sp_n sp) (ly_out L) (fun z => v i (g0 z)) ts) ->
  (forall i L ps imap ts, nth_error g i = Some (L, ps) ->
     get_input_nodes (sp_mode sp) (sp_dom sp) (sp_n sp) its fmap g (firstn i g) [] = Ok imap ->
     node_inputs (sp_mode sp) (sp_dom sp) (sp_n sp) its fmap g imap ps = Ok ts -> P i ts) ->
  (forall o, In o outs -> (o < length g)%nat) ->
  exists res, crown_model (sp_mode sp) (sp_dom sp) (sp_n sp) g outs None fmap its = Ok res /\
    Forall2 (fun o ts => exists L ps, nth_error g o = Some (L, ps) /\ valid (sp_dom sp) (sp_mode sp) (sp_dc sp) S (sp_n sp) (ly_out L) (fun z => v o (g0 z)) ts) outs res.
Proof. exact crown_sound. Qed.
Print Assumptions C34_crown_partial.

(** with bounds on what follows the output *)
Theorem C34_crown_back_bounds : forall sp (S : vec -> Prop) g0 its fmap g ops v (P : nat -> list tensor -> Prop) o L0 ps0 C k F,
  (0 < sp_n sp)%nat -> norm_ok (sp_dom sp) -> sp_dc sp = false ->
  (sp_mode sp = IBP -> sp_dom sp = Box /\ forall z i, S z -> (i < sp_n sp)%nat -> g0 z i = z i) ->
  valid (sp_dom sp) (sp_mode sp) (sp_dc sp) S (sp_n sp) (sp_n sp) g0 its ->
  well_formed (sp_n sp) g -> no_merge g -> models_last g ->
  map snd ops = map snd g -> network_value ops v ->
  (forall i L ps f, nth_error g i = Some (L, ps) -> nth_error ops i = Some (f, ps) -> bwd_sound sp (P i) L (fun y => f [y])) ->
  (forall i L ps ts, nth_error g i = Some (L, ps) -> fmap i = Some ts -> valid (sp_dom sp) (sp_mode sp) (sp_dc sp) S (sp_n sp) (ly_out L) (fun z => v i (g0 z)) ts) ->
  (forall i L ps imap ts, nth_error g i = Some (L, ps) ->
     get_input_nodes (sp_mode sp) (sp_dom sp) (sp_n sp) its fmap g (firstn i g) [] = Ok imap ->
     node_inputs (sp_mode sp) (sp_dom sp) (sp_n sp) its fmap g imap ps = Ok ts -> P i ts) ->
  nth_error g o = Some (L0, ps0) -> ly_model L0 = false ->
  relaxes (image S (fun z => v o (g0 z))) (ly_out L0) k F C ->
  exists t, crown_model (sp_mode sp) (sp_dom sp) (sp_n sp) g [o] (Some C) fmap its = Ok [t] /\ valid (sp_dom sp) (sp_mode sp) (sp_dc sp) S (sp_n sp) k (fun z => F (v o (g0 z))) t.
Proof. exact crown_back_sound. Qed.
Print Assumptions C34_crown_back_bounds.

Theorem C34_back_matrix : forall m k C, is_map m k (fun y j => dot m (fun i => C i j) y) (back_of_matrix C).
Proof. exact back_matrix. Qed.
Print Assumptions C34_back_matrix.

(** a merge on the way to the input always raises *)
Theorem C34_merge_raises : forall mode D n g outs back fmap its res o j L ps,
  crown_model mode D n g outs back fmap its = Ok res -> In o outs -> reaches g o j -> nth_error g j = Some (L, ps) -> (length ps <= 1)%nat.
Proof. exact crown_merge_raises. Qed.
Print Assumptions C34_merge_raises.

(** a nested model is itself a sound layer *)
Theorem C34_nested_model : forall sp m k sub ops out v P L0 ps0, (0 < sp_n sp)%nat -> dom_ok (sp_dom sp) (sp_mode sp) -> (0 < m)%nat ->
  well_formed m sub -> no_merge sub -> models_last sub ->
  map snd ops = map snd sub -> network_value ops v ->
  (forall i L ps f, nth_error sub i = Some (L, ps) -> nth_error ops i = Some (f, ps) ->
     bwd_sound (mk_spec false (sp_mode sp) Box m) (P i) L (fun y => f [y])) ->
  nth_error sub out = Some (L0, ps0) -> ly_out L0 = k ->
  bwd_sound sp (sub_cond sp m sub P) (nested sp m k sub out) (v out).
Proof. exact crown_nested. Qed.
Print Assumptions C34_nested_model.

(** but what follows it is dropped *)
Theorem C34_nested_model_inner_refuted : exists (L : layer) u l,
  bwd_sound ex_sp (fun _ => True) (input_layer 1) (fun y => y) /\
  bwd_sound ex_sp (fun _ => True) L (fun y => y) /\
  bwd_sound ex_sp (fun _ => True) (dense_layer 1 1 1 two None) kd /\
  valid Box IBP false (fun z => z 0%nat = 1) 1 1 (fun z => z) id_ibp /\
  crown_model IBP Box 1 [(input_layer 1, []); (L, [0%nat]); (dense_layer 1 1 1 two None, [1%nat])] [2%nat] None (fun _ => None) id_ibp = Ok [[u; l]] /\
  u 0%nat 0%nat = 1 /\ kd (fun _ => 1) 0%nat = 2.
Proof. exact crown_nested_refuted. Qed.
Print Assumptions C34_nested_model_inner_refuted.

Theorem C34_dense_node : forall sp rows d units kernel bias, (0 < units)%nat ->
  bwd_sound sp (fun _ => True) (dense_layer rows d units kernel bias) (keras_dense d units kernel (bias_of bias)).
Proof. exact dense_layer_sound. Qed.
Print Assumptions C34_dense_node.

Theorem C34_relu_node : forall ke sp sl ft m, 0 < ke -> (0 < sp_n sp)%nat -> dom_ok (sp_dom sp) (sp_mode sp) -> sp_dc sp = false ->
  ft_ok m (option_map snd ft) ->
  bwd_sound sp (boxes (gap_free ke) sp m) (act_layer ke sp ActRelu sl ft m) (fun y j => Rrelu (y j)).
Proof. exact relu_layer_sound. Qed.
Print Assumptions C34_relu_node.

Example C34_example : exists u l, crown_model IBP Box 1 ex_graph [3%nat] None (fun _ => None) (ts_ibp (-1) 1) = Ok [[u; l]] /\
  forall z, -1 <= z 0%nat <= 1 -> l 0%nat 0%nat <= kd (fun j => Rrelu (kd z j)) 0%nat <= u 0%nat 0%nat.
Proof. exact ex_crown. Qed.

