(** Theorems C75: the shapes announced by the converted layers are the shapes of the tensors they return. *)
From Coq Require Import List Arith Bool ZArith Permutation Lia.
From Verif Require Import RLib Spec Spec_Shapes M_Core M_Ops M_Shapes P_Shapes.
Import ListNotations.

(** what a converted layer announces: the tuple of bounds of the Keras output shape, in every mode, with or without dc_decomp *)
Theorem C75_announced : forall L args s D mode dc b n, out_shape L args s ->
  announced L D n mode dc (concat (map (tuple_shapes D mode dc b n) args)) = Ok (tuple_shapes D mode dc b n s).
Proof. exact announced_ok. Qed.
Print Assumptions C75_announced.

(** the Keras layers announce the shape of their output *)
Theorem C75_keras : forall L args s b, out_shape L args s -> keras_shape L (map (value_shape b) args) = Ok (value_shape b s).
Proof. exact keras_shape_ok. Qed.
Print Assumptions C75_keras.

(** the tensors returned have these shapes. Left out because they differ (below): Concatenate along a negative axis other than -1 in the affine modes, merging layers, BatchNormalization and curved activations with dc_decomp, diagonal weights *)
Theorem C75_returned_partial : forall L args s D mode dc b n bias, out_shape L args s -> (without_dc L = true -> dc = false) ->
  (odd_axis L = true -> mode = IBP) -> 0 < n -> Forall (Forall (lt 0)) args ->
  call_shapes L (last_axis args) bias D mode dc (concat (map (tuple_shapes D mode dc b n) args)) = Ok (tuple_shapes D mode dc b n s).
Proof. exact call_ok. Qed.
Print Assumptions C75_returned_partial.

(** a whole network, when it is built *)
Theorem C75_network_announced : forall D n mode dc b env g env', net_shapes env g env' ->
  announce_net D n mode dc (map (tuple_shapes D mode dc b n) env) g = Ok (map (tuple_shapes D mode dc b n) env').
Proof. exact announce_net_ok. Qed.
Print Assumptions C75_network_announced.

(** a whole network, when it is called on any batch *)
Theorem C75_network_returned_partial : forall D n mode dc ba b env g env', net_shapes env g env' ->
  Forall (fun N : snode => (without_dc (fst N) = true -> dc = false) /\ (odd_axis (fst N) = true -> mode = IBP)) g ->
  0 < n -> Forall (Forall (lt 0)) env' ->
  call_net D n mode dc (map (tuple_shapes D mode dc ba n) env) (map (tuple_shapes D mode dc b n) env) g
    = Ok (map (tuple_shapes D mode dc b n) env').
Proof. exact call_net_ok. Qed.
Print Assumptions C75_network_returned_partial.

(** a layer converted alone: from the shapes of its Keras inputs *)
Theorem C75_alone_partial : forall L args s D mode dc b n k bias, out_shape L args s -> (without_dc L = true -> dc = false) ->
  (odd_axis L = true -> mode = IBP) -> 0 < n -> Forall (Forall (lt 0)) args ->
  exists l, prepare_input_shapes D n mode dc (repeat (map (value_shape b) args) (S k)) = Ok l /\
    announced L D n mode dc l = Ok (tuple_shapes D mode dc None n s) /\
    call_shapes L (last_axis args) bias D mode dc l = Ok (tuple_shapes D mode dc None n s).
Proof. exact alone_ok. Qed.
Print Assumptions C75_alone_partial.

(** the inputs prepared for it *)
Theorem C75_prepare : forall D n mode dc b ss k, (dc = true -> exists s, ss = [s]) ->
  prepare_input_shapes D n mode dc (repeat (map (value_shape b) ss) (S k)) = Ok (concat (map (tuple_shapes D mode dc None n) ss)).
Proof. exact prepare_ok. Qed.
Print Assumptions C75_prepare.

(** several inputs with dc_decomp *)
Theorem C75_prepare_dc : forall D n mode b ss k, length ss <> 1 ->
  prepare_input_shapes D n mode true (repeat (map (value_shape b) ss) (S k)) = Err NotImplementedError.
Proof. exact prepare_dc_many. Qed.
Print Assumptions C75_prepare_dc.

(** a layer called on different shapes *)
Theorem C75_prepare_differ : forall D n mode dc nodes a b, In a nodes -> In b nodes -> a <> b ->
  prepare_input_shapes D n mode dc nodes = Err AttributeError.
Proof. exact prepare_differ. Qed.
Print Assumptions C75_prepare_differ.

(** change of mode, except from ibp to an affine mode *)
Theorem C75_convert : forall D n from to dc b s, from <> IBP \/ to = IBP ->
  convert2mode_announced D n from to dc (tuple_shapes D from dc b n s) = Ok (tuple_shapes D to dc b n s) /\
  convert2mode_call D from to dc (tuple_shapes D from dc b n s) = Ok (tuple_shapes D to dc b n s).
Proof. exact convert2mode_ok. Qed.
Print Assumptions C75_convert.

(** from ibp on a box, when the tensor has the shape of the input of the model *)
Theorem C75_convert_flat : forall n dc b to,
  convert2mode_announced Box n IBP to dc (tuple_shapes Box IBP dc b n [n]) = Ok (tuple_shapes Box to dc b n [n]) /\
  convert2mode_call Box IBP to dc (tuple_shapes Box IBP dc b n [n]) = Ok (tuple_shapes Box to dc b n [n]).
Proof. exact convert2mode_from_ibp_flat. Qed.
Print Assumptions C75_convert_flat.

(** and only then *)
Theorem C75_convert_ibp : forall D n dc b s to, to <> IBP -> s <> [] ->
  (convert2mode_call D IBP to dc (tuple_shapes D IBP dc b n s) = convert2mode_announced D n IBP to dc (tuple_shapes D IBP dc b n s)
   <-> D = Box /\ s = [n]).
Proof. exact convert2mode_from_ibp_iff. Qed.
Print Assumptions C75_convert_ibp.

(** an image *)
Theorem C75_convert_image_refuted : forall b dc to, to <> IBP ->
  convert2mode_call Box IBP to dc (tuple_shapes Box IBP dc b 12 [4;3]) <>
  convert2mode_announced Box 12 IBP to dc (tuple_shapes Box IBP dc b 12 [4;3]).
Proof. exact convert2mode_image_refuted. Qed.
Print Assumptions C75_convert_image_refuted.

(** a hidden layer *)
Theorem C75_convert_hidden_refuted : forall b dc to n m, to <> IBP -> n <> m ->
  convert2mode_call Box IBP to dc (tuple_shapes Box IBP dc b n [m]) <>
  convert2mode_announced Box n IBP to dc (tuple_shapes Box IBP dc b n [m]).
Proof. exact convert2mode_hidden_refuted. Qed.
Print Assumptions C75_convert_hidden_refuted.

(** Concatenate(axis=-2) in affine mode *)
Theorem C75_concat_axis_refuted : exists args s la lc, out_shape (SConcat (-2)) args s /\
  announced (SConcat (-2)) Box 5 AFFINE false (concat (map (tuple_shapes Box AFFINE false None 5) args)) = Ok la /\
  call_shapes (SConcat (-2)) 3 true Box AFFINE false (concat (map (tuple_shapes Box AFFINE false None 5) args)) = Ok lc /\
  nth_error la 1 = Some [None; Some 5; Some 4; Some 3] /\ nth_error lc 1 = Some [None; Some 5; Some 2; Some 6].
Proof. exact concat_axis_refuted. Qed.
Print Assumptions C75_concat_axis_refuted.

(** every such axis *)
Theorem C75_concat_odd : forall D b n pre d ds e post, 0 < d -> ds <> [] -> Forall (fun k => 0 < k) ds -> 0 < e ->
  let axis := (- Z.of_nat (length (e :: post)) - 1)%Z in
  let args := map (fun k => pre ++ k :: e :: post) (d :: ds) in
  call_shapes (SConcat axis) 0 true D AFFINE false (concat (map (tuple_shapes D AFFINE false b n) args))
    <> announced (SConcat axis) D n AFFINE false (concat (map (tuple_shapes D AFFINE false b n) args)).
Proof. exact concat_odd_axis. Qed.
Print Assumptions C75_concat_odd.

(** with dc_decomp a merging layer, a BatchNormalization or a curved activation announces shapes and returns nothing *)
Theorem C75_dc_merge_refuted : forall L D mode b n args s o, without_dc L = true -> out_shape L args s ->
  announced L D n mode true (concat (map (tuple_shapes D mode true b n) args)) = Ok (tuple_shapes D mode true b n s) /\
  call_shapes L 0 true D mode true (concat (map (tuple_shapes D mode true b n) args)) <> Ok o.
Proof. exact merge_dc. Qed.
Print Assumptions C75_dc_merge_refuted.

(** operands of different ranks, which Keras aligns after the batch: the call aligns the last axes and raises *)
Theorem C75_rank_refuted : forall L D mode b n k pre d s, In L [SAdd; SAverage; SSubtract; SMaximum; SMinimum; SMultiply] -> d <> k -> d <> 1 -> k <> 1 ->
  announced L D n mode false (concat (map (tuple_shapes D mode false b n) [pre ++ d :: s; s])) = Ok (tuple_shapes D mode false b n (pre ++ d :: s)) /\
  call_shapes L 0 true D mode false (concat (map (tuple_shapes D mode false (Some k) n) [pre ++ d :: s; s])) = Err ValueError.
Proof. exact rank_differs. Qed.
Print Assumptions C75_rank_refuted.
(** (None, 4, 3) and (None, 3) on 5 samples *)
Example C75_rank_example : announced SMaximum Box 2 HYBRID false (concat (map (tuple_shapes Box HYBRID false None 2) [[4; 3]; [3]])) = Ok (tuple_shapes Box HYBRID false None 2 [4; 3]) /\
  call_shapes SMaximum 0 true Box HYBRID false (concat (map (tuple_shapes Box HYBRID false (Some 5) 2) [[4; 3]; [3]])) = Err ValueError.
Proof. exact (rank_differs SMaximum Box HYBRID None 2 5 [] 4 [3] ltac:(cbn; auto) ltac:(lia) ltac:(lia) ltac:(lia)). Qed.

(** no error on a batch of the size of that axis: the rows of the second operand are those of the samples *)
Theorem C75_rank_batch : forall D n pre d s, call_shapes SAdd 0 true D IBP false (concat (map (tuple_shapes D IBP false (Some d) n) [pre ++ d :: s; s]))
  = Ok (tuple_shapes D IBP false (Some d) n (pre ++ d :: s)).
Proof. exact rank_batch. Qed.
Print Assumptions C75_rank_batch.

(** Dot of two vectors: the announced axis of size 1 is missing in the tensors returned, for every size, mode and domain *)
Theorem C75_dot_refuted : forall D mode b n d,
  let l := concat (map (tuple_shapes D mode false b n) [[d]; [d]]) in
  announced_dot D n mode false l = Ok (tuple_shapes D mode false b n [1]) /\ call_dot D mode false l = Ok (tuple_shapes D mode false b n []) /\
  announced_dot D n mode false l <> call_dot D mode false l.
Proof. exact dot_vectors. Qed.
Print Assumptions C75_dot_refuted.

(** diagonal weights through Reshape *)
Theorem C75_diagonal_reshape_refuted : forall D b n s t, size_of s = size_of t -> 0 < size_of t ->
  exists la lc, announced (SReshape t) D n AFFINE false (diagonal_tuple D b n s) = Ok la /\
    call_shapes (SReshape t) 0 true D AFFINE false (diagonal_tuple D b n s) = Ok lc /\
    nth_error la 1 = Some (weight_shape b n t) /\ nth_error lc 1 = Some (value_shape b t) /\ la <> lc.
Proof. exact diagonal_reshape. Qed.
Print Assumptions C75_diagonal_reshape_refuted.

(** diagonal weights through Dense: announced as weights from the input of the model, returned with one row per entry of the layer input *)
Theorem C75_diagonal_dense : forall D b n d u bias,
  announced (SDense u) D n AFFINE false (diagonal_tuple D b n [d]) = Ok (tuple_shapes D AFFINE false b n [u]) /\
  call_dense d u bias D AFFINE false (diagonal_tuple D b n [d]) = Ok [x_shape D b n; weight_shape b d [u]; value_shape b [u]; weight_shape b d [u]; value_shape b [u]].
Proof. exact diagonal_dense. Qed.
Print Assumptions C75_diagonal_dense.

Example C75_example_network : net_shapes [[2;3]] shape_net shape_net_shapes /\
  announce_net Box 6 HYBRID false [tuple_shapes Box HYBRID false None 6 [2;3]] shape_net
    = Ok (map (tuple_shapes Box HYBRID false None 6) shape_net_shapes) /\
  call_net Box 6 HYBRID false [tuple_shapes Box HYBRID false None 6 [2;3]] [tuple_shapes Box HYBRID false (Some 7) 6 [2;3]] shape_net
    = Ok (map (tuple_shapes Box HYBRID false (Some 7) 6) shape_net_shapes).
Proof. exact shape_net_example. Qed.

