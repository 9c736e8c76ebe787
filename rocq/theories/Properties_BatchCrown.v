(** Theorems C79: the backward pass with its batch axis. C78_near: the forward clone on a batch, in the three modes. *)
From Coq Require Import Reals List Arith Bool.
From Verif Require Import RLib Spec M_Core M_Utils M_MergeLayers M_Ops M_Layers Spec_Backward M_Backward M_Crown Spec_Convert M_Convert M_Network P_Core P_Merge P_Graph P_Convert P_Network P_NetworkForward P_NetworkCrown.
From Verif Require Import Spec_Network Spec_Near Spec_Batch M_Batch M_BatchCrown P_Batch P_BatchLayers P_BatchNet P_BatchClone P_BatchBN P_BatchCrown P_BatchCrownThm.
Import ListNotations.
Local Open Scope R_scope.

(** the forward clone on a batch, in the three modes and with every layer: each sample is bounded on its own domain, up to net_slack * epsilon *)
Theorem C78_near : forall ke D n mode final net shape o B z v,
  0 < ke -> (0 < n)%nat -> norm_ok D -> (mode = IBP -> final = IBP) -> tnet_ok n net shape -> tnet_ft net -> single_output (tnet_network shape net) o ->
  net_value (tnet_network shape net) v -> (0 < B)%nat -> nd_shape z = dom_shape D B n ->
  exists T, t_clone_forward ke D mode final net [o] z = Ok T /\
    forall b, (b < B)%nat -> exists ts, sample D final B b n (shape o) T ts /\
      near D final (in_dom D n (batch_dom D n z b)) n (prodn (shape o)) (net_slack (tnet_network shape net) * ke) (v o) ts.
Proof. exact batch_near. Qed.
Print Assumptions C78_near.

(** crown and crown-forward-xxx on a batch return, for each sample, what the model on one sample (C65) returns for it. Missing: the blocks of C79_dense_block_refuted, C79_batchnorm_block_refuted, C79_permute_block_refuted and C79_relu_block_refuted, Permute between axes of different lengths (C31), ibp to an affine mode (C79_from_ibp_refuted) *)
Theorem C79_crown_partial : forall ke D B b n mode final fwd bo net shape o z x,
  (b < B)%nat -> (0 < n)%nat -> norm_ok D -> (mode = IBP -> D = Box) -> (mode = IBP -> final = IBP) ->
  tnet_ok n net shape -> tnet_chain net -> tnet_blocks fwd (fun i => snd (bo i)) net shape -> single_output (tnet_network shape net) o -> sample_dom D B b n z x ->
  exists T ts, t_clone_backward ke D mode final fwd bo net [o] z = Ok T /\
    clone_backward D n mode final (fwd_graph ke D mode n fwd net shape) (seq 0 (length net))
      (backward_net ke (mk_spec false mode D n) (tbo_opts bo) n (tnet_network shape net)) [o] None x = Ok ts /\
    sample D final B b n [prodn (shape o)] T ts.
Proof. exact batch_crown. Qed.
Print Assumptions C79_crown_partial.

(** a sample receives the same tensors in any two batches that contain it *)
Theorem C79_independent : forall ke D n mode final fwd bo net shape o B B' b b' z z' x,
  (b < B)%nat -> (b' < B')%nat -> (0 < n)%nat -> norm_ok D -> (mode = IBP -> D = Box) -> (mode = IBP -> final = IBP) ->
  tnet_ok n net shape -> tnet_chain net -> tnet_blocks fwd (fun i => snd (bo i)) net shape -> single_output (tnet_network shape net) o ->
  sample_dom D B b n z x -> sample_dom D B' b' n z' x ->
  exists T T' ts, t_clone_backward ke D mode final fwd bo net [o] z = Ok T /\ t_clone_backward ke D mode final fwd bo net [o] z' = Ok T' /\
    sample D final B b n [prodn (shape o)] T ts /\ sample D final B' b' n [prodn (shape o)] T' ts.
Proof. exact batch_crown_independent. Qed.
Print Assumptions C79_independent.

(** each sample is bounded on its own domain *)
Theorem C79_near : forall ke D n mode final fwd bo net shape o B z v,
  0 < ke -> (0 < n)%nat -> norm_ok D -> (mode = IBP -> D = Box) -> (mode = IBP -> final = IBP) ->
  tnet_ok n net shape -> tnet_ft net -> tbo_ok bo net shape -> tnet_chain net -> tnet_blocks fwd (fun i => snd (bo i)) net shape -> single_output (tnet_network shape net) o ->
  net_value (tnet_network shape net) v -> (0 < B)%nat -> nd_shape z = dom_shape D B n ->
  exists T, t_clone_backward ke D mode final fwd bo net [o] z = Ok T /\
    forall b, (b < B)%nat -> exists ts, sample D final B b n [prodn (shape o)] T ts /\
      near D final (in_dom D n (batch_dom D n z b)) n (prodn (shape o)) (net_slack (tnet_network shape net) * ke) (v o) ts.
Proof. exact batch_crown_near. Qed.
Print Assumptions C79_near.

(** with a final mode ibp: every entry of the value lies between the entries of the same sample *)
Theorem C79_constants : forall ke D n mode fwd bo net shape o B z v,
  0 < ke -> (0 < n)%nat -> norm_ok D -> (mode = IBP -> D = Box) ->
  tnet_ok n net shape -> tnet_ft net -> tbo_ok bo net shape -> tnet_chain net -> tnet_blocks fwd (fun i => snd (bo i)) net shape -> single_output (tnet_network shape net) o ->
  net_value (tnet_network shape net) v -> (0 < B)%nat -> nd_shape z = dom_shape D B n ->
  exists U L, t_clone_backward ke D mode IBP fwd bo net [o] z = Ok [U; L] /\ nd_shape U = [B; prodn (shape o)] /\ nd_shape L = [B; prodn (shape o)] /\
    forall b y j, (b < B)%nat -> in_dom D n (batch_dom D n z b) y -> (j < prodn (shape o))%nat ->
      nd_data L (b * prodn (shape o) + j) - net_slack (tnet_network shape net) * ke <= v o y j <= nd_data U (b * prodn (shape o) + j) + net_slack (tnet_network shape net) * ke.
Proof. exact batch_crown_constants. Qed.
Print Assumptions C79_constants.

(** Reshape to a column then Dense: crown raises ValueError, crown-forward-ibp does not, neither does the model on one sample *)
Theorem C79_dense_block_refuted : forall ke k z, nd_shape z = [1%nat; 2%nat; 2%nat] -> exists net shape o T ts,
  net = column_net k /\ tnet_ok 2 net shape /\ tnet_chain net /\ single_output (tnet_network shape net) o /\
  t_clone_backward ke Box IBP IBP false plain_bo net [o] z = Err ValueError /\
  t_clone_backward ke Box IBP IBP true plain_bo net [o] z = Ok T /\
  clone_backward Box 2 IBP IBP None (seq 0 (length net)) (backward_net ke (mk_spec false IBP Box 2) (tbo_opts plain_bo) 2 (tnet_network shape net)) [o] None (batch_dom Box 2 z 0) = Ok ts.
Proof. exact dense_block_error. Qed.
Print Assumptions C79_dense_block_refuted.

(** the reason: the vector that reaches the backward Dense has lost the axes of the block, so that it returns as many rows as the kernel, and the merge fails *)
Theorem C79_dense_rows : forall kernel bias T B m d u, nd_shape (last_nd T) = [B; m] -> nd_shape kernel = [d; u] -> d <> m ->
  exists C, t_backward_dense kernel bias T = Ok C /\ nd_shape (tb_wu C) = [B; d; u] /\
    forall A i, nd_shape (tb_wu A) = [B; i; m] -> t_merge_bb A C = Err ValueError.
Proof. exact dense_flat_rows. Qed.
Print Assumptions C79_dense_rows.

(** a relu with coefficients on a block (2, 2): crown-forward-ibp raises ValueError, crown does not, neither does the model on one sample *)
Theorem C79_relu_block_refuted : forall ke z, 0 < ke -> nd_shape z = [1%nat; 2%nat; 4%nat] -> exists shape o T ts,
  tnet_ok 4 square_net shape /\ tnet_chain square_net /\ single_output (tnet_network shape square_net) o /\ tbo_ok square_bo square_net shape /\
  t_clone_backward ke Box IBP IBP true square_bo square_net [o] z = Err ValueError /\
  t_clone_backward ke Box IBP IBP false square_bo square_net [o] z = Ok T /\
  clone_backward Box 4 IBP IBP (fwd_graph ke Box IBP 4 true square_net shape) (seq 0 (length square_net))
    (backward_net ke (mk_spec false IBP Box 4) (tbo_opts square_bo) 4 (tnet_network shape square_net)) [o] None (batch_dom Box 4 z 0) = Ok ts.
Proof. exact relu_block_error. Qed.
Print Assumptions C79_relu_block_refuted.

(** BatchNormalization on a block (2, 2): crown raises ValueError, crown-forward-ibp does not, neither does the model on one sample *)
Theorem C79_batchnorm_block_refuted : forall ke z, 0 < ke -> nd_shape z = [1%nat; 2%nat; 4%nat] -> exists shape o T ts,
  tnet_ok 4 (block_net demo_bn) shape /\ tnet_chain (block_net demo_bn) /\ single_output (tnet_network shape (block_net demo_bn)) o /\
  t_clone_backward ke Box IBP IBP false plain_bo (block_net demo_bn) [o] z = Err ValueError /\
  t_clone_backward ke Box IBP IBP true plain_bo (block_net demo_bn) [o] z = Ok T /\
  clone_backward Box 4 IBP IBP None (seq 0 3) (backward_net ke (mk_spec false IBP Box 4) (tbo_opts plain_bo) 4 (tnet_network shape (block_net demo_bn))) [o] None (batch_dom Box 4 z 0) = Ok ts.
Proof. exact bn_block_error. Qed.
Print Assumptions C79_batchnorm_block_refuted.

(** Permute on a block (2, 2): the same *)
Theorem C79_permute_block_refuted : forall ke z, 0 < ke -> nd_shape z = [1%nat; 2%nat; 4%nat] -> exists shape o T ts,
  tnet_ok 4 (block_net (TPermute [2%nat; 1%nat])) shape /\ tnet_chain (block_net (TPermute [2%nat; 1%nat])) /\ single_output (tnet_network shape (block_net (TPermute [2%nat; 1%nat]))) o /\
  t_clone_backward ke Box IBP IBP false plain_bo (block_net (TPermute [2%nat; 1%nat])) [o] z = Err ValueError /\
  t_clone_backward ke Box IBP IBP true plain_bo (block_net (TPermute [2%nat; 1%nat])) [o] z = Ok T /\
  clone_backward Box 4 IBP IBP None (seq 0 3) (backward_net ke (mk_spec false IBP Box 4) (tbo_opts plain_bo) 4 (tnet_network shape (block_net (TPermute [2%nat; 1%nat])))) [o] None (batch_dom Box 4 z 0) = Ok ts.
Proof. exact permute_block_error. Qed.
Print Assumptions C79_permute_block_refuted.

(** crown from ibp to affine or hybrid: the box of the input, the constants of ibp as offsets (they enclose the values), zero weights whose rows are counted by the output *)
Theorem C79_from_ibp : forall ke n final fwd bo net shape o B z v, final <> IBP ->
  0 < ke -> (0 < n)%nat -> tnet_ok n net shape -> tnet_ft net -> tbo_ok bo net shape -> tnet_chain net -> tnet_blocks fwd (fun i => snd (bo i)) net shape -> single_output (tnet_network shape net) o ->
  net_value (tnet_network shape net) v -> (0 < B)%nat -> nd_shape z = dom_shape Box B n ->
  exists U L x w, t_clone_backward ke Box IBP final fwd bo net [o] z = Ok (if mode_eqb final AFFINE then [x; w; U; w; L] else [x; U; w; U; L; w; L]) /\
    nd_shape x = dom_shape Box B n /\ (forall q, (q < B * (2 * n))%nat -> nd_data x q = nd_data z q) /\
    nd_shape w = [B; prodn (shape o); prodn (shape o)] /\ (forall q, nd_data w q = 0) /\ nd_shape U = [B; prodn (shape o)] /\ nd_shape L = [B; prodn (shape o)] /\
    forall b y j, (b < B)%nat -> in_dom Box n (batch_dom Box n z b) y -> (j < prodn (shape o))%nat ->
      nd_data L (b * prodn (shape o) + j) - net_slack (tnet_network shape net) * ke <= v o y j <= nd_data U (b * prodn (shape o) + j) + net_slack (tnet_network shape net) * ke.
Proof. exact crown_from_ibp. Qed.
Print Assumptions C79_from_ibp.

(** crown from ibp to hybrid: weights (1, 3, 3) over an input box of dimension 2; asking their bounds raises ValueError *)
Theorem C79_from_ibp_refuted : forall ke z, nd_shape z = [1%nat; 2%nat; 2%nat] -> exists x u w b l w' b',
  t_clone_backward ke Box IBP HYBRID false plain_bo wide_net [1%nat] z = Ok [x; u; w; b; l; w'; b'] /\
  nd_shape x = [1%nat; 2%nat; 2%nat] /\ nd_shape w = [1%nat; 3%nat; 3%nat] /\ nd_shape w' = [1%nat; 3%nat; 3%nat] /\
  t_get_upper Box x w b = Err ValueError /\ t_get_lower Box x w' b' = Err ValueError.
Proof. exact crown_from_ibp_error. Qed.
Print Assumptions C79_from_ibp_refuted.

(** for comparison: on one sample the bounds exist and hold whatever the blocks, Permute between axes of different lengths apart *)
Theorem C79_single : forall ke D n mode final fwd bo net shape o z,
  0 < ke -> (0 < n)%nat -> norm_ok D -> (mode = IBP -> D = Box) ->
  tnet_ok n net shape -> tnet_ft net -> tbo_ok bo net shape -> tnet_chain net -> tnet_square net shape -> single_output (tnet_network shape net) o ->
  exists ts, clone_backward D n mode final (fwd_graph ke D mode n fwd net shape) (seq 0 (length net)) (backward_net ke (mk_spec false mode D n) (tbo_opts bo) n (tnet_network shape net)) [o] None z = Ok ts /\
    exists v, net_value (tnet_network shape net) v /\ near D final (in_dom D n z) n (net_dim n (tnet_network shape net) o) (net_slack (tnet_network shape net) * ke) (v o) ts.
Proof. exact single_crown. Qed.
Print Assumptions C79_single.

(** Dense, relu with coefficients in both passes, Dense; a batch of two boxes *)
Example C79_demo_ok : tnet_ok 2 demo_chain chain_shape /\ tnet_ft demo_chain /\ tnet_chain demo_chain /\ tbo_ok chain_bo demo_chain chain_shape /\
  (forall fwd, tnet_blocks fwd (fun i => snd (chain_bo i)) demo_chain chain_shape) /\ single_output (tnet_network chain_shape demo_chain) 3 /\ nd_shape chain_batch = dom_shape Box 2 2.
Proof. exact demo_chain_ok. Qed.

(** two Dense layers: 2 y1 + y2 - 1 on [0,1] x [0,1] and on [0,1] x [2,3] *)
Example C79_demo_values : forall ke, exists U L, t_clone_backward ke Box IBP IBP false plain_bo demo_lin [2%nat] chain_batch = Ok [U; L] /\
  nd_data U 0 = 2 /\ nd_data U 1 = 4 /\ nd_data L 0 = -1 /\ nd_data L 1 = 1.
Proof. exact demo_lin_crown. Qed.


(** BatchNormalization (y - 1 on the first channel, 3 - y on the second) and Permute on blocks (2, 2); a batch of two boxes *)
Example C78_bn_values : forall ke, exists U L, t_clone_forward ke Box IBP IBP (block_net demo_bn) [2%nat] block_batch = Ok [U; L] /\ nd_shape U = [2; 2; 2]%nat /\
  nd_data U 0 = 0 /\ nd_data L 0 = -1 /\ nd_data U 3 = 3 /\ nd_data L 3 = -1 /\ nd_data U 4 = 1 /\ nd_data L 4 = 0 /\ nd_data U 7 = 2 /\ nd_data L 7 = 1.
Proof. exact demo_bn_values. Qed.
Example C78_permute_values : forall ke, exists U L, t_clone_forward ke Box IBP IBP (block_net (TPermute [2%nat; 1%nat])) [2%nat] block_batch = Ok [U; L] /\ nd_shape U = [2; 2; 2]%nat /\
  nd_data U 1 = 3 /\ nd_data U 2 = 2 /\ nd_data L 1 = 0 /\ nd_data U 5 = 2 /\ nd_data L 5 = 1.
Proof. exact demo_permute_values. Qed.
Example C79_bn_ok : forall ft, tnet_ok 4 (block_net demo_bn) square_shape /\ tnet_chain (block_net demo_bn) /\ tnet_ft (block_net demo_bn) /\ tnet_blocks true ft (block_net demo_bn) square_shape /\
  tnet_square (block_net demo_bn) square_shape /\ single_output (tnet_network square_shape (block_net demo_bn)) 2.
Proof. exact (fun ft => block_ok demo_bn ft (or_introl eq_refl)). Qed.
