(** Theorems C78: tensors with their batch axis; the bounds of a sample do not depend on the rest of the batch. *)
From Coq Require Import Reals List Arith Bool.
From Verif Require Import RLib Spec M_Core M_Utils M_MergeLayers M_Ops M_Layers Spec_Backward M_Backward Spec_Convert M_Convert M_Network P_Core P_Merge P_Graph P_Convert P_Network Spec_Network Spec_Batch M_Batch P_Batch P_BatchLayers P_BatchNet P_BatchClone.
Import ListNotations.
Local Open Scope R_scope.

(** the clone called on a batch returns, for each sample, what the model on one sample (C64) returns for it *)
Theorem C78_clone : forall ke D B b n mode final net shape o z x, (b < B)%nat -> (0 < n)%nat -> norm_ok D -> (mode = IBP -> final = IBP) ->
  tnet_ok n net shape -> single_output (tnet_network shape net) o -> sample_dom D B b n z x ->
  exists T ts, t_clone_forward ke D mode final net [o] z = Ok T /\
    clone_forward D n mode final (decomon_net ke (mk_spec false mode D n) (tnet_opts net) (tnet_network shape net)) [o] x = Ok ts /\
    sample D final B b n (shape o) T ts.
Proof. exact batch_clone. Qed.
Print Assumptions C78_clone.

(** from ibp to an affine mode: the affine bounds are over the box of the output *)
Theorem C78_clone_from_ibp : forall ke D B b n final net shape o z x m, (b < B)%nat -> (0 < n)%nat -> norm_ok D -> final <> IBP ->
  tnet_ok n net shape -> single_output (tnet_network shape net) o -> shape o = [m] -> sample_dom D B b n z x ->
  exists T ts, t_clone_forward ke D IBP final net [o] z = Ok T /\
    clone_forward D n IBP final (decomon_net ke (mk_spec false IBP D n) (tnet_opts net) (tnet_network shape net)) [o] x = Ok ts /\
    sample Box final B b m [m] T ts.
Proof. exact batch_clone_ibp. Qed.
Print Assumptions C78_clone_from_ibp.

(** a sample receives the same tensors in any two batches that contain it, of any sizes and at any position *)
Theorem C78_independent : forall ke D n mode final net shape o B B' b b' z z' x,
  (b < B)%nat -> (b' < B')%nat -> (0 < n)%nat -> norm_ok D -> (mode = IBP -> final = IBP) -> tnet_ok n net shape -> single_output (tnet_network shape net) o ->
  sample_dom D B b n z x -> sample_dom D B' b' n z' x ->
  exists T T' ts, t_clone_forward ke D mode final net [o] z = Ok T /\ t_clone_forward ke D mode final net [o] z' = Ok T' /\
    sample D final B b n (shape o) T ts /\ sample D final B' b' n (shape o) T' ts.
Proof. exact batch_independent. Qed.
Print Assumptions C78_independent.

(** forward-ibp on a batch: every sample is bounded by its own entries *)
Theorem C78_ibp : forall ke D n net shape o B z v,
  0 < ke -> (0 < n)%nat -> norm_ok D -> tnet_ok n net shape -> tnet_ft net -> single_output (tnet_network shape net) o ->
  net_value (tnet_network shape net) v -> (0 < B)%nat -> nd_shape z = dom_shape D B n ->
  exists U L, t_clone_forward ke D IBP IBP net [o] z = Ok [U; L] /\ nd_shape U = B :: shape o /\ nd_shape L = B :: shape o /\
    forall b y j, (b < B)%nat -> in_dom D n (batch_dom D n z b) y -> (j < prodn (shape o))%nat ->
      nd_data L (b * prodn (shape o) + j) <= v o y j <= nd_data U (b * prodn (shape o) + j).
Proof. exact batch_ibp. Qed.
Print Assumptions C78_ibp.

(** the three modes. Missing: relu, maximum and minimum in the affine modes, which need the intervals of C64_forward_partial *)
Theorem C78_valid_partial : forall ke D n mode final net shape o B z v,
  0 < ke -> (0 < n)%nat -> norm_ok D -> (mode = IBP -> final = IBP) -> tnet_ok n net shape -> tnet_ft net -> single_output (tnet_network shape net) o ->
  (mode = IBP \/ forall i L ps, nth_error net i = Some (Some L, ps) -> tl_affine L) ->
  net_value (tnet_network shape net) v -> (0 < B)%nat -> nd_shape z = dom_shape D B n ->
  exists T, t_clone_forward ke D mode final net [o] z = Ok T /\
    forall b, (b < B)%nat -> (exists y, in_dom D n (batch_dom D n z b) y) -> exists ts, sample D final B b n (shape o) T ts /\
      valid D final false (in_dom D n (batch_dom D n z b)) n (prodn (shape o)) (v o) ts.
Proof. exact batch_valid. Qed.
Print Assumptions C78_valid_partial.

(** crown: merging two backward bounds, batched as in crown.py, is merging them sample by sample; weights of rank 2 are diagonals *)
Theorem C78_merge_previous : forall B b n h k w_u b_u w_l b_l w_b_u b_b_u w_b_l b_b_l WU BU WL BL VU CU VL CL, (b < B)%nat ->
  wt_sample B b n h w_u WU -> sample_vec B b [h] b_u BU -> wt_sample B b n h w_l WL -> sample_vec B b [h] b_l BL ->
  wt_sample B b h k w_b_u VU -> sample_vec B b [k] b_b_u CU -> wt_sample B b h k w_b_l VL -> sample_vec B b [k] b_b_l CL ->
  exists q, t_merge_previous w_u b_u w_l b_l w_b_u b_b_u w_b_l b_b_l = Ok q /\
    let m := merge_with_previous h WU BU WL BL VU CU VL CL in
    sample_mat B b n [k] (fst (fst (fst q))) (bb_wu m) /\ sample_vec B b [k] (snd (fst (fst q))) (bb_bu m) /\
    sample_mat B b n [k] (snd (fst q)) (bb_wl m) /\ sample_vec B b [k] (snd q) (bb_bl m).
Proof. exact t_merge_previous_rel. Qed.
Print Assumptions C78_merge_previous.

(** input of dimension 2, Dense, relu, Add of both; a batch of two boxes *)
Example C78_demo_ok : tnet_ok 2 demo_net demo_shape /\ tnet_ft demo_net /\ single_output (tnet_network demo_shape demo_net) 3 /\ nd_shape demo_batch = dom_shape Box 2 2.
Proof. exact demo_ok. Qed.

Example C78_demo_ibp : forall ke, exists U L, t_clone_forward ke Box IBP IBP demo_net [3%nat] demo_batch = Ok [U; L] /\
  map (nd_data U) (seq 0 4) = [6; 4; 8; 8] /\ map (nd_data L) (seq 0 4) = [0; 0; -1; 2].
Proof. exact demo_ibp. Qed.

