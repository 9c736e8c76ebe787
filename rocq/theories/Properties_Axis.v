(** Theorems C13 and C61: sort and split along a negative axis in the affine modes, sort of short intervals. *)
From Coq Require Import Reals List Arith Bool ZArith Sorting.Sorted Sorting.Permutation.
From Verif Require Import RLib Spec M_Core M_Utils M_MergeLayers M_Ops P_Core P_Utils P_Axis P_Ops P_Sort P_OpsThm P_SortAxis.
Import ListNotations.
Local Open Scope R_scope.

(** sort of (10, 10 + z; 0, 0) along axis -2: the lower bound of the first entry is z, the entry is 0 *)
Theorem C13_negative_axis_refuted : forall ke, exists f g ts out z,
  (forall z p q, in_shape [] p -> in_shape [2%nat] q -> 0 <= z 0%nat <= 1 ->
     StronglySorted Rle (line g [] 2 [2%nat] z p q) /\ Permutation (line g [] 2 [2%nat] z p q) (line f [] 2 [2%nat] z p q)) /\
  valid Box AFFINE false (fun z => 0 <= z 0%nat <= 1) 1 4 f ts /\ op_sort ke (mk_spec false AFFINE Box 1) [2; 2]%nat (neg_axis [2%nat]) ts = Ok out /\ 0 <= z 0%nat <= 1 /\
  g z 0%nat < aff 1 (nth 3 out empty_tensor) (nth 4 out empty_tensor 0%nat) z 0.
Proof. exact sort_axis_refuted. Qed.
Print Assumptions C13_negative_axis_refuted.

(** sort of (0, z) with z in an interval shorter than epsilon around 0: the upper bound of the second entry is below max(0, z) *)
Theorem C13_short_refuted : forall ke, 0 < ke -> exists f g ts out z,
  (forall z p q, in_shape [] p -> in_shape [] q -> StronglySorted Rle (line g [] 2 [] z p q) /\ Permutation (line g [] 2 [] z p q) (line f [] 2 [] z p q)) /\
  valid Box AFFINE false (fun z => -(ke/4) <= z 0%nat <= ke/4) 1 2 f ts /\ op_sort ke (mk_spec false AFFINE Box 1) [2%nat] (-1) ts = Ok out /\ -(ke/4) <= z 0%nat <= ke/4 /\
  aff 1 (nth 1 out empty_tensor) (nth 2 out empty_tensor 0%nat) z 1 < g z 1%nat.
Proof. exact sort_short_refuted. Qed.
Print Assumptions C13_short_refuted.

(** split along axis -2: the weights are cut along axis -1 *)
Theorem C61_negative_axis_refuted : exists (f g : vec -> vec) ts outs z,
  (forall z p q, in_shape [] p -> in_shape [2%nat] q -> g z (ravel [2%nat] (p ++ q)) = f z (ravel [2; 2]%nat (p ++ 0%nat :: q))) /\
  valid Box AFFINE false (fun z => 0 <= z 0%nat <= 1) 1 4 f ts /\ op_split (mk_spec false AFFINE Box 1) [2; 2]%nat (neg_axis [2%nat]) ts = Ok outs /\ 0 <= z 0%nat <= 1 /\
  aff 1 (nth 1 (nth 0 outs []) empty_tensor) (nth 2 (nth 0 outs []) empty_tensor 0%nat) z 1 < g z 1%nat.
Proof. exact split_axis_refuted. Qed.
Print Assumptions C61_negative_axis_refuted.

(** when the two axes have different lengths, ValueError *)
Theorem C61_negative_axis_error : forall sp (S : vec -> Prop) pre k k' post (f : vec -> vec) ts, (0 < sp_n sp)%nat -> dom_ok (sp_dom sp) (sp_mode sp) ->
  get_affine (sp_mode sp) = true -> k <> k' -> valid (sp_dom sp) (sp_mode sp) (sp_dc sp) S (sp_n sp) (prodn (pre ++ k :: k' :: post)) f ts ->
  op_split sp (pre ++ k :: k' :: post) (neg_axis (k' :: post)) ts = Err ValueError.
Proof. exact split_axis_error. Qed.
Print Assumptions C61_negative_axis_error.

