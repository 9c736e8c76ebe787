(** Theorems C16 and C29, continued: the relaxation of softplus. *)
From Coq Require Import Reals List Arith Bool.
From Verif Require Import RLib Spec Spec_Layers Spec_Backward M_Core M_Utils M_MergeLayers M_Ops M_Layers M_Pool M_Backward P_UtilsThm P_BackwardOps P_Softplus.
Import ListNotations.
Local Open Scope R_scope.

(** in affine mode the upper bound of softplus is below softplus at both ends of every box *)
Theorem C16_softplus_everywhere_refuted : forall ke sl a b, 0 < ke -> sl <> A_SLOPE -> a <= b ->
  exists out, op_softplus ke (mk_spec false AFFINE Box 1) sl 1 (id_affine a b) = Ok out /\
    aff 1 (nth 1 out empty_tensor) (nth 2 out empty_tensor 0%nat) (fun _ => a) 0%nat < ln (1 + exp a) /\
    aff 1 (nth 1 out empty_tensor) (nth 2 out empty_tensor 0%nat) (fun _ => b) 0%nat < ln (1 + exp b).
Proof. exact softplus_everywhere. Qed.
Print Assumptions C16_softplus_everywhere_refuted.

(** and in the backward pass, at every neuron *)
Theorem C29_softplus_everywhere_refuted : forall ke sl n m (u l : vec), 0 < ke -> sl <> A_SLOPE -> (forall j, (j < m)%nat -> l j <= u j) ->
  exists B, backward_activation ke (mk_spec false IBP Box n) ActSoftplus sl None m [vt u; vt l] = Ok B /\
    forall j, (j < m)%nat -> aff m (bb_wu B) (bb_bu B) l j < ln (1 + exp (l j)) /\ aff m (bb_wu B) (bb_bu B) u j < ln (1 + exp (u j)).
Proof. exact bsoftplus_everywhere. Qed.
Print Assumptions C29_softplus_everywhere_refuted.
