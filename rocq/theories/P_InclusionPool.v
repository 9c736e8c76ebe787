(** Two networks where the bounds of hybrid mode are not those expected. *)
From Coq Require Import Reals Lra Lia Psatz List Arith Bool ZArith Permutation.
From Verif Require Import RLib Spec Spec_Layers Spec_Backward Spec_Convert Spec_Network Spec_Inclusion M_Core M_Utils M_MergeLayers M_Ops M_Layers M_Pool M_Crown M_Convert M_Network Spec_Near.
From Verif Require Import P_Core P_Merge P_Utils P_MergeLayers P_Axis P_Ops P_Layers P_Move P_Graph P_Convert P_ConvertThm P_Network P_NetworkSpec P_NetworkForward P_NetworkThm P_Near P_NearThm P_BackwardMore P_Inclusion P_InclusionThm.
From Verif Require Import Spec_Network.
Import ListNotations.
Local Open Scope R_scope.
Lemma hybrid_not_isotone : forall ke, 0 < ke <= 1 -> exists u l u' l',
  clone_forward Box 1 HYBRID IBP (decomon_net ke (mk_spec false HYBRID Box 1) (plain_o true) sum_net) [3%nat] (seg (-1) 2) = Ok [u; l] /\
  clone_forward Box 1 HYBRID IBP (decomon_net ke (mk_spec false HYBRID Box 1) (plain_o true) sum_net) [3%nat] (seg (-3) 2) = Ok [u'; l'] /\
  l 0%nat 0%nat = 9 /\ l' 0%nat 0%nat = 10.
Proof.
  intros ke Hke. do 4 eexists. split; [run|]. split; [run|]. open_net. split.
  - hulls ke. rminmax. lra.
  - hulls ke. rminmax. lra.
Qed.

Definition pool_box : tensor := fun c i => if Nat.eqb c 0 then 0 else if Nat.eqb i 0 then 1 else 2.
Ltac is_num u := match u with IZR _ => idtac end.
Lemma pool_not_inside : forall ke, 0 < ke <= 1 -> exists u l u' l',
  clone_forward Box 2 HYBRID IBP (decomon_net ke (mk_spec false HYBRID Box 2) (plain_o false) pool_net) [1%nat] pool_box = Ok [u; l] /\
  clone_forward Box 2 IBP IBP (decomon_net ke (mk_spec false IBP Box 2) (plain_o false) pool_net) [1%nat] pool_box = Ok [u'; l'] /\
  u' 0%nat 0%nat < u 0%nat 0%nat.
Proof.
  intros ke Hke. do 4 eexists. split; [run|]. split; [run|]. open_net.
  repeat match goal with |- context [hull_relu ke V_SLOPE None ?u ?l] => tryif is_num u then fail else (replace u with 2 by (rminmax; lra); replace l with (-1) by (rminmax; lra)) end.
  rewrite hull_up by lra. replace (2 / (2 - -1)) with (2 / 3) by field. rminmax. lra.
Qed.
