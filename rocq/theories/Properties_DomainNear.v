(** Theorems C72, up to the margin of C68, C69: set_domain on the models made by clone, without the condition on narrow intervals. *)
From Coq Require Import String Reals List Arith Bool ZArith.
From Verif Require Import RLib Spec Spec_Domain Spec_Layers Spec_Backward Spec_Convert Spec_Near Spec_Wrapper M_Core M_State M_MergeLayers M_Pool M_Backward M_Crown M_Convert M_Network M_Domain M_Wrapper M_Clone.
From Verif Require Import P_Core P_Graph P_Crown P_Convert P_Network P_NetworkSpec P_NetworkCrown P_NetworkThm P_NetworkExactThm P_Domain P_Wrapper P_Clone P_CloneThm P_DomainClone P_DomainThm P_CloneNear P_CloneNearThm P_DomainNear.
From Verif Require Import Spec_Network.
Import ListNotations.
Local Open Scope R_scope.

(** every method, every piecewise affine network, when the last domain is inside the domain of the conversion: the bounds hold up to net_slack * epsilon, whatever the intervals met on the way *)
Theorem C72_inside_near : forall ke a n out net o v Ds c m meth mode fi fa z,
  net_facts ke n out net o v -> clone_flags (ca_method a) (ca_ibp a) (ca_affine a) = Ok (meth, mode, (fi, fa)) -> final_some fi fa ->
  clone ke a n out net o = Ok c -> wset_domains Ds c = Ok m ->
  norm_ok (args_domain a) -> norm_ok (wm_domain m) -> inside (wm_domain m) (args_domain a) n ->
  clone_fits (args_domain a) meth mode (get_mode fi fa) (ca_fwd a) (ca_bwd a) net -> all_piecewise net ->
  exists ts, wmode m = Some (get_mode fi fa) /\ wm_predict m (wm_domain m) z None = Ok ts /\
    near (wm_domain m) (get_mode fi fa) (in_dom (wm_domain m) n z) n (prodn out) (net_slack net * ke) (v o) ts.
Proof. exact changed_near. Qed.
Print Assumptions C72_inside_near.

(** get_range_noise on a DecomonModel, radius at most the one of the conversion *)
Theorem C72_noise_near : forall ke a n out net o v x eps0 eps p bs,
  net_facts ke n out net o v -> 0 <= eps <= eps0 -> known_norm p -> points_ok n x -> clone_set (Ball eps0 p) a net ->
  exists c u l, clone ke a n out net o = Ok c /\ get_range_noise (Decomon c) x eps p bs = Ok (u, l) /\ alen u = alen x /\ alen l = alen x /\
    forall b j y, (b < alen x)%nat -> (j < prodn out)%nat -> in_ball n p eps (lvec (point x b)) y ->
      cell l b j - net_slack net * ke <= v o y j <= cell u b j + net_slack net * ke.
Proof. exact noise_smaller_near. Qed.
Print Assumptions C72_noise_near.

(** affine mode: every radius *)
Theorem C72_noise_affine_near : forall ke a n out net o v x eps0 p0 eps p bs meth,
  net_facts ke n out net o v -> 0 <= eps -> known_norm p -> points_ok n x ->
  clone_flags (ca_method a) (ca_ibp a) (ca_affine a) = Ok (meth, AFFINE, (false, true)) -> slow_pools (ca_fwd a) net -> args_domain a = Ball eps0 p0 ->
  clone_fits (Ball eps p) meth AFFINE AFFINE (ca_fwd a) (ca_bwd a) net -> all_piecewise net ->
  exists c u l, clone ke a n out net o = Ok c /\ get_range_noise (Decomon c) x eps p bs = Ok (u, l) /\ alen u = alen x /\ alen l = alen x /\
    forall b j y, (b < alen x)%nat -> (j < prodn out)%nat -> in_ball n p eps (lvec (point x b)) y ->
      cell l b j - net_slack net * ke <= v o y j <= cell u b j + net_slack net * ke.
Proof. exact noise_affine_near. Qed.
Print Assumptions C72_noise_affine_near.

(** Dense, relu, Dense: the hypotheses hold for every weight and every radius *)
Example C72_example_mlp : forall ke h k k1 b1 k2 b2 eps0 p, 0 < ke -> (0 < h)%nat -> (0 < k)%nat -> 0 <= eps0 -> let net := mlp_net 2 h k k1 b1 k2 b2 in
  net_facts ke 2 [k] net 3 (net_fn net) /\ points_ok 2 two_points /\ clone_set (Ball eps0 p) (noise_call eps0 p) net.
Proof. exact ex_mlp_smaller. Qed.

(** the same in affine mode, for every new radius *)
Example C72_example_mlp_affine : forall ke h k k1 b1 k2 b2 eps p, 0 < ke -> (0 < h)%nat -> (0 < k)%nat -> 0 <= eps -> let net := mlp_net 2 h k k1 b1 k2 b2 in let a := affine_args (Ball 1 Pinf) in
  net_facts ke 2 [k] net 3 (net_fn net) /\ clone_flags (ca_method a) (ca_ibp a) (ca_affine a) = Ok (CROWN_FORWARD_AFFINE, AFFINE, (false, true)) /\ slow_pools (ca_fwd a) net /\
  clone_fits (Ball eps p) CROWN_FORWARD_AFFINE AFFINE AFFINE (ca_fwd a) (ca_bwd a) net /\ all_piecewise net.
Proof. exact ex_mlp_affine. Qed.

