(** Theorems C72: set_domain on the models made by clone. *)
From Coq Require Import String Reals List Arith Bool ZArith.
From Verif Require Import RLib Spec Spec_Domain Spec_Layers Spec_Backward Spec_Convert Spec_Wrapper M_Core M_State M_MergeLayers M_Pool M_Backward M_Crown M_Convert M_Network M_Domain M_Wrapper M_Clone.
From Verif Require Import P_Core P_Graph P_Crown P_Convert P_Network P_NetworkSpec P_NetworkCrown P_NetworkThm P_NetworkExactThm P_Domain P_Wrapper P_Clone P_CloneThm P_DomainClone P_DomainThm.
From Verif Require Import Spec_Network.
Import ListNotations.
Local Open Scope R_scope.

(** after any sequence of set_domain of the same type, the model has the last domain; another type is refused *)
Theorem C72_history : forall Ds m m', wset_domains Ds m = Ok m' <-> (forall D, In D Ds -> of_type D (wm_domain m)) /\ m' = set_to m (last_domain Ds (wm_domain m)).
Proof. exact changes_spec. Qed.
Print Assumptions C72_history.

(** methods in affine mode (forward-affine, crown-forward-affine): as a new conversion with the last domain *)
Theorem C72_affine : forall ke a n out net o Ds c m meth,
  clone_flags (ca_method a) (ca_ibp a) (ca_affine a) = Ok (meth, AFFINE, (false, true)) -> slow_pools (ca_fwd a) net ->
  clone ke a n out net o = Ok c -> wset_domains Ds c = Ok m ->
  exists c', clone ke (on_domain a (wm_domain m)) n out net o = Ok c' /\ wm_domain c' = wm_domain m /\
    forall z, wm_predict m (wm_domain m) z None = wm_predict c' (wm_domain c') z None.
Proof. exact changed_affine. Qed.
Print Assumptions C72_affine.

(** methods in interval mode: the bounds are those of the domain of the conversion *)
Theorem C72_ibp : forall ke a n out net o Ds c m meth fi fa,
  clone_flags (ca_method a) (ca_ibp a) (ca_affine a) = Ok (meth, IBP, (fi, fa)) -> (get_direction meth = BACKWARD -> args_domain a = Box) ->
  clone ke a n out net o = Ok c -> wset_domains Ds c = Ok m ->
  forall z, wm_predict m (wm_domain m) z None = wm_predict c (wm_domain c) z None.
Proof. exact changed_ibp. Qed.
Print Assumptions C72_ibp.

(** every method, when the last domain is inside the domain of the conversion. Missing: intervals narrower than epsilon (changed_gaps, as in C64 and C65), back_bounds *)
Theorem C72_inside_partial : forall ke a n out net o v Ds c m meth mode fi fa z,
  net_facts ke n out net o v -> clone_flags (ca_method a) (ca_ibp a) (ca_affine a) = Ok (meth, mode, (fi, fa)) -> final_some fi fa ->
  clone ke a n out net o = Ok c -> wset_domains Ds c = Ok m ->
  norm_ok (args_domain a) -> norm_ok (wm_domain m) -> inside (wm_domain m) (args_domain a) n -> (mode = IBP \/ exists y, in_dom (wm_domain m) n z y) ->
  clone_fits (args_domain a) meth mode (get_mode fi fa) (ca_fwd a) (ca_bwd a) net ->
  changed_gaps ke (wm_domain m) (args_domain a) meth mode (ca_fwd a) (ca_bwd a) n net z ->
  exists ts, wmode m = Some (get_mode fi fa) /\ wm_predict m (wm_domain m) z None = Ok ts /\
    valid (wm_domain m) (get_mode fi fa) false (in_dom (wm_domain m) n z) n (prodn out) (v o) ts.
Proof. exact changed_inside. Qed.
Print Assumptions C72_inside_partial.

(** get_range_noise on a DecomonModel, radius at most the one of the conversion *)
Theorem C72_noise_partial : forall ke a n out net o v x eps0 eps p bs,
  net_facts ke n out net o v -> 0 <= eps <= eps0 -> known_norm p -> points_ok n x -> noise_fits ke a n net eps0 eps p (fun q => exists b, (b < alen x)%nat /\ q = point x b) ->
  exists c u l, clone ke a n out net o = Ok c /\ get_range_noise (Decomon c) x eps p bs = Ok (u, l) /\ alen u = alen x /\ alen l = alen x /\
    forall b j y, (b < alen x)%nat -> (j < prodn out)%nat -> in_ball n p eps (lvec (point x b)) y -> cell l b j <= v o y j <= cell u b j.
Proof. exact noise_smaller. Qed.
Print Assumptions C72_noise_partial.

(** networks whose layers ask for no condition *)
Theorem C72_noise_free : forall ke a n out net o v x eps0 eps p bs m mode fi fa,
  net_facts ke n out net o v -> 0 <= eps <= eps0 -> known_norm p -> points_ok n x -> args_domain a = Ball eps0 p ->
  clone_flags (ca_method a) (ca_ibp a) (ca_affine a) = Ok (m, mode, (fi, fa)) -> final_some fi fa -> clone_fits (Ball eps0 p) m mode (get_mode fi fa) (ca_fwd a) (ca_bwd a) net ->
  all_nl_free (ca_fwd a) net -> all_free net ->
  exists c u l, clone ke a n out net o = Ok c /\ get_range_noise (Decomon c) x eps p bs = Ok (u, l) /\ alen u = alen x /\ alen l = alen x /\
    forall b j y, (b < alen x)%nat -> (j < prodn out)%nat -> in_ball n p eps (lvec (point x b)) y -> cell l b j <= v o y j <= cell u b j.
Proof. exact noise_smaller_free. Qed.
Print Assumptions C72_noise_free.

(** forward-ibp, every network *)
Theorem C72_noise_ibp : forall ke fwd n out net o v x eps0 eps p bs,
  net_facts ke n out net o v -> 0 <= eps <= eps0 -> known_norm p -> points_ok n x -> layers_ok IBP fwd net ->
  exists c u l, clone ke (ibp_args (Some (Ball eps0 p)) fwd) n out net o = Ok c /\ get_range_noise (Decomon c) x eps p bs = Ok (u, l) /\ alen u = alen x /\ alen l = alen x /\
    forall b j y, (b < alen x)%nat -> (j < prodn out)%nat -> in_ball n p eps (lvec (point x b)) y -> cell l b j <= v o y j <= cell u b j.
Proof. exact noise_smaller_ibp. Qed.
Print Assumptions C72_noise_ibp.

(** affine mode: every radius. Missing: as C72_inside_partial, for the new conversion (ball_ready) *)
Theorem C72_noise_affine_partial : forall ke a n out net o v x eps0 p0 eps p bs meth,
  net_facts ke n out net o v -> 0 <= eps -> known_norm p -> points_ok n x ->
  clone_flags (ca_method a) (ca_ibp a) (ca_affine a) = Ok (meth, AFFINE, (false, true)) -> slow_pools (ca_fwd a) net -> args_domain a = Ball eps0 p0 ->
  ball_ready ke (on_domain a (Ball eps p)) n net eps p (fun q => exists b, (b < alen x)%nat /\ q = point x b) ->
  exists c u l, clone ke a n out net o = Ok c /\ get_range_noise (Decomon c) x eps p bs = Ok (u, l) /\ alen u = alen x /\ alen l = alen x /\
    forall b j y, (b < alen x)%nat -> (j < prodn out)%nat -> in_ball n p eps (lvec (point x b)) y -> cell l b j <= v o y j <= cell u b j.
Proof. exact noise_affine. Qed.
Print Assumptions C72_noise_affine_partial.

(** a radius larger than the one of the conversion: the upper bound is below a value of the network *)
Theorem C72_noise_ibp_refuted : forall ke, 0 < ke -> noise_wrong (ibp_args (Some (Ball 1 Pinf)) plain_opts) same_net ke.
Proof. exact noise_ibp_refuted. Qed.
Print Assumptions C72_noise_ibp_refuted.

Theorem C72_noise_hybrid_refuted : forall ke, 0 < ke -> noise_wrong (hybrid_args (Ball 1 Pinf)) same_net ke.
Proof. exact noise_hybrid_refuted. Qed.
Print Assumptions C72_noise_hybrid_refuted.

Theorem C72_noise_final_refuted : forall ke, 0 < ke -> noise_wrong (final_args (Ball 1 Pinf)) same_net ke.
Proof. exact noise_final_refuted. Qed.
Print Assumptions C72_noise_final_refuted.

(** affine mode with fast pooling *)
Theorem C72_noise_fast_refuted : forall ke, 0 < ke -> noise_wrong (fast_args (Ball 1 Pinf)) pool_net ke.
Proof. exact noise_fast_refuted. Qed.
Print Assumptions C72_noise_fast_refuted.

Example C72_example_affine : forall ke k1 k2, exists c m,
  clone_flags (ca_method (affine_args (Ball 1 Pinf))) None None = Ok (CROWN_FORWARD_AFFINE, AFFINE, (false, true)) /\ slow_pools (ca_fwd (affine_args (Ball 1 Pinf))) (dd_net 2 k1 k2) /\
  clone ke (affine_args (Ball 1 Pinf)) 2 [2%nat] (dd_net 2 k1 k2) 2 = Ok c /\ wset_domains [Ball 3 Pinf; Ball (1 / 2) Pinf] c = Ok m /\ wm_domain m = Ball (1 / 2) Pinf /\ wset_domains [Box] c = Err NotImplementedError.
Proof. exact ex_affine. Qed.

Example C72_example_any_radius : forall ke k1 k2 eps p P, 0 < ke -> 0 <= eps ->
  net_facts ke 2 [2%nat] (dd_net 2 k1 k2) 2 (net_fn (dd_net 2 k1 k2)) /\ args_domain (affine_args (Ball 1 Pinf)) = Ball 1 Pinf /\
  ball_ready ke (on_domain (affine_args (Ball 1 Pinf)) (Ball eps p)) 2 (dd_net 2 k1 k2) eps p P.
Proof. exact ex_any_radius. Qed.

Example C72_example_smaller : forall ke k1 k2 eps0 eps p, 0 < ke -> 0 <= eps <= eps0 -> exists a,
  net_facts ke 2 [2%nat] (dd_net 2 k1 k2) 2 (net_fn (dd_net 2 k1 k2)) /\ points_ok 2 two_points /\
  noise_fits ke a 2 (dd_net 2 k1 k2) eps0 eps p (fun q => exists b, (b < alen two_points)%nat /\ q = point two_points b).
Proof. exact ex_smaller. Qed.

