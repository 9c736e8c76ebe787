(** C72: networks without condition, cases and counterexamples *)
From Coq Require Import String Reals List Arith Bool ZArith Lra Lia.
From Verif Require Import RLib Spec Spec_Domain Spec_Layers Spec_Backward Spec_Convert Spec_Network Spec_Wrapper M_Core M_State M_MergeLayers M_Pool M_Backward M_Crown M_Convert M_Network M_Domain M_Wrapper M_Clone.
From Verif Require Import P_Core P_BackwardMore P_Graph P_Crown P_Convert P_Network P_NetworkSpec P_NetworkCrown P_NetworkThm P_NetworkExact P_NetworkForward P_NetworkExactThm P_StateDomain P_Domain P_Wrapper P_WrapperNoise P_Clone P_CloneThm P_DomainClone.
From Verif Require Import Spec_Network.
Import ListNotations.
Local Open Scope R_scope.

(** layers without condition *)
Definition all_nl_free (fwd : nat -> lopts) (net : network) : Prop := forall i L ps, nth_error net i = Some (Some L, ps) -> nl_free (lo_fast (fwd i)) L.
Lemma free_changed : forall ke Da Ds m mode fwd bwd n net z, all_nl_free fwd net -> all_free net -> changed_gaps ke Da Ds m mode fwd bwd n net z.
Proof.
  intros ke Da Ds m mode fwd bwd n net z F B.
  assert (F' : forward_gaps2 ke Da Ds mode fwd n net z) by (intros its i L ps vs _ En _; apply nl_free_domains; exact (F i L ps En)).
  assert (B' : forall om, backward_gaps2 ke Da Ds mode om bwd n net z) by (intros om its m' i L ps imap ts _ _ En g _ _; apply bl_free_gaps; exact (B i L ps En)).
  destruct m; cbn [changed_gaps]; auto.
Qed.

Theorem noise_smaller_free : forall ke a n out net o v x eps0 eps p bs m mode fi fa,
  net_facts ke n out net o v -> 0 <= eps <= eps0 -> known_norm p -> points_ok n x -> args_domain a = Ball eps0 p ->
  clone_flags (ca_method a) (ca_ibp a) (ca_affine a) = Ok (m, mode, (fi, fa)) -> final_some fi fa -> clone_fits (Ball eps0 p) m mode (get_mode fi fa) (ca_fwd a) (ca_bwd a) net ->
  all_nl_free (ca_fwd a) net -> all_free net ->
  exists c u l, clone ke a n out net o = Ok c /\ get_range_noise (Decomon c) x eps p bs = Ok (u, l) /\ alen u = alen x /\ alen l = alen x /\
    forall b j y, (b < alen x)%nat -> (j < prodn out)%nat -> in_ball n p eps (lvec (point x b)) y -> cell l b j <= v o y j <= cell u b j.
Proof.
  intros ke a n out net o v x eps0 eps p bs m mode fi fa NF He Hp PO HD Hfl Hfs Hfit F B. apply (noise_smaller ke a n out net o v x eps0 eps p bs NF He Hp PO).
  exists m, mode, fi, fa. split; [exact HD|]. split; [exact Hfl|]. split; [exact Hfs|]. split; [exact Hfit|]. intros q _. apply free_changed; assumption.
Qed.

(** forward-ibp: no condition *)
Theorem noise_smaller_ibp : forall ke fwd n out net o v x eps0 eps p bs,
  net_facts ke n out net o v -> 0 <= eps <= eps0 -> known_norm p -> points_ok n x -> layers_ok IBP fwd net ->
  exists c u l, clone ke (ibp_args (Some (Ball eps0 p)) fwd) n out net o = Ok c /\ get_range_noise (Decomon c) x eps p bs = Ok (u, l) /\ alen u = alen x /\ alen l = alen x /\
    forall b j y, (b < alen x)%nat -> (j < prodn out)%nat -> in_ball n p eps (lvec (point x b)) y -> cell l b j <= v o y j <= cell u b j.
Proof.
  intros ke fwd n out net o v x eps0 eps p bs NF He Hp PO HL. apply (noise_smaller ke (ibp_args (Some (Ball eps0 p)) fwd) n out net o v x eps0 eps p bs NF He Hp PO).
  exists FORWARD_IBP, IBP, true, false. split; [reflexivity|]. split; [reflexivity|]. split; [reflexivity|]. split; [split; auto|].
  intros q _ its i L ps vs _ _ _. apply nl_ibp_domains.
Qed.

(** ** cases *)
Definition affine_args (D : domain) : clone_args := mk_args (Some D) "crown-forward-affine" None None plain_opts plain_bopts.
Lemma dd_facts' : forall ke n k1 k2, 0 < ke -> (0 < n)%nat -> net_facts ke n [n] (dd_net n k1 k2) 2 (net_fn (dd_net n k1 k2)).
Proof. intros ke n k1 k2 Hke Hn. apply (proj1 (dd_facts ke n k1 k2 1 Pinf (fun _ => True) Hke Hn ltac:(lra))). Qed.
Lemma dd_flayers : forall mode n k1 k2, layers_ok mode plain_opts (dd_net n k1 k2) <-> layers_ok HYBRID plain_opts (dd_net n k1 k2).
Proof. intros mode n k1 k2. split; intros H i L ps E; specialize (H i L ps E); unfold dd_net in E; each_node E; exact H. Qed.

(** a network of two Dense layers, converted with crown-forward-affine on a ball of radius 1, then 3, then 1/2 *)
Lemma ex_affine : forall ke k1 k2, exists c m,
  clone_flags (ca_method (affine_args (Ball 1 Pinf))) None None = Ok (CROWN_FORWARD_AFFINE, AFFINE, (false, true)) /\ slow_pools (ca_fwd (affine_args (Ball 1 Pinf))) (dd_net 2 k1 k2) /\
  clone ke (affine_args (Ball 1 Pinf)) 2 [2%nat] (dd_net 2 k1 k2) 2 = Ok c /\ wset_domains [Ball 3 Pinf; Ball (1 / 2) Pinf] c = Ok m /\ wm_domain m = Ball (1 / 2) Pinf /\ wset_domains [Box] c = Err NotImplementedError.
Proof.
  intros ke k1 k2. do 2 eexists. split; [reflexivity|]. split; [intros i g ps E; unfold dd_net in E; each_node E|]. split; [reflexivity|]. split; [reflexivity|]. split; reflexivity.
Qed.
(** one input, two samples *)
Definition two_points : arr R := mk_arr [2%nat] [[0; 1]; [2; -1]].
Lemma two_points_ok : points_ok 2 two_points.
Proof. split; [lia|]. split; [repeat constructor|cbn; lia]. Qed.
Lemma ex_smaller : forall ke k1 k2 eps0 eps p, 0 < ke -> 0 <= eps <= eps0 -> exists a,
  net_facts ke 2 [2%nat] (dd_net 2 k1 k2) 2 (net_fn (dd_net 2 k1 k2)) /\ points_ok 2 two_points /\
  noise_fits ke a 2 (dd_net 2 k1 k2) eps0 eps p (fun q => exists b, (b < alen two_points)%nat /\ q = point two_points b).
Proof.
  intros ke k1 k2 eps0 eps p Hke He. exists (noise_call eps0 p). split; [apply dd_facts'; [exact Hke|lia]|]. split; [exact two_points_ok|].
  exists CROWN_FORWARD_HYBRID, HYBRID, true, true. split; [cbn; rewrite Rmax_right by lra; reflexivity|]. split; [reflexivity|]. split; [reflexivity|].
  assert (B : blayers_ok plain_bopts (dd_net 2 k1 k2)) by (apply dd_layers; lia).
  split; [split; [discriminate|split; [exact B|]]|].
  - intros i L ps E. unfold dd_net in E. each_node E; cbn; auto.
  - intros q _. apply free_changed; intros i L ps E; unfold dd_net in E; each_node E; exact I.
Qed.

Lemma ex_any_radius : forall ke k1 k2 eps p P, 0 < ke -> 0 <= eps ->
  net_facts ke 2 [2%nat] (dd_net 2 k1 k2) 2 (net_fn (dd_net 2 k1 k2)) /\ args_domain (affine_args (Ball 1 Pinf)) = Ball 1 Pinf /\
  ball_ready ke (on_domain (affine_args (Ball 1 Pinf)) (Ball eps p)) 2 (dd_net 2 k1 k2) eps p P.
Proof.
  intros ke k1 k2 eps p P Hke He. split; [apply dd_facts'; [exact Hke|lia]|]. split; [reflexivity|].
  exists CROWN_FORWARD_AFFINE, AFFINE, false, true. split; [reflexivity|]. split; [reflexivity|]. split; [reflexivity|].
  split; [split; [discriminate|split; [apply dd_layers; lia|]]|].
  - intros i L ps E. unfold dd_net in E. each_node E; cbn; auto.
  - intros q _. split.
    + intros its i L ps vs _ E _. apply nl_free_gaps. unfold dd_net in E. each_node E; exact I.
    + intros its m i L ps imap ts _ _ E g _ _. apply bl_free_gaps. unfold dd_net in E. each_node E; exact I.
Qed.

(** ** a larger radius *)
Definition same_net : network := [(None, []); (Some (NReshape 1), [0%nat])].
Definition same_value (i : nat) (y : vec) : vec := y.
Lemma same_facts : forall ke, 0 < ke -> net_facts ke 1 [1%nat] same_net 1 same_value.
Proof.
  intros ke Hke. split; [exact Hke|]. split; [lia|]. split; [|split; [|split]].
  - intros i o ps E. unfold same_net in E. each_node E; (split; [intros p Hp; cbn in Hp; lia|]); try reflexivity; (split; [discriminate|reflexivity]).
  - intros y i o ps E. unfold same_net in E. each_node E; unfold same_value; cbn; auto.
  - split; [cbn; lia|]. intros j Hj. cbn in Hj. destruct j as [|[|]]; [step 1%nat; constructor|constructor|lia].
  - reflexivity.
Qed.
Definition origin : arr R := mk_arr [1%nat] [[0]].

(** get_range_noise with radius 2 on a DecomonModel converted with radius 1 *)
Definition noise_wrong (a : clone_args) (net : network) (ke : R) : Prop := exists c u l y,
  args_domain a = Ball 1 Pinf /\ net_facts ke 1 [1%nat] net 1 same_value /\ points_ok 1 origin /\
  clone ke a 1 [1%nat] net 1 = Ok c /\ get_range_noise (Decomon c) origin 2 Pinf (-1) = Ok (u, l) /\ in_ball 1 Pinf 2 (lvec (point origin 0)) y /\ cell u 0 0 < same_value 1 y 0%nat.

Lemma two_in : in_ball 1 Pinf 2 (lvec (point origin 0)) (fun _ => 2).
Proof. intros i Hi. replace i with 0%nat by lia. cbn. rewrite Rabs_right; lra. Qed.
Ltac wrong := intros ke Hke; do 2 eexists; eexists; exists (fun _ => 2); split; [reflexivity|]; split; [apply same_facts; exact Hke|]; split; [split; [lia|split; [repeat constructor|cbn; lia]]|]; split; [reflexivity|].
Lemma noise_ibp_refuted : forall ke, 0 < ke -> noise_wrong (ibp_args (Some (Ball 1 Pinf)) plain_opts) same_net ke.
Proof.
  wrong. split.
  - unfold get_range_noise, noise_model. destruct (Rle_dec 0 2) as [_|N]; [|exfalso; lra]. cbv -[Rmax Rmin Rplus Rmult Rminus Ropp IZR Rlt Rle Rdiv Rinv Rabs Req_EM_T]. reflexivity.
  - split; [exact two_in|]. cbv -[Rmax Rmin Rplus Rmult Rminus Ropp IZR Rlt Rle Rdiv Rinv Rabs Req_EM_T]. lra.
Qed.

Definition hybrid_args (D : domain) : clone_args := mk_args (Some D) "crown-forward-hybrid" None None plain_opts plain_bopts.
Lemma noise_hybrid_refuted : forall ke, 0 < ke -> noise_wrong (hybrid_args (Ball 1 Pinf)) same_net ke.
Proof.
  wrong. split.
  - unfold get_range_noise, noise_model. destruct (Rle_dec 0 2) as [_|N]; [|exfalso; lra]. cbv -[Rmax Rmin Rplus Rmult Rminus Ropp IZR Rlt Rle Rdiv Rinv Rabs Req_EM_T]. reflexivity.
  - split; [exact two_in|]. cbv -[Rmax Rmin Rplus Rmult Rminus Ropp IZR Rlt Rle Rdiv Rinv Rabs Req_EM_T]. eapply Rle_lt_trans; [apply Rmin_l|]. rminmax; lra.
Qed.
(** crown-forward-affine, with constant bounds only at the output *)
Definition final_args (D : domain) : clone_args := mk_args (Some D) "crown-forward-affine" (Some true) (Some false) plain_opts plain_bopts.
Lemma noise_final_refuted : forall ke, 0 < ke -> noise_wrong (final_args (Ball 1 Pinf)) same_net ke.
Proof.
  wrong. split.
  - unfold get_range_noise, noise_model. destruct (Rle_dec 0 2) as [_|N]; [|exfalso; lra]. cbv -[Rmax Rmin Rplus Rmult Rminus Ropp IZR Rlt Rle Rdiv Rinv Rabs Req_EM_T]. reflexivity.
  - split; [exact two_in|]. cbv -[Rmax Rmin Rplus Rmult Rminus Ropp IZR Rlt Rle Rdiv Rinv Rabs Req_EM_T]. rminmax; lra.
Qed.

(** forward-affine, with the fast approximation of the pooling layers, the default *)
Definition one_pool : conv_geo := mk_geo true (mk_win 1 1 1 1 false) (mk_win 1 1 1 1 false) 1 1.
Definition pool_net : network := [(None, []); (Some (NMaxPool one_pool), [0%nat])].
Definition fast_args (D : domain) : clone_args := mk_args (Some D) "forward-affine" None None (fun _ => mk_opts V_SLOPE None true) plain_bopts.
Lemma pool_facts : forall ke, 0 < ke -> net_facts ke 1 [1%nat] pool_net 1 same_value.
Proof.
  intros ke Hke. split; [exact Hke|]. split; [lia|]. split; [|split; [|split]].
  - intros i o ps E. unfold pool_net in E. each_node E; (split; [intros p Hp; cbn in Hp; lia|]); try reflexivity; (split; [discriminate|reflexivity]).
  - intros y i o ps E. unfold pool_net in E. each_node E; unfold same_value; [reflexivity|]. intros j Hj. cbn in Hj. replace j with 0%nat by lia. reflexivity.
  - split; [cbn; lia|]. intros j Hj. cbn in Hj. destruct j as [|[|]]; [step 1%nat; constructor|constructor|lia].
  - reflexivity.
Qed.
Lemma noise_fast_refuted : forall ke, 0 < ke -> noise_wrong (fast_args (Ball 1 Pinf)) pool_net ke.
Proof.
  intros ke Hke; do 2 eexists; eexists; exists (fun _ => 2); split; [reflexivity|]; split; [apply pool_facts; exact Hke|]; split; [split; [lia|split; [repeat constructor|cbn; lia]]|]; split; [reflexivity|]. split.
  - unfold get_range_noise, noise_model. destruct (Rle_dec 0 2) as [_|N]; [|exfalso; lra]. cbv -[Rmax Rmin Rplus Rmult Rminus Ropp IZR Rlt Rle Rdiv Rinv Rabs Req_EM_T]. reflexivity.
  - split; [exact two_in|]. cbv -[Rmax Rmin Rplus Rmult Rminus Ropp IZR Rlt Rle Rdiv Rinv Rabs Req_EM_T]. rewrite ?Rmult_0_l, ?Rmult_0_r, ?Rabs_R0. rminmax; lra.
Qed.
