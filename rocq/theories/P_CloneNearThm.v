(** Enclosure up to a multiple of epsilon by the backward methods: constants, tightness and examples. *)
From Coq Require Import String Reals Lra Lia Psatz List Arith Bool ZArith.
From Verif Require Import RLib Spec Spec_Layers Spec_Backward Spec_Convert Spec_Near Spec_Network Spec_Wrapper M_Core M_State M_Utils M_Ops M_Backward M_Crown M_Convert M_Network M_Wrapper M_Clone.
From Verif Require Import P_Core P_BackwardMore P_Graph P_Crown P_Convert P_Network P_NetworkSpec P_NetworkCrown P_NetworkThm P_Near P_NearThm P_NearCrown P_Domain P_Wrapper P_WrapperAdv P_WrapperRefine P_WrapperAdvBox P_Clone P_CloneThm P_CloneNear.
From Verif Require Import Spec_Network.
Import ListNotations.
Local Open Scope R_scope.

Lemma net_crown_near_constants : forall ke D n mode z ids bo net v o,
  0 < ke -> (0 < n)%nat -> norm_ok D -> (mode = IBP -> D = Box) -> net_ok n net -> net_value net v -> blayers_ok bo net -> single_output net o ->
  length ids = length net -> NoDup ids -> all_piecewise net ->
  exists u l, clone_backward D n mode IBP None ids (backward_net ke (mk_spec false mode D n) bo n net) [o] None z = Ok [u; l] /\
    forall y j, in_dom D n z y -> (j < net_dim n net o)%nat -> l 0%nat j - net_slack net * ke <= v o y j <= u 0%nat j + net_slack net * ke.
Proof.
  intros ke D n mode z ids bo net v o Hke Hn HD Hm Hnet Hval Hlay Ho Hi Hd Hpw.
  destruct (net_clone_crown_near ke D n mode IBP z ids bo net v o Hke Hn HD Hm Hnet Hval Hlay Ho Hi Hd Hpw) as (ts & E & V).
  destruct ts as [|u [|l [|]]]; try contradiction. exists u, l. split; [exact E|exact V].
Qed.

(** the factor depends on the weights: crown is off by c epsilon / 8 on relu followed by a Dense layer of weight c *)
Lemma gain_crown_off : forall ke c, 0 < ke -> 0 < c -> exists u l y,
  clone_backward Box 1 IBP IBP None [0%nat; 1%nat; 2%nat] (backward_net ke (mk_spec false IBP Box 1) plain_bopts 1 (gain_net c)) [2%nat] None (small_box ke) = Ok [u; l] /\
  in_dom Box 1 (small_box ke) y /\ u 0%nat 0%nat + c / 8 * ke = gain_value c 2 y 0%nat.
Proof.
  intros ke c Hke Hc. eexists. eexists. exists (fun _ => ke / 4). split.
  - cbv -[Rmax Rmin Rplus Rmult Rminus Ropp IZR Rlt Rle Rdiv Rinv Req_EM_T]. try (destruct (Req_EM_T 0 0) as [_|N]; [|congruence]). reflexivity.
  - split; [intros i Hi; cbn; lra|]. cbv -[Rmax Rmin Rplus Rmult Rminus Ropp IZR Rlt Rle Rdiv Rinv].
    replace (0 + (Rmax 1 0 * - (ke / 4) + Rmin 1 0 * (ke / 4)) + 0) with (- (ke / 4)) by (rminmax; lra).
    replace (0 + (Rmax 1 0 * (ke / 4) + Rmin 1 0 * - (ke / 4)) + 0) with (ke / 4) by (rminmax; lra).
    replace (Rmax ke (ke / 4 - - (ke / 4))) with ke by (rminmax; lra).
    replace (Rmax (ke / 4) 0) with (ke / 4) by (rminmax; lra).
    replace (Rmax (- (ke / 4)) 0) with 0 by (rminmax; lra).
    replace ((ke / 4 - 0) / ke) with (1 / 4) by (field; lra).
    repeat match goal with |- context [Rlt_dec ?a ?b] => destruct (Rlt_dec a b); try (exfalso; lra) end.
    repeat match goal with
      | |- context [Rmax ?a ?b] => (rewrite (Rmax_left a b) by nra) || (rewrite (Rmax_right a b) by nra)
      | |- context [Rmin ?a ?b] => (rewrite (Rmin_left a b) by nra) || (rewrite (Rmin_right a b) by nra) end.
    lra.
Qed.

Lemma crown_slack_unbounded : forall ke K, 0 < ke -> exists net v o ids u l y,
  net_ok 1 net /\ net_value net v /\ single_output net o /\ all_piecewise net /\ blayers_ok plain_bopts net /\
  clone_backward Box 1 IBP IBP None ids (backward_net ke (mk_spec false IBP Box 1) plain_bopts 1 net) [o] None (small_box ke) = Ok [u; l] /\
  in_dom Box 1 (small_box ke) y /\ u 0%nat 0%nat + K * ke < v o y 0%nat.
Proof.
  intros ke K Hke. set (c := 8 * (Rmax K 0 + 1)). assert (Hc : 0 < c) by (unfold c; pose proof (Rmax_r K 0); lra).
  destruct (gain_crown_off ke c Hke Hc) as (u & l & y & E & Hy & Q). destruct (gain_net_ok c) as (H1 & H2 & H3 & H4).
  exists (gain_net c), (gain_value c), 2%nat, [0%nat; 1%nat; 2%nat], u, l, y. repeat (split; [assumption|]).
  split; [intros i L ps En; unfold gain_net in En; each_node En; cbn; auto|]. split; [exact E|]. split; [exact Hy|]. rewrite <- Q.
  assert (K < c / 8) by (unfold c; pose proof (Rmax_l K 0); lra). nra.
Qed.

(** one relu *)
Lemma relu_crown_near : forall ke z, 0 < ke -> exists u l,
  clone_backward Box 1 IBP IBP None [0%nat; 1%nat] (backward_net ke (mk_spec false IBP Box 1) plain_bopts 1 relu_net) [1%nat] None z = Ok [u; l] /\
  forall y, in_dom Box 1 z y -> l 0%nat 0%nat - 2 * ke <= Rmax (y 0%nat) 0 <= u 0%nat 0%nat + 2 * ke.
Proof.
  intros ke z Hke. destruct relu_net_ok as (H1 & H2 & H3).
  destruct (net_crown_near_constants ke Box 1 IBP z [0%nat; 1%nat] plain_bopts relu_net relu_value 1 Hke ltac:(lia) I (fun _ => eq_refl) H1 H2) as (u & l & E & H); auto.
  - intros i L ps E. unfold relu_net in E. each_node E; cbn; auto.
  - repeat constructor; cbn; intuition lia.
  - intros i L ps E. unfold relu_net in E. each_node E; cbn; auto.
  - exists u, l. split; [exact E|]. intros y Hy. specialize (H y 0%nat Hy ltac:(cbn; lia)). cbn [relu_value] in H.
    replace (net_slack relu_net) with 2 in H; [exact H|]. unfold net_slack, relu_net. cbn. rewrite Rmax_right by lra. ring.
Qed.

(** ** Dense, relu, Dense: every size and every weight *)
Definition mlp_net (n h k : nat) (k1 : mat) (b1 : vec) (k2 : mat) (b2 : vec) : network :=
  [(None, []); (Some (NDense 1 n h k1 (Some b1)), [0%nat]); (Some (NActivation Arelu h), [1%nat]); (Some (NDense 1 h k k2 (Some b2)), [2%nat])].

Lemma mlp_facts : forall ke n h k k1 b1 k2 b2, 0 < ke -> (0 < n)%nat -> (0 < h)%nat -> (0 < k)%nat -> let net := mlp_net n h k k1 b1 k2 b2 in
  net_facts ke n [k] net 3 (net_fn net) /\ blayers_ok plain_bopts net /\ layers_ok HYBRID plain_opts net /\ all_piecewise net.
Proof.
  intros ke n h k k1 b1 k2 b2 Hke Hn Hh Hk net.
  assert (HB : blayers_ok plain_bopts net) by (intros i L ps E; unfold net, mlp_net in E; each_node E; cbn; auto).
  assert (HN : net_ok n net).
  { intros i o ps E. unfold net, mlp_net in E. each_node E; (split; [intros p Hp; cbn in Hp; lia|]); try reflexivity;
    (split; [discriminate|]); cbn [map net_dim net mlp_net nth_error nl_out nl_in]; f_equal; lia. }
  split; [|split; [exact HB|split]].
  - split; [exact Hke|]. split; [exact Hn|]. split; [exact HN|]. split; [|split].
    + apply (net_value_exists n); [exact HN|]. intros i L ps E. exists AFFINE, true. apply bl_nl_ok. exact (proj1 (HB i L ps E)).
    + split; [cbn; lia|]. intros j Hj. cbn in Hj.
      destruct j as [|[|[|[|]]]]; [step 1%nat; step 2%nat; step 3%nat; constructor|step 2%nat; step 3%nat; constructor|step 3%nat; constructor|constructor|lia].
    + cbn. lia.
  - intros i L ps E. unfold net, mlp_net in E. each_node E; cbn; auto.
  - intros i L ps E. unfold net, mlp_net in E. each_node E; cbn; auto.
Qed.

(** the default certificate of the network that refutes C67, with its margin: the score is negative and not below it *)
Lemma cert_margin : forall ke, 0 < ke -> net_slack (cert_net ke) = 3 /\ blayers_ok plain_bopts (cert_net ke) /\ all_piecewise (cert_net ke).
Proof.
  intros ke Hke. split; [|split; intros i L ps E; unfold cert_net in E; each_node E; cbn; auto].
  unfold net_slack, cert_net. cbn. rewrite (Rmax_right 1 2) by lra. unfold cert_kernel. cbn [Nat.eqb]. rewrite Rabs_R1, Rabs_R0. rewrite Rmax_left by lra. ring.
Qed.

(** (relu y, 7 epsilon): the default call on the same box gives a score below the margin, so the theorem concludes *)
Definition safe_net (ke : R) : network :=
  [(None, []); (Some (NActivation Arelu 1), [0%nat]); (Some (NDense 1 1 2 cert_kernel (Some (fun u => if Nat.eqb u 0 then 0 else 7 * ke))), [1%nat])].
Definition safe_value (ke : R) (i : nat) (y : vec) : vec :=
  match i with O => y | 1%nat => fun _ => Rmax (y 0%nat) 0 | _ => fun u => if Nat.eqb u 0 then Rmax (y 0%nat) 0 else 7 * ke end.

Lemma safe_facts : forall ke, 0 < ke -> net_facts ke 1 [2%nat] (safe_net ke) 2 (safe_value ke).
Proof.
  intros ke Hke. split; [exact Hke|]. split; [lia|]. split; [|split; [|split]].
  - intros i o ps E. unfold safe_net in E. each_node E; (split; [intros p Hp; cbn in Hp; lia|]); try reflexivity; (split; [discriminate|reflexivity]).
  - intros y i o ps E. unfold safe_net in E. each_node E; cbn [safe_value].
    + reflexivity.
    + intros j Hj. replace j with O by lia. reflexivity.
    + intros p u Hp Hu. replace p with O by lia. unfold cert_kernel, opt_vec. cbn [Nat.mul Nat.add]. destruct u as [|[|]]; [| |lia]; cbn [Nat.eqb]; unfold rsum; cbn; lra.
  - split; [cbn; lia|]. intros j Hj. cbn in Hj. destruct j as [|[|[|]]]; [step 1%nat; step 2%nat; constructor|step 2%nat; constructor|constructor|lia].
  - reflexivity.
Qed.

Lemma safe_run : forall ke, 0 < ke -> exists u l,
  converted ke Box CROWN IBP IBP plain_opts plain_bopts 1 (safe_net ke) 2 (ztensor (the_box (kink_lo ke) (kink_hi ke) 0)) = Ok [u; l] /\
  u 0%nat 0%nat = ke / 8 /\ l 0%nat 1%nat = 7 * ke /\ l 0%nat 0%nat <= u 0%nat 0%nat /\ l 0%nat 1%nat <= u 0%nat 1%nat.
Proof.
  intros ke Hke. eexists. eexists. split.
  - cbv -[Rmax Rmin Rplus Rmult Rminus Ropp IZR Rlt Rle Rdiv Rinv Req_EM_T]. destruct (Req_EM_T 0 0) as [_|N]; [|congruence]. reflexivity.
  - cbv -[Rmax Rmin Rplus Rmult Rminus Ropp IZR Rlt Rle Rdiv Rinv]. cert_relu ke.
Qed.

Theorem safe_score : forall ke, 0 < ke -> exists c r,
  let lo := kink_lo ke in let hi := kink_hi ke in
  net_facts ke 1 [2%nat] (safe_net ke) 2 (safe_value ke) /\ blayers_ok plain_bopts (safe_net ke) /\ all_piecewise (safe_net ke) /\
  boxes_ok 1 lo hi /\ consistent 1 lo hi /\ mask_ok 1 2 second_class /\
  clone ke default_args 1 [2%nat] (safe_net ke) 2 = Ok c /\ get_adv_box (Keras c) lo hi (LArr second_class) None (-1) 1 = Ok r /\
  nth 0 r 0 < - (2 * (net_slack (safe_net ke) * ke)) /\
  forall y, in_sample 1 (the_box lo hi 0) y -> no_attack 2 (pair_of second_class None 0) (safe_value ke 2) y.
Proof.
  intros ke Hke.
  pose proof (clone_value ke default_args 1 [2%nat] (safe_net ke) 2 CROWN IBP true false eq_refl) as E. cbn [args_domain default_args ca_domain ca_fwd ca_bwd get_mode] in E.
  set (c := mk_wmodel _ _ _ _ _ _ _) in E. set (lo := kink_lo ke). set (hi := kink_hi ke).
  assert (BO : boxes_ok 1 lo hi) by (repeat split; try (cbn; lia); repeat constructor).
  assert (C : consistent 1 lo hi) by (intros [|b] [|i] Hb Hi; cbn in *; try lia; lra).
  assert (MO : mask_ok 1 2 second_class) by (split; [reflexivity|]; split; [repeat constructor|]; intros [|b] [|[|j]] Hb Hj; cbn in *; try lia; auto).
  destruct (safe_run ke Hke) as (u & l & Er & U0 & L1 & O0 & O1).
  assert (Ep : wm_predict c Box (ztensor (the_box lo hi 0)) None = Ok [u; l]) by exact Er.
  set (f := fun (_ : vec) j => l 0%nat j).
  assert (SO : forall b, (b < alen lo)%nat -> sound_on c f (the_box lo hi b)).
  { intros b Hb. replace b with O by (cbn in Hb; lia). exists IBP, [u; l], false. split; [reflexivity|]. split; [exact Ep|]. split; [reflexivity|].
    intros z j _ Hj. change (wm_k c) with 2%nat in Hj. unfold f. destruct j as [|[|j]]; [| |lia]; lra. }
  destruct (adv_box_score (Keras c) f lo hi second_class None (-1) 1) as (r & Ea & _ & H).
  { unfold adv_args. cbn [the_model]. repeat split; auto; try (cbn; lia); try apply BO; apply MO. }
  { reflexivity. } { unfold small; lia. } { exact SO. }
  assert (Hp : pair_of second_class None 0 0 1) by (split; reflexivity).
  specialize (H 0%nat IBP [u; l] ltac:(cbn; lia) eq_refl Ep). destruct H as [_ (t & s & Ht & Hs & (Q1 & Q2) & Hv)].
  { exists 0%nat, 1%nat. split; [cbn; lia|]. split; [cbn; lia|]. exact Hp. }
  change (wm_k (the_model (Keras c))) with 2%nat in Ht, Hs.
  assert (t = 0%nat) by (destruct t as [|[|t]]; [reflexivity|discriminate Q2|lia]). assert (s = 1%nat) by (destruct s as [|[|s]]; [discriminate Q1|reflexivity|lia]). subst t s.
  assert (HB : blayers_ok plain_bopts (safe_net ke)) by (intros i L ps En; unfold safe_net in En; each_node En; cbn; auto).
  assert (HP : all_piecewise (safe_net ke)) by (intros i L ps En; unfold safe_net in En; each_node En; cbn; auto).
  assert (SL : net_slack (safe_net ke) = 3).
  { unfold net_slack, safe_net. cbn. rewrite (Rmax_right 1 2) by lra. unfold cert_kernel. cbn [Nat.eqb]. rewrite Rabs_R1, Rabs_R0. rewrite Rmax_left by lra. ring. }
  assert (NG : nth 0 r 0 < - (2 * (net_slack (safe_net ke) * ke))) by (rewrite SL, <- Hv; lra).
  exists c, r. split; [apply safe_facts; exact Hke|]. split; [exact HB|]. split; [exact HP|]. split; [exact BO|]. split; [exact C|]. split; [exact MO|]. split; [exact E|]. split; [exact Ea|]. split; [exact NG|].
  intros y Hy. destruct (default_adv_near ke 1 [2%nat] (safe_net ke) 2 (safe_value ke) lo hi second_class None (-1) 1 (safe_facts ke Hke) HB HP ltac:(cbn; lia) BO C MO I ltac:(left; lia)) as (c' & r' & E' & Er' & _ & HH).
  assert (Ec : c' = c) by (clear - E E'; clearbody c; congruence). rewrite Ec in Er'. assert (Err : Ok r = Ok r') by exact (eq_trans (eq_sym Ea) Er'). injection Err as Err. rewrite <- Err in HH. exact (HH 0%nat y ltac:(cbn; lia) Hy NG).
Qed.
