(** Refutations and examples for the losses and metrics (C55-C60, C63). *)
From Coq Require Import Reals Lra Lia List Arith Bool ZArith.
From Verif Require Import RLib Spec M_Core M_Utils M_Ops M_Backward M_Convert M_Metrics Spec_Convert Spec_Wrapper Spec_Metrics P_Core P_Utils P_Act P_Convert P_BackwardMore P_Metrics P_MetricsAdv P_MetricsLoss P_MetricsScore P_MetricsCE.
Import ListNotations.
Local Open Scope R_scope.

Definition two (a b : R) : vec := fun j => if Nat.eqb j 0 then a else b.
Definition row (v : vec) : tensor := fun _ => v.
Definition zero : tensor := fun _ _ => 0.
(** the first input for output 0 and nothing for output 1 *)
Definition first_w : tensor := fun i j => if (Nat.eqb i 0 && Nat.eqb j 0)%bool then 1 else 0.
Lemma lt2 : forall j, (j < 2)%nat -> j = 0%nat \/ j = 1%nat.
Proof. intros; lia. Qed.
Ltac cases2 H := destruct (lt2 _ H) as [-> | ->].
Lemma rsum2 : forall g, rsum 2 g = g 0%nat + g 1%nat.
Proof. intro g. cbn. ring. Qed.
Lemma exp_gt : forall x, 0 < x -> 1 + x < exp x.
Proof. intros x H. apply exp_ineq1. lra. Qed.

(** ** C55 *)
Lemma run_ibp : forall D n k as_ bk batch u l, loss_fusion D n k IBP as_ bk batch [u; l] =
  if bk then (if as_ then Err NotImplementedError else Ok (fun i => exp (u 0%nat i) / rsum k (fun j => exp (u 0%nat j))))
  else if as_ then (source <- identity_like batch ; Ok (asymptotic_bound k source (u 0%nat) (l 0%nat))) else Ok (ce_bound k (u 0%nat) (l 0%nat)).
Proof. intros D n k [] [] batch u l; reflexivity. Qed.
(** every logit and every margin f_j - f_0 is bounded by the tensors; the cross-entropy of class 0 exceeds the output *)
Lemma fusion_backward_refuted : exists n k f ts v, valid Box IBP false (fun _ => True) n k f ts /\ valid Box IBP false (fun _ => True) n k (fun z j => f z j - f z 0%nat) ts /\
  loss_fusion Box n k IBP false true None ts = Ok v /\ forall z, v 0%nat < cross_entropy k (f z) 0%nat.
Proof.
  exists 1%nat, 2%nat, (fun _ => two 0 5), [row (two 0 5); row (two 0 5)]. eexists.
  split; [split; [reflexivity|]; intros z j _ J; unfold row; lra|].
  split; [split; [reflexivity|]; intros z j _ J; cases2 J; unfold row, two; cbn; lra|]. split; [rewrite run_ibp; reflexivity|].
  intros z. unfold row, cross_entropy. rewrite !rsum2. unfold two. cbn [Nat.eqb].
  pose proof (exp_pos 0). pose proof (exp_pos 5). pose proof (exp_gt 5 ltac:(lra)). rewrite exp_0.
  apply Rlt_trans with 1.
  - apply (Rmult_lt_reg_r (1 + exp 5)); [lra|]. unfold Rdiv. rewrite Rmult_assoc, Rinv_l by lra. lra.
  - apply Rlt_trans with (- 0 + ln (exp 5)); [rewrite ln_exp; lra|]. apply Rplus_lt_compat_l. apply ln_increasing; lra.
Qed.
(** a ball read as a box *)
Lemma fusion_ball_refuted : exists n k f ts v z, valid (Ball 1 Pinf) AFFINE false (in_ball n Pinf 1 (fun _ => 0)) n k f ts /\ in_ball n Pinf 1 (fun _ => 0) z /\
  build_crossentropy (Ball 1 Pinf) n k AFFINE false None ts = Ok v /\ v 1%nat < cross_entropy k (f z) 1%nat.
Proof.
  assert (Q : exists u l, fusion_bounds Box 2 AFFINE [(fun _ _ => 0); first_w; zero; first_w; zero] = Ok (u, l) /\ u 0%nat = 0 /\ u 1%nat = 0 /\ l 1%nat = 0).
  { do 2 eexists. split; [reflexivity|]. repeat split; cbv -[Rmax Rmin Rplus Rmult Rminus Ropp IZR Rlt Rle Rdiv Rinv]; rminmax; lra. }
  destruct Q as (u & l & E & U0 & U1 & L1).
  exists 2%nat, 2%nat, (fun z => two (z 0%nat) 0), [zero; first_w; zero; first_w; zero], (ce_bound 2 u l), (fun _ => 1).
  split; [split; [reflexivity|split]|split; [|split]].
  - intros z Z. exact Z.
  - intros z j _ J. cases2 J; unfold aff, dot, first_w, two, zero; cbn; lra.
  - intros i I. cbn. replace (1 - 0) with 1 by ring. rewrite Rabs_R1. lra.
  - transitivity (b <- fusion_bounds Box 2 AFFINE [(fun _ _ => 0); first_w; zero; first_w; zero] ; Ok (ce_bound 2 (fst b) (snd b))); [reflexivity|rewrite E; reflexivity].
  - rewrite ce_bound_eq by lia. unfold cross_entropy. rewrite !rsum2. rewrite U0, U1, L1. unfold two. cbn [Nat.eqb].
    apply Rplus_lt_compat_l. apply ln_increasing; [pose proof (exp_pos 0); lra|]. pose proof (exp_gt 1 ltac:(lra)). rewrite !exp_0. lra.
Qed.
(** constant logits (0, 5) *)
Lemma ex_fusion : exists v, loss_fusion Box 1 2 IBP false false None [row (two 1 5); row (two 0 5)] = Ok v /\ v 1%nat = - 5 + ln (exp 1 + exp 5) /\
  exists w, loss_fusion Box 1 2 IBP true false (Some 3%nat) [row (two 1 5); row (two 0 5)] = Ok w /\ w 0%nat = 5 /\ w 1%nat = -1.
Proof.
  eexists. split; [rewrite run_ibp; reflexivity|]. split; [rewrite ce_bound_eq by lia; rewrite rsum2; reflexivity|].
  eexists. split; [rewrite run_ibp; reflexivity|]. split; cbv -[Rmax Rmin Rplus Rmult Rminus Ropp IZR Rlt Rle Rdiv Rinv]; rminmax; lra.
Qed.

(** ** C56: f_0 = z, f_1 = -3 on [0, 1] *)
Definition radius_ex : list tensor := [fun c _ => INR c; first_w; row (two 0 (-3)); first_w; row (two 0 (-3))].
Lemma ex_radius : forall ke, 0 < ke -> ke <= 1/2 -> exists v, valid Box AFFINE false (in_box 1 (fun _ => 0) (fun _ => 1)) 1 2 (fun z => two (z 0%nat) (-3)) radius_ex /\
  radius_robust ke Box 1 2 AFFINE false (Some 1%nat) radius_ex = Ok v /\ v 0%nat < 0.
Proof.
  intros ke He He2.
  destruct (radius_complete ke AFFINE 1 2 1 radius_ex _ _ _ _ _ 0 He ltac:(lra) eq_refl ltac:(lia)) as (v & E & H).
  - intros i I. cbn. lra.
  - intros j J N. cases2 J; [congruence|]. cbn. unfold first_w. cbn. replace ((0 - 1) * ((1 - 0) / 2)) with (- (1/2)) by field. rewrite Rabs_Ropp, Rabs_pos_eq by lra. lra.
  - exists v. split; [|split; [exact E|apply H; intros j J N; cases2 J; [congruence|]; intros z Z; specialize (Z O ltac:(lia)); unfold aff, dot, first_w, two, row; cbn in *; lra]].
    split; [reflexivity|split].
    + intros z Z i I. specialize (Z i I). cbn in *. lra.
    + intros z j _ J. cases2 J; unfold aff, dot, first_w, two, row; cbn; lra.
Qed.

(** ** C57: f_0 = 5, f_1 = 0, label 1; the bounds of output 0 are -5 and 5 *)
Definition loose (mode : fmode) : list tensor :=
  match mode with
  | IBP => [row (two 5 0); row (two (-5) 0)]
  | AFFINE => [fun c _ => INR c; zero; row (two 5 0); zero; row (two (-5) 0)]
  | HYBRID => [fun c _ => INR c; row (two 5 0); zero; row (two 5 0); row (two (-5) 0); zero; row (two (-5) 0)]
  end.
Definition unit_box : vec -> Prop := in_box 1 (fun _ => 0) (fun _ => 1).
Lemma loose_valid : forall mode, valid Box mode false unit_box 1 2 (fun _ => two 5 0) (loose mode).
Proof.
  assert (X : forall z, unit_box z -> in_dom Box 1 (fun c _ => INR c) z) by (intros z Z i I; specialize (Z i I); cbn in *; lra).
  assert (C : const_ok unit_box 2 (fun _ => two 5 0) (two 5 0) (two (-5) 0)) by (intros z j _ J; cases2 J; unfold two; cbn; lra).
  assert (A : affine_ok unit_box 1 2 (fun _ => two 5 0) zero (two 5 0) zero (two (-5) 0)) by (intros z j _ J; cases2 J; unfold aff, dot, zero, two; cbn; lra).
  intros []; split; try reflexivity; cbn; auto.
Qed.
Lemma check_metric_refuted : forall mode, exists v, valid Box mode false unit_box 1 2 (fun _ => two 5 0) (loose mode) /\
  adv_metric false (get_ibp mode) (get_affine mode) FORWARD Box 1 2 (metric_inputs mode zero (fun c _ => INR c) (loose mode) (row (two 0 1))) = Ok v /\
  v < 0 /\ exists z, unit_box z /\ label_pair (two 0 1) 0 1 /\ (fun _ : vec => two 5 0) z 0%nat > (fun _ : vec => two 5 0) z 1%nat.
Proof.
  intros mode. destruct mode; eexists; (split; [apply loose_valid|split; [reflexivity|split]]).
  all: try (exists (fun _ => 0); split; [intros i I; lra|split; [split; reflexivity|unfold two; cbn; lra]]).
  all: cbv -[Rmax Rmin Rplus Rmult Rminus Ropp IZR Rlt Rle Rdiv Rinv]; rminmax; lra.
Qed.
(** AdversarialScore in backward mode: valid forward and backward bounds, a negative score *)
Lemma score_backward_refuted : forall mode, exists v, valid Box mode false unit_box 1 2 (fun _ => two 5 0) (loose mode) /\
  affine_ok unit_box 1 2 (fun _ => two 5 0) zero (two 5 0) zero (two (-5) 0) /\
  adv_metric true (get_ibp mode) (get_affine mode) BACKWARD Box 1 2
    (metric_inputs_b mode zero (fun c _ => INR c) (loose mode) zero (row (two 5 0)) zero (row (two (-5) 0)) (row (two 0 1))) = Ok v /\
  v < 0 /\ exists z, unit_box z /\ label_pair (two 0 1) 0 1 /\ (fun _ : vec => two 5 0) z 0%nat > (fun _ : vec => two 5 0) z 1%nat.
Proof.
  assert (A : affine_ok unit_box 1 2 (fun _ => two 5 0) zero (two 5 0) zero (two (-5) 0)) by (intros z j _ J; cases2 J; unfold aff, dot, zero, two; cbn; lra).
  intros mode. destruct mode; eexists; (split; [apply loose_valid|split; [exact A|split; [reflexivity|split]]]).
  all: try (exists (fun _ => 0); split; [intros i I; lra|split; [split; reflexivity|unfold two; cbn; lra]]).
  all: cbv -[Rmax Rmin Rplus Rmult Rminus Ropp IZR Rlt Rle Rdiv Rinv]; rminmax; lra.
Qed.
(** a negative score on the same network with the labels exchanged is not reached in ibp mode, though output 0 is at least 1 and output 1 is 0 *)
Lemma score_ibp_loose : exists v, adv_metric true true false FORWARD Box 1 2 (metric_inputs IBP zero zero [row (two 2 0); row (two 1 0)] (row (two 1 0))) = Ok v /\ v = 0.
Proof.
  eexists. split; [reflexivity|]. cbv -[Rmax Rmin Rplus Rmult Rminus Ropp IZR Rlt Rle Rdiv Rinv]. rminmax. lra.
Qed.
(** f_0 = z, f_1 = -3 : score -3 in affine mode *)
Lemma ex_score : exists v, adv_metric true false true FORWARD Box 1 2 (metric_inputs AFFINE zero zero radius_ex (row (two 1 0))) = Ok v /\ v = -3.
Proof.
  eexists. split; [reflexivity|]. cbv -[Rmax Rmin Rplus Rmult Rminus Ropp IZR Rlt Rle Rdiv Rinv]. rminmax. lra.
Qed.
Lemma build_metric_refuted : build_formal_layer = Err AttributeError.
Proof. reflexivity. Qed.

(** ** The symbolic operations always return tensors on the supported domains *)
Lemma full_ok : forall D mode n ca ti ts, norm_ok D -> length ts = spec_nb mode false -> exists r, get_fullinputs (mk_spec false mode D n) ca ti ts = Ok r.
Proof.
  intros D mode n ca ti ts ND L. unfold get_fullinputs. cbn [sp_mode sp_dc].
  assert (U : exists r, unpack empty_tensor mode false ts = Ok r).
  { destruct mode; cbn in L.
    - destruct ts as [|u [|l [|? ?]]]; try discriminate L. eexists; reflexivity.
    - destruct ts as [|x [|wu [|bu [|wl [|bl [|? ?]]]]]]; try discriminate L. eexists; reflexivity.
    - destruct ts as [|x [|u [|wu [|bu [|l [|wl [|bl [|? ?]]]]]]]]; try discriminate L. eexists; reflexivity. }
  destruct U as [r ->]. cbn [bind]. unfold complete. cbn [sp_mode sp_dom sp_n].
  destruct ((ca && mode_eqb mode AFFINE) || (ti && mode_eqb mode HYBRID))%bool; [|eexists; reflexivity].
  destruct (get_upper_ok D n (f_x r) (f_wu r) (f_bu r 0%nat) ND) as [ua ->]. destruct (get_lower_ok D n (f_x r) (f_wl r) (f_bl r 0%nat) ND) as [la ->]. cbn [bind].
  destruct (mode_eqb mode AFFINE); eexists; reflexivity.
Qed.
Lemma extract_len : forall mode (r : full tensor), length (extract mode false r) = spec_nb mode false.
Proof. intros [] r; reflexivity. Qed.
Lemma sum_ok : forall D mode n k ts, norm_ok D -> length ts = spec_nb mode false -> exists o, op_sum (mk_spec false mode D n) [k] (-1) ts = Ok o /\ length o = spec_nb mode false.
Proof.
  intros D mode n k ts ND L. unfold op_sum. destruct (full_ok D mode n false true ts ND L) as [r ->]. cbn [bind]. destruct mode; eexists; split; reflexivity.
Qed.
Lemma softmax_ok : forall ke D mode n k ts, norm_ok D -> length ts = spec_nb mode false ->
  exists o, softmax ke (mk_spec false mode D n) [k] ts = Ok o /\ length o = spec_nb mode false.
Proof.
  intros ke D mode n k ts ND L. unfold softmax. cbn [sp_dc sp_mode].
  assert (M : exists t, minus (mk_spec false mode D n) ts = Ok t /\ length t = spec_nb mode false).
  { unfold minus. destruct (full_ok D mode n false false ts ND L) as [r ->]. eexists; split; [reflexivity|apply extract_len]. }
  destruct M as (t & -> & Lt). cbn [bind].
  assert (X : exists e, op_exp ke (mk_spec false mode D n) t = Ok e /\ length e = spec_nb mode false).
  { unfold op_exp. destruct (full_ok D mode n true true t ND Lt) as [r ->]. eexists; split; [reflexivity|apply extract_len]. }
  destruct X as (e & -> & Le). cbn [bind]. destruct (sum_ok D mode n k e ND Le) as (o & -> & Lo). cbn [bind].
  assert (F : exists q, frac_pos ke (mk_spec false mode D n) o = Ok q /\ length q = spec_nb mode false).
  { unfold frac_pos. destruct (full_ok D mode n true true o ND Lo) as [r ->]. eexists; split; [reflexivity|apply extract_len]. }
  destruct F as (q & -> & Lq). cbn [bind]. destruct (full_ok D mode n false false q ND Lq) as [r ->]. cbn [bind].
  assert (P : forall b, length b = spec_nb mode false -> exists m, multiply (mk_spec false mode D n) e b = Ok m /\ length m = spec_nb mode false).
  { intros b Lb. unfold multiply. destruct (full_ok D mode n true true e ND Le) as [r0 ->]. destruct (full_ok D mode n true true b ND Lb) as [r1 ->]. eexists; split; [reflexivity|apply extract_len]. }
  destruct (P (extract mode false (bcast (ax_len [k] (length [k] - 1)) r)) (extract_len _ _)) as (m & -> & Lm). cbn [bind].
  destruct (full_ok D mode n false true m ND Lm) as [r2 ->]. cbn [bind]. destruct mode; eexists; split; reflexivity.
Qed.

(** ** C58: constant logits (0, 2), label 0, hybrid mode *)
Definition hyb02 : list tensor := [fun c _ => INR c; row (two 0 2); zero; row (two 0 2); row (two 0 2); zero; row (two 0 2)].
Lemma hyb02_valid : valid Box HYBRID false unit_box 1 2 (fun _ => two 0 2) hyb02.
Proof.
  split; [reflexivity|]. split; [intros z Z i I; specialize (Z i I); cbn in *; lra|].
  split; intros z j _ J; cases2 J; unfold aff, dot, zero, two, row; cbn; lra.
Qed.
Lemma adv_hybrid_refuted : forall ke, exists batch v, valid Box HYBRID false unit_box 1 2 (fun _ => two 0 2) hyb02 /\
  packed Box HYBRID 1 2 [(two 1 0, hyb02)] batch /\ adv_loss ke Box HYBRID 2 false None false batch = Ok v /\
  label_pair (two 1 0) 1 0 /\ v < two 0 2 1%nat - two 0 2 0%nat.
Proof.
  intros ke. destruct (pack_slices Box HYBRID 1 2 hyb02 eq_refl) as (p & s & E & Er & Es & Rc).
  assert (Q : exists v, adv_sample ke Box HYBRID 2 false None false (two 1 0, p) = Ok v).
  { unfold adv_sample. cbn [snd fst]. rewrite Es. cbn [bind]. unfold loss_softmax. cbn [orb mode_eqb get_affine].
    match goal with |- context [softmax ke (mk_spec false HYBRID Box ?n) [2%nat] ?ts] => destruct (softmax_ok ke Box HYBRID n 2 ts I eq_refl) as (o & -> & Lo) end. cbn [bind].
    destruct o as [|x [|u [|wu [|bu [|l [|wl [|bl [|? ?]]]]]]]]; try discriminate Lo. unfold adv_affine, loss_bound. cbn [bind]. rewrite get_upper_no_kw. cbn [bind]. eexists. reflexivity. }
  destruct Q as [v Ev]. exists [(two 1 0, p)], (mean [v]). split; [exact hyb02_valid|].
  split; [constructor; [split; [reflexivity|exact E]|constructor]|]. split; [unfold adv_loss; cbn [mapR]; rewrite Ev; reflexivity|].
  split; [split; reflexivity|].
  assert (H : v <= 1).
  { apply (adv_hybrid_le_1 ke Box 1 2 (two 1 0) hyb02 p false v); [|lia|reflexivity|exact E|exact Ev].
    intros j J. cases2 J; [right|left]; reflexivity. }
  unfold mean, two. cbn. lra.
Qed.
Lemma ex_adv_loss : forall ke, exists batch v, packed Box AFFINE 1 2 [(two 1 0, radius_ex)] batch /\ adv_loss ke Box AFFINE 2 false None false batch = Ok v /\ v = -3.
Proof.
  intros ke. destruct (pack_slices Box AFFINE 1 2 radius_ex eq_refl) as (p & s & E & _). exists [(two 1 0, p)]. eexists.
  split; [constructor; [split; [reflexivity|exact E]|constructor]|]. injection E as <-. split; [reflexivity|].
  cbv -[Rmax Rmin Rplus Rmult Rminus Ropp IZR Rlt Rle Rdiv Rinv]. rminmax. lra.
Qed.
(** constant bounds: the domain does not matter *)
Lemma losses_ibp_domain : forall ke D n k sigm clip outs batch, packed D IBP n k outs batch ->
  packed Box IBP n k outs batch /\ upper_loss D IBP k batch = upper_loss Box IBP k batch /\ lower_loss D IBP k batch = lower_loss Box IBP k batch /\
  adv_loss ke D IBP k sigm clip false batch = adv_loss ke Box IBP k sigm clip false batch.
Proof. intros. split; [assumption|]. repeat split; reflexivity. Qed.
(** balls with affine bounds: refused unless one of the sizes is 1 or they are equal *)
Lemma adv_loss_ball_error : forall ke eps p n k y ts a v sigm clip sm, (2 <= n)%nat -> (2 <= k)%nat -> n <> k ->
  length ts = spec_nb AFFINE false -> get_model (Ball eps p) AFFINE n k ts = Ok a -> adv_sample ke (Ball eps p) AFFINE k sigm clip sm (y, a) <> Ok v.
Proof.
  intros ke eps p n k y ts a v sigm clip sm N K NK L E H. destruct (pack_slices (Ball eps p) AFFINE n k ts L) as (a' & s & E' & Er & Es & Rc). rewrite E in E'. injection E' as <-.
  unfold adv_sample in H. cbn [snd fst] in H. rewrite Es in H. cbn [bind] in H. apply bind_ok in H as (s' & _ & H). cbn [get_affine below] in H.
  apply bind_ok in H as (v' & H & _). apply bind_ok in H as (w & H & _). unfold adv_affine in H. apply bind_ok in H as (r & H & _). unfold loss_bound in H.
  replace (m_r a - 1)%nat with n in H by (rewrite Er; lia). apply bind_ok in H as (q & _ & H).
  replace (n =? 1)%nat with false in H by (symmetry; apply Nat.eqb_neq; lia). replace (n =? k)%nat with false in H by (symmetry; apply Nat.eqb_neq; lia).
  replace (k =? 1)%nat with false in H by (symmetry; apply Nat.eqb_neq; lia). discriminate H.
Qed.

(** ** C59: a ball of radius 1/2 around (1, 0); f_1 = z_0 reaches 3/2 *)
Definition second_w : tensor := fun i j => if (Nat.eqb i 0 && Nat.eqb j 1)%bool then 1 else 0.
Lemma upper_ball_refuted : exists f batch v z, let ts := [row (two 1 0); second_w; zero; second_w; zero] in
  valid (Ball (1/2) Pinf) AFFINE false (in_ball 2 Pinf (1/2) (two 1 0)) 2 2 f ts /\ packed (Ball (1/2) Pinf) AFFINE 2 2 [(fun _ => 0, ts)] batch /\
  upper_loss (Ball (1/2) Pinf) AFFINE 2 batch = Ok v /\ in_ball 2 Pinf (1/2) (two 1 0) z /\ v < f z 1%nat - 0.
Proof.
  exists (fun z => two 0 (z 0%nat)). destruct (pack_slices (Ball (1/2) Pinf) AFFINE 2 2 [row (two 1 0); second_w; zero; second_w; zero] eq_refl) as (p & s & E & _).
  exists [(fun _ => 0, p)]. eexists. exists (two (3/2) 0). split; [split; [reflexivity|split]|split; [constructor; [split; [reflexivity|exact E]|constructor]|]].
  - intros z Z. exact Z.
  - intros z j _ J. cases2 J; unfold aff, dot, second_w, two, zero; cbn; lra.
  - injection E as <-. split; [reflexivity|]. split.
    + intros i I. cases2 I; unfold two; cbn; unfold Rabs; destruct (Rcase_abs _); lra.
    + cbv -[Rmax Rmin Rplus Rmult Rminus Ropp IZR Rlt Rle Rdiv Rinv]. rminmax. lra.
Qed.
Lemma ex_upper_loss : exists batch v w, packed Box AFFINE 1 2 [(two 0 0, radius_ex)] batch /\ upper_loss Box AFFINE 2 batch = Ok v /\ v = 1 /\
  lower_loss Box AFFINE 2 batch = Ok w /\ w = 3.
Proof.
  destruct (pack_slices Box AFFINE 1 2 radius_ex eq_refl) as (p & s & E & _). exists [(two 0 0, p)]. do 2 eexists.
  split; [constructor; [split; [reflexivity|exact E]|constructor]|]. injection E as <-. split; [reflexivity|].
  split; [cbv -[Rmax Rmin Rplus Rmult Rminus Ropp IZR Rlt Rle Rdiv Rinv]; rminmax; lra|]. split; [reflexivity|].
  cbv -[Rmax Rmin Rplus Rmult Rminus Ropp IZR Rlt Rle Rdiv Rinv]. rminmax. lra.
Qed.

(** ** C63 *)
Lemma upper_negative_refuted : exists f u l y v z, valid Box IBP false unit_box 1 1 f [u; l] /\ unit_box z /\
  upper_metric true false FORWARD Box 1 1 (metric_inputs IBP zero zero [u; l] y) = Ok v /\ v < weighted 1 (y 0%nat) (f z).
Proof.
  exists (fun _ _ => 0), (row (fun _ => 1)), zero, (row (fun _ => -1)). eexists. exists (fun _ => 0).
  split; [split; [reflexivity|]; intros z j _ _; unfold row, zero; lra|]. split; [intros i I; lra|]. split; [reflexivity|]. unfold weighted, row. cbn. lra.
Qed.
(** the documented reading, "upper_score <= 0 if the maximum of the network is lower than the target", fails both ways *)
Lemma upper_target_refuted : 
  (exists v, valid Box IBP false unit_box 1 1 (fun _ _ => 1) [row (fun _ => 1); row (fun _ => 1)] /\
     upper_metric true false FORWARD Box 1 1 (metric_inputs IBP zero zero [row (fun _ => 1); row (fun _ => 1)] (row (fun _ => 2))) = Ok v /\ v > 0) /\
  (exists v, valid Box IBP false unit_box 1 1 (fun _ _ => 1) [row (fun _ => 1); row (fun _ => 1)] /\
     upper_metric true false FORWARD Box 1 1 (metric_inputs IBP zero zero [row (fun _ => 1); row (fun _ => 1)] (row (fun _ => -1))) = Ok v /\ v <= 0).
Proof.
  split; eexists; (split; [split; [reflexivity|]; intros z j _ _; unfold row; lra|]); (split; [reflexivity|]); unfold row; cbn; lra.
Qed.
Lemma ex_upper_score : exists v, upper_metric true true FORWARD Box 1 2 (metric_inputs HYBRID zero zero hyb02 (row (two 1 1))) = Ok v /\ v = 2.
Proof. eexists. split; [reflexivity|]. cbv -[Rmax Rmin Rplus Rmult Rminus Ropp IZR Rlt Rle Rdiv Rinv]. rminmax. lra. Qed.
