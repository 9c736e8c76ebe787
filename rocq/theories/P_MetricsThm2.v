(** Symbolic cross-entropy on a ball in hybrid mode, and examples (C60). *)
From Coq Require Import Reals Lra Lia List Arith Bool ZArith.
From Verif Require Import RLib Spec M_Core M_Utils M_Ops M_Backward M_Convert M_Metrics Spec_Convert Spec_Wrapper Spec_Metrics P_Core P_Utils P_Axis P_Ops P_Act P_Convert P_BackwardMore P_MetricsAdv P_MetricsCE P_MetricsThm.
Import ListNotations.
Local Open Scope R_scope.

Lemma full_h : forall D n ca x u wu bu l wl bl r, get_fullinputs (mk_spec false HYBRID D n) ca true [x; u; wu; bu; l; wl; bl] = Ok r ->
  exists ua la h g, get_upper D n false x wu (bu 0%nat) no_kw = Ok ua /\ get_lower D n false x wl (bl 0%nat) no_kw = Ok la /\
  r = mk_full x (vt (fun j => Rmin (u 0%nat j) (ua j))) wu bu (vt (fun j => Rmax (l 0%nat j) (la j))) wl bl h g.
Proof.
  intros D n ca x u wu bu l wl bl r H. unfold get_fullinputs in H. apply bind_ok in H as (r0 & U & H). cbn in U. injection U as <-.
  unfold complete in H. cbn [sp_mode sp_dom sp_n] in H. replace ((ca && mode_eqb HYBRID AFFINE) || (true && mode_eqb HYBRID HYBRID))%bool with true in H by (destruct ca; reflexivity).
  apply bind_ok in H as (ua & Hu & H). apply bind_ok in H as (la & Hl & H). exists ua, la. do 2 eexists. split; [exact Hu|]. split; [exact Hl|]. injection H as <-. reflexivity.
Qed.
Lemma ln_le_any : forall a b, a <= b -> 1 <= b -> ln a <= ln b.
Proof.
  intros a b H B. destruct (Rlt_le_dec 0 a) as [P|N].
  - destruct H as [H|H]; [left; apply ln_increasing; auto|subst; lra].
  - assert (Z : ln a = 0) by (unfold ln; destruct (Rlt_dec 0 a); [exfalso; lra|reflexivity]). rewrite Z.
    destruct B as [B|B]; [|subst b; rewrite ln_1; lra]. pose proof (ln_increasing 1 b ltac:(lra) B) as Q. rewrite ln_1 in Q. lra.
Qed.

(** the operation returns tensors *)
Lemma cce_ok : forall ke D n k ts, norm_ok D -> length ts = 7%nat -> (2 <= n)%nat ->
  exists o, categorical_cross_entropy ke (mk_spec false HYBRID D n) [k] ts = Ok o /\ length o = 7%nat.
Proof.
  intros ke D n k ts ND L N. unfold categorical_cross_entropy, op_exp.
  destruct (full_ok D HYBRID n true true ts ND L) as [r ->]. cbn [bind finish].
  match goal with |- context [finish ?a ?b] => change (finish a b) with (Ok (extract HYBRID false b)) end. cbn [bind].
  match goal with |- context [sum_default ?a ?b (extract HYBRID false ?c)] => set (full0 := c); clearbody full0 end.
  assert (S : exists o, sum_default (mk_spec false HYBRID D n) [k] (extract HYBRID false full0) = Ok o /\ length o = 7%nat).
  { unfold sum_default. cbn [sp_mode sp_dom sp_n extract with_box_x bind].
    assert (B : exists x', read_as_box D n (f_x full0) = Ok x') by (unfold read_as_box; destruct D; [eexists; reflexivity|]; destruct (Nat.ltb_spec n 2); [lia|eexists; reflexivity]).
    destruct B as [x' B]. unfold extract. cbn [with_box_x bind get_ibp get_affine app map]. rewrite B. cbn [bind].
    match goal with |- context [op_sum ?s ?k ?a ?t] => destruct (sum_ok Box HYBRID n (hd 0%nat k) t I eq_refl) as (o & Eo & Lo) end. cbn [hd] in Eo. rewrite Eo. cbn [bind].
    eexists. split; [reflexivity|]. destruct o; [discriminate Lo|]. exact Lo. }
  destruct S as (o & -> & Lo). cbn [bind]. unfold op_log.
  destruct (full_ok D HYBRID n true true o ND Lo) as [r1 ->]. cbn [bind].
  match goal with |- context [finish ?a ?b] => change (finish a b) with (Ok (extract HYBRID false b)) end. cbn [bind]. unfold expand_dims.
  match goal with |- context [get_fullinputs ?sp false false (extract HYBRID false ?c)] => destruct (full_ok D HYBRID n false false (extract HYBRID false c) ND eq_refl) as [r2 ->] end. cbn [bind].
  change (finish (mk_spec false HYBRID D n) r2) with (Ok (extract HYBRID false r2)). cbn [bind]. unfold minus.
  destruct (full_ok D HYBRID n false false ts ND L) as [r3 ->]. cbn [bind sp_mode sp_dc].
  destruct (full_ok D HYBRID n true true (extract HYBRID false (minus_full r3)) ND eq_refl) as [r4 ->].
  destruct (full_ok D HYBRID n true true (extract HYBRID false r2) ND eq_refl) as [r5 ->]. cbn [bind].
  eexists. split; reflexivity.
Qed.

(** ** The ball of radius 1 around (0, 0), logits (z_0, 0) *)
Definition ball1 : vec -> Prop := in_ball 2 Pinf 1 (two 0 0).
Definition bts : list tensor := [row (two 0 0); row (two 1 0); first_w; zero; row (two (-1) 0); first_w; zero].
Lemma bts_valid : valid (Ball 1 Pinf) HYBRID false ball1 2 2 (fun z => two (z 0%nat) 0) bts.
Proof.
  split; [reflexivity|]. split; [intros z Z; exact Z|]. split.
  - intros z j Z J. specialize (Z 0%nat ltac:(lia)). unfold two in Z. cbn in Z. replace (z 0%nat - 0) with (z 0%nat) in Z by ring.
    assert (-1 <= z 0%nat <= 1) by (unfold Rabs in Z; destruct (Rcase_abs _); lra). cases2 J; unfold row, two; cbn; lra.
  - intros z j _ J. cases2 J; unfold aff, dot, first_w, two, zero; cbn; lra.
Qed.
Definition cosh1 : R := (exp 1 + exp (-1)) / 2.
Lemma cosh1_lt : 1 < cosh1 < exp 1.
Proof.
  unfold cosh1. pose proof (exp_increasing (-1) 1 ltac:(lra)). split; [|lra].
  assert (E : exp 1 * exp (-1) = 1) by (rewrite <- exp_plus; replace (1 + -1) with 0 by ring; apply exp_0).
  pose proof (exp_gt 1 ltac:(lra)). pose proof (exp_pos (-1)). nra.
Qed.
(** one run, step by step *)
Lemma exp_run : forall ke D n ts e, op_exp ke (mk_spec false HYBRID D n) ts = Ok e -> exists r wl bl, get_fullinputs (mk_spec false HYBRID D n) true true ts = Ok r /\
  e = [f_x r; ew exp (f_uc r); (fun i j => h_wu (hull_exp ke (f_uc r 0%nat j) (f_lc r 0%nat j)) * f_wu r i j);
       (fun i j => h_wu (hull_exp ke (f_uc r 0%nat j) (f_lc r 0%nat j)) * f_bu r i j + h_bu (hull_exp ke (f_uc r 0%nat j) (f_lc r 0%nat j))); ew exp (f_lc r); wl; bl].
Proof. intros ke D n ts e H. unfold op_exp in H. apply bind_ok in H as (r & Hr & H). injection H as <-. exists r. do 2 eexists. split; [exact Hr|]. reflexivity. Qed.
Lemma sum_run : forall eps p n k x u wu bu l wl bl o, sum_default (mk_spec false HYBRID (Ball eps p) n) [k] [x; u; wu; bu; l; wl; bl] = Ok o ->
  exists q u' wu' bu' l' wl' bl', get_fullinputs (mk_spec false HYBRID Box n) false true [(fun c _ => x 0%nat c); u; wu; bu; l; wl; bl] = Ok q /\
  o = [x; u'; wu'; bu'; l'; wl'; bl'] /\ u' 0%nat 0%nat = rsum k (fun c => f_uc q 0%nat c).
Proof.
  intros eps p n k x u wu bu l wl bl o H. unfold sum_default in H. cbn [sp_mode sp_dom sp_n] in H. apply bind_ok in H as (t & Ht & H).
  cbn [with_box_x read_as_box bind] in Ht. destruct (n <? 2)%nat; [discriminate Ht|]. injection Ht as <-. apply bind_ok in H as (o' & Ho & H).
  unfold op_sum in Ho. apply bind_ok in Ho as (q & Hq & Ho). apply bind_ok in Ho as (ab & Hab & Ho). apply bind_ok in Ho as (aw & _ & Ho).
  injection Ho as <-. cbn in Hab. injection Hab as <-. injection H as <-.
  exists q. do 6 eexists. split; [exact Hq|]. split; [reflexivity|]. unfold red_axis. cbn [ax_len nth]. apply rsum_ext. intros c _.
  unfold slice, ax_inner. cbn. f_equal. unfold flat. cbn. lia.
Qed.
Lemma log_run : forall ke D n ts o, op_log ke (mk_spec false HYBRID D n) ts = Ok o -> exists r wu bu l wl bl, get_fullinputs (mk_spec false HYBRID D n) true true ts = Ok r /\
  o = [f_x r; ew ln (f_uc r); wu; bu; l; wl; bl].
Proof. intros ke D n ts e H. unfold op_log in H. apply bind_ok in H as (r & Hr & H). injection H as <-. exists r. do 5 eexists. split; [exact Hr|]. reflexivity. Qed.
Lemma expand_run : forall D n x u wu bu l wl bl o, expand_dims (mk_spec false HYBRID D n) [x; u; wu; bu; l; wl; bl] = Ok o -> o = [x; u; wu; bu; l; wl; bl].
Proof. intros. injection H as <-. reflexivity. Qed.
Lemma minus_run : forall D n x u wu bu l wl bl o, minus (mk_spec false HYBRID D n) [x; u; wu; bu; l; wl; bl] = Ok o ->
  exists u' wu' bu' wl' bl', o = [x; u'; wu'; bu'; (fun i j => - u i j); wl'; bl'] /\ u' = (fun i j => - l i j).
Proof. intros. injection H as <-. do 5 eexists. split; reflexivity. Qed.
Lemma cce_run : forall ke D n k ts o, categorical_cross_entropy ke (mk_spec false HYBRID D n) [k] ts = Ok o ->
  exists e s lg ex m r0 r1, op_exp ke (mk_spec false HYBRID D n) ts = Ok e /\ sum_default (mk_spec false HYBRID D n) [k] e = Ok s /\ op_log ke (mk_spec false HYBRID D n) s = Ok lg /\
  expand_dims (mk_spec false HYBRID D n) lg = Ok ex /\ minus (mk_spec false HYBRID D n) ts = Ok m /\ get_fullinputs (mk_spec false HYBRID D n) true true m = Ok r0 /\
  get_fullinputs (mk_spec false HYBRID D n) true true ex = Ok r1 /\ o = extract HYBRID false (add_full r0 (bcast k r1)).
Proof.
  intros ke D n k ts o H. unfold categorical_cross_entropy in H.
  apply bind_ok in H as (e & He & H). apply bind_ok in H as (s & Hs & H). apply bind_ok in H as (lg & Hl & H). apply bind_ok in H as (ex & Hx & H).
  apply bind_ok in H as (m & Hm & H). apply bind_ok in H as (r0 & H0 & H). apply bind_ok in H as (r1 & H1 & H). injection H as <-.
  exists e, s, lg, ex, m, r0, r1. repeat (split; [assumption|]). reflexivity.
Qed.
Lemma bts_full : forall r, get_fullinputs (mk_spec false HYBRID (Ball 1 Pinf) 2) true true bts = Ok r ->
  f_uc r 0%nat 0%nat = 1 /\ f_uc r 0%nat 1%nat = 0 /\ f_lc r 0%nat 0%nat = -1 /\ f_lc r 0%nat 1%nat = 0 /\ f_wu r = first_w /\ f_bu r = zero /\ f_x r = row (two 0 0).
Proof.
  intros r Hr. apply full_h in Hr as (ua & la & h & g & Hua & Hla & Er). injection Hua as <-. injection Hla as <-.
  rewrite Er. repeat split; cbv -[Rmax Rmin Rplus Rmult Rminus Ropp IZR Rlt Rle Rdiv Rinv]; rminmax; lra.
Qed.
Lemma cce_ball_value : forall ke x u wu bu l wl bl, 0 < ke -> ke <= 2 ->
  categorical_cross_entropy ke (mk_spec false HYBRID (Ball 1 Pinf) 2) [2%nat] bts = Ok [x; u; wu; bu; l; wl; bl] -> u 0%nat 1%nat <= ln (cosh1 + 1).
Proof.
  intros ke x u wu bu l wl bl K K2 H. apply cce_run in H as (e & s & lg & ex & m & r0 & r1 & He & Hs & Hl & Hx & Hm & H0 & H1 & H).
  apply exp_run in He as (r & wle & ble & Hr & ->). apply bts_full in Hr as (V1 & V2 & V3 & V4 & V5 & V6 & V7).
  apply sum_run in Hs as (q & us & wus & bus & ls & wls & bls & Hq & -> & Us).
  apply full_h in Hq as (ua & la & h & g & Hua & _ & Eq). injection Hua as <-.
  assert (Ub : us 0%nat 0%nat <= cosh1 + 1).
  { rewrite Us, rsum2, Eq. cbn [f_uc]. unfold vt. eapply Rle_trans; [apply Rplus_le_compat; apply Rmin_r|].
    cbn [hull_exp h_wu h_bu]. rewrite V1, V2, V3, V4, V5, V6, V7.
    unfold row, two, zero. cbn [Nat.eqb]. unfold cosh1. replace (exp 0) with 1 by (rewrite exp_0; reflexivity).
    replace (1 - -1) with 2 by ring. replace (0 - 0) with 0 by ring. rewrite (Rmax_left 2 ke K2), (Rmax_right 0 ke) by lra. right. field. lra. }
  clear Eq Us. apply log_run in Hl as (r2 & wul & bul & ll & wll & bll & Hr2 & ->). apply full_h in Hr2 as (ua2 & la2 & h2 & g2 & _ & _ & Er2).
  apply expand_run in Hx as ->.
  assert (Ul : ew ln (f_uc r2) 0%nat 0%nat <= ln (cosh1 + 1)).
  { unfold ew. rewrite Er2. cbn [f_uc]. unfold vt. pose proof cosh1_lt. apply ln_le_any; [|lra]. eapply Rle_trans; [apply Rmin_l|exact Ub]. }
  unfold bts in Hm. apply minus_run in Hm as (um & wum & bum & wlm & blm & -> & Eum).
  apply full_h in H0 as (ua0 & la0 & h0 & g0 & _ & _ & E0). apply full_h in H1 as (ua1 & la1 & h1 & g1 & _ & _ & E1).
  assert (Eu : u = f_uc (add_full r0 (bcast 2 r1))) by (injection H; intros; assumption).
  rewrite Eu, E0, E1. cbn [add_full bcast f_uc]. unfold vt. change (1 / 2)%nat with 0%nat. rewrite Eum. unfold row, two. cbn [Nat.eqb].
  pose proof (Rmin_l (- 0) (ua0 1%nat)). pose proof (Rmin_l (ew ln (f_uc r2) 0%nat 0%nat) (ua1 0%nat)). lra.
Qed.
Lemma cce_ball_refuted : forall ke, 0 < ke -> ke <= 2 -> exists g x u wu bu l wl bl z, cross_entropy_of [] 2 (fun z => two (z 0%nat) 0) g /\
  valid (Ball 1 Pinf) HYBRID false ball1 2 2 (fun z => two (z 0%nat) 0) bts /\
  categorical_cross_entropy ke (mk_spec false HYBRID (Ball 1 Pinf) 2) [2%nat] bts = Ok [x; u; wu; bu; l; wl; bl] /\
  ball1 z /\ u 0%nat 1%nat < g z 1%nat.
Proof.
  intros ke K K2. exists (fun z j => cross_entropy 2 (two (z 0%nat) 0) j).
  destruct (cce_ok ke (Ball 1 Pinf) 2 2 bts ltac:(cbn; auto) eq_refl ltac:(lia)) as (o & Eo & Lo).
  destruct o as [|x [|u [|wu [|bu [|l [|wl [|bl [|? ?]]]]]]]]; try discriminate Lo. exists x, u, wu, bu, l, wl, bl, (two 1 0).
  split; [|split; [exact bts_valid|split; [exact Eo|split]]].
  - intros z p c Ip Ic. inversion Ip; subst. cbn [app ravel prodn]. unfold cross_entropy. replace (c * 1 + 0)%nat with c by lia. reflexivity.
  - intros i I. cases2 I; unfold two; cbn; unfold Rabs; destruct (Rcase_abs _); lra.
  - pose proof (cce_ball_value ke x u wu bu l wl bl K K2 Eo) as V. eapply Rle_lt_trans; [exact V|].
    unfold cross_entropy. rewrite rsum2. unfold two. cbn [Nat.eqb]. rewrite exp_0. pose proof cosh1_lt.
    apply Rlt_le_trans with (ln (exp 1 + 1)); [apply ln_increasing; lra|lra].
Qed.
Lemma cce_ball_error : forall ke eps p k ts, length ts = 7%nat -> norm_ok (Ball eps p) ->
  categorical_cross_entropy ke (mk_spec false HYBRID (Ball eps p) 1) [k] ts = Err IndexError.
Proof.
  intros ke eps p k ts L ND. unfold categorical_cross_entropy, op_exp. destruct (full_ok (Ball eps p) HYBRID 1 true true ts ND L) as [r ->]. cbn [bind].
  match goal with |- context [finish ?a ?b] => change (finish a b) with (Ok (extract HYBRID false b)); generalize b end. intros b. cbn [bind]. reflexivity.
Qed.

(** ** Examples *)
Lemma ex_cce_ibp : forall ke, exists u l, categorical_cross_entropy ke (mk_spec false IBP Box 1) [2%nat] [row (two 1 0); row (two 0 0)] = Ok [u; l] /\
  u 0%nat 1%nat = ln (exp 1 + 1) /\ l 0%nat 1%nat = ln 2.
Proof.
  intros ke. do 2 eexists. split; [reflexivity|]. unfold add_full, bcast, ew, red_axis, slice, when, row, two, vt. cbn -[Rmax Rmin ln exp]. rewrite exp_0.
  split; match goal with |- ?a + ln ?b = ln ?c => replace b with c by ring; ring end.
Qed.
Definition box1 : vec -> Prop := in_box 1 (fun _ => -1) (fun _ => 1).
Definition xts : list tensor := [fun c _ => 2 * INR c - 1; row (two 1 2); first_w; row (two 0 2); row (two (-1) 2); first_w; row (two 0 2)].
Lemma ex_cce_hybrid : exists g, cross_entropy_of [] 2 (fun z => two (z 0%nat) 2) g /\
  op_sp (mk_spec false HYBRID Box 1) box1 2 (fun z => two (z 0%nat) 2) xts /\ intervals (wide 1) (mk_spec false HYBRID Box 1) 2 xts.
Proof.
  exists (fun z j => cross_entropy 2 (two (z 0%nat) 2) j). split; [|split].
  - intros z p c Ip Ic. inversion Ip; subst. cbn [app ravel prodn]. unfold cross_entropy. replace (c * 1 + 0)%nat with c by lia. reflexivity.
  - split; [reflexivity|]. split; [intros z Z i I; specialize (Z i I); cbn in *; lra|]. split.
    + intros z j Z J. specialize (Z 0%nat ltac:(lia)). cbn in Z. cases2 J; unfold row, two; cbn; lra.
    + intros z j _ J. cases2 J; unfold aff, dot, first_w, two, row; cbn; lra.
  - intros _ r Hr j J. apply full_h in Hr as (ua & la & h & g & Hua & Hla & ->). injection Hua as <-. injection Hla as <-. unfold wide. cases2 J; [right|left];
    cbv -[Rmax Rmin Rplus Rmult Rminus Ropp IZR Rlt Rle Rdiv Rinv]; rminmax; lra.
Qed.
(** constant bounds: no hypothesis on the widths *)
Lemma cce_ibp : forall ke D n S pre k f g ts, 0 < ke -> (0 < n)%nat -> (0 < k)%nat -> dom_ok D IBP -> cross_entropy_of pre k f g ->
  valid D IBP false S n (prodn (pre ++ [k])) f ts ->
  exists out, categorical_cross_entropy ke (mk_spec false IBP D n) (pre ++ [k]) ts = Ok out /\ valid D IBP false S n (prodn (pre ++ [k])) g out.
Proof.
  intros ke D n S pre k f g ts K N Kk Hd Hg V. apply (cce_sound ke D IBP n S pre k f g ts); auto; try discriminate. intros C. elim C. reflexivity.
Qed.
