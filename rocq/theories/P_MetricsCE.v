(** Symbolic cross-entropy (C60). *)
From Coq Require Import Reals Lra Lia List Arith Bool ZArith.
From Verif Require Import RLib Spec M_Core M_Utils M_Ops M_Backward M_Convert M_Metrics Spec_Convert Spec_Wrapper Spec_Metrics P_Core P_Utils P_Axis P_Ops P_Act P_Convert P_MetricsAdv.
Import ListNotations.
Local Open Scope R_scope.

(** the lower bounds held by ts are positive *)
Definition low_pos (sp : spec) (m : nat) (ts : list tensor) : Prop :=
  match sp_mode sp, ts with
  | IBP, u :: l :: _ => forall j, (j < m)%nat -> 0 < l 0%nat j
  | HYBRID, x :: u :: wu :: bu :: l :: _ => forall j, (j < m)%nat -> 0 < l 0%nat j
  | _, _ => True
  end.
Lemma exp_low_pos : forall ke sp m ts e, sp_dc sp = false -> op_exp ke sp ts = Ok e -> low_pos sp m e.
Proof.
  intros ke [dc mode D n] m ts e Hdc H. cbn in Hdc. subst dc. unfold op_exp in H. apply bind_ok in H as (r & _ & H). unfold finish in H. cbn [sp_dc sp_mode] in H. injection H as <-.
  unfold low_pos. cbn [sp_mode]. destruct mode; cbn; [|exact I|]; intros j _; unfold ew; apply exp_pos.
Qed.
Lemma full_low_pos : forall sp m ts ca ti r, sp_dc sp = false -> sp_mode sp <> AFFINE -> get_fullinputs sp ca ti ts = Ok r -> low_pos sp m ts ->
  forall j, (j < m)%nat -> 0 < f_lc r 0%nat j.
Proof.
  intros [dc mode D n] m ts ca ti r Hdc Hm H P j J. cbn in Hdc, Hm. subst dc. unfold get_fullinputs in H. apply bind_ok in H as (r0 & U & H). unfold low_pos in P.
  unfold unpack in U. cbn [sp_mode sp_dc] in *. unfold complete in H. cbn [sp_mode sp_dc sp_dom sp_n] in H. destruct mode; [|congruence|]; cbn [mode_eqb andb orb] in H.
  - destruct ts as [|u [|l q]]; try discriminate U. injection U as <-. rewrite !andb_false_r in H. cbn in H. injection H as <-. exact (P j J).
  - destruct ts as [|x [|u [|wu [|bu [|l [|wl [|bl q]]]]]]]; try discriminate U. injection U as <-.
    rewrite andb_false_r, andb_true_r in H. destruct ti; cbn [orb] in H.
    + apply bind_ok in H as (ua & _ & H). apply bind_ok in H as (la & _ & H). injection H as <-. cbn. unfold vt. eapply Rlt_le_trans; [exact (P j J)|apply Rmax_l].
    + injection H as <-. exact (P j J).
Qed.
Lemma sum_low_pos : forall sp pre k e o, sp_dc sp = false -> (0 < k)%nat -> op_sum sp (pre ++ [k]) (-1) e = Ok o -> low_pos sp (prodn (pre ++ [k])) e ->
  low_pos sp (prodn (pre ++ [])) o.
Proof.
  intros sp pre k e o Hdc K H P. unfold op_sum in H. apply bind_ok in H as (r & Er & H). cbv zeta in H.
  rewrite (axis_ok_b (sp_mode sp) pre k [] (-1)) in H by (right; split; [reflexivity|left; reflexivity]). cbn [bind] in H.
  destruct (mode_eqb (sp_mode sp) AFFINE) eqn:M; [destruct (sp_mode sp) eqn:Em; try discriminate M; unfold low_pos; rewrite Em; exact I|].
  assert (Hm : sp_mode sp <> AFFINE) by (intro Q; rewrite Q in M; discriminate M).
  assert (Hi : get_ibp (sp_mode sp) = true) by (destruct (sp_mode sp); [reflexivity|congruence|reflexivity]).
  pose proof (full_low_pos sp _ e false true r Hdc Hm Er P) as Q.
  apply bind_ok in H as (aw & _ & H). unfold finish in H. rewrite Hdc in H. injection H as <-. rewrite Hi.
  assert (G : forall j, (j < prodn (pre ++ []))%nat -> 0 < red_axis rsum (pre ++ [k]) (length pre) (f_lc r) 0%nat j).
  { intros j J. destruct (position_split pre [] j J) as (p & q & Ip & Iq & ->). unfold red_axis. rewrite ax_len_mid. rewrite <- (rsum_0 k) at 1. apply rsum_lt; [exact K|].
    intros c C. rewrite slice_at by assumption. apply Q. apply position_mid_lt; assumption. }
  unfold low_pos. destruct (sp_mode sp); [exact G|congruence|exact G].
Qed.

(** a sum on the default domain *)
Lemma sum_default_eq : forall D mode n s ts o, (mode = HYBRID -> D = Box) -> op_sum (mk_spec false mode D n) s (-1) ts = Ok o ->
  sum_default (mk_spec false mode D n) s ts = Ok o.
Proof.
  intros D mode n s ts o HD H. destruct mode.
  - unfold sum_default. cbn [sp_mode sp_n]. rewrite <- H. reflexivity.
  - unfold sum_default. cbn [sp_mode sp_n]. rewrite <- H. reflexivity.
  - rewrite (HD eq_refl) in *. unfold sum_default. cbn [sp_mode sp_n sp_dom]. destruct ts as [|x q]; [exact H|].
    cbn [with_box_x read_as_box bind]. rewrite H. cbn [bind].
    unfold op_sum in H. apply bind_ok in H as (r & Er & H). apply bind_ok in H as (ab & _ & H). apply bind_ok in H as (aw & _ & H). unfold finish in H. cbn [sp_dc sp_mode] in H. injection H as <-.
    cbn [extract app tl f_x]. do 2 f_equal. unfold get_fullinputs in Er. cbn [sp_mode sp_dc] in Er. apply bind_ok in Er as (r0 & U & Er).
    unfold unpack in U. destruct q as [|u [|wu [|bu [|l [|wl [|bl q]]]]]]; try discriminate U. injection U as <-.
    unfold complete in Er. cbn [sp_mode mode_eqb andb orb] in Er. apply bind_ok in Er as (ua & _ & Er). apply bind_ok in Er as (la & _ & Er). injection Er as <-. reflexivity.
Qed.

Lemma bcast_full : forall D ibp affine S n m k f r, (0 < k)%nat -> vfull D ibp affine S n m f r ->
  vfull D ibp affine S n (m * k) (fun z q => f z (q / k)%nat) (bcast k r).
Proof.
  intros D ibp affine S n m k f r K [C A].
  assert (J : forall j, (j < m * k)%nat -> (j / k < m)%nat) by (intros j Hj; apply Nat.div_lt_upper_bound; lia).
  split.
  - intros Hi z j Z Hj. cbn. apply (C Hi z _ Z (J j Hj)).
  - intros Ha. destruct (A Ha) as [X B]. split; [exact X|]. intros z j Z Hj. apply (B z _ Z (J j Hj)).
Qed.

Theorem cce_sound : forall ke D mode n S pre k f g ts, 0 < ke -> (0 < n)%nat -> (0 < k)%nat -> dom_ok D mode -> (mode = HYBRID -> D = Box) ->
  cross_entropy_of pre k f g ->
  op_sp (mk_spec false mode D n) S (prodn (pre ++ [k])) f ts ->
  intervals (wide ke) (mk_spec false mode D n) (prodn (pre ++ [k])) ts ->
  (mode = AFFINE -> forall e o r, op_exp ke (mk_spec false mode D n) ts = Ok e -> op_sum (mk_spec false mode D n) (pre ++ [k]) (-1) e = Ok o ->
     get_fullinputs (mk_spec false mode D n) true true o = Ok r -> forall j, (j < prodn pre)%nat -> ke <= f_lc r 0%nat j) ->
  exists out, categorical_cross_entropy ke (mk_spec false mode D n) (pre ++ [k]) ts = Ok out /\
    op_sp (mk_spec false mode D n) S (prodn (pre ++ [k])) g out.
Proof.
  intros ke D mode n S pre k f g ts Hke Hn K Hd HD Hg V W LA. set (sp := mk_spec false mode D n) in *.
  unfold categorical_cross_entropy.
  destruct (exp_sound ke sp S _ f ts Hke Hn Hd eq_refl V W) as (e & Ee & Ve). rewrite Ee. cbn [bind].
  set (gs := fun (z : vec) (q : nat) => rsum k (fun c => exp (f z (q * k + c)%nat))).
  assert (Hgs : along_axis rsum pre k [] (fun z j => exp (f z j)) gs).
  { intros z p q Ip Iq. inversion Iq; subst. rewrite !app_nil_r. unfold gs. apply rsum_ext. intros c Hc.
    rewrite ravel_flat by auto. unfold flat. cbn [prodn ravel]. do 2 f_equal. lia. }
  destruct (sum_sound sp S pre k [] (-1) _ gs e Hn Hd eq_refl ltac:(right; split; [reflexivity|left; reflexivity]) Hgs Ve) as (o & Eo & Vo).
  pose proof (sum_default_eq D mode n _ e o HD Eo) as Es. fold sp in Es. rewrite Es. cbn [bind].
  destruct (log_sound ke sp S _ gs o Hke Hn Hd eq_refl Vo) as (lg & El & Vl).
  { intros r Er j J. unfold log_dom. cbn [sp sp_mode]. destruct mode.
    - apply (full_low_pos sp (prodn (pre ++ [])) o true true r eq_refl); [discriminate|exact Er| |exact J]. apply (sum_low_pos sp pre k e o eq_refl K Eo). apply (exp_low_pos ke sp _ ts e eq_refl Ee).
    - rewrite app_nil_r in J. apply (LA eq_refl e o r Ee Eo Er j J).
    - apply (full_low_pos sp (prodn (pre ++ [])) o true true r eq_refl); [discriminate|exact Er| |exact J]. apply (sum_low_pos sp pre k e o eq_refl K Eo). apply (exp_low_pos ke sp _ ts e eq_refl Ee). }
  rewrite El. cbn [bind]. unfold expand_dims.
  destruct (get_full_sound sp false false S _ _ lg Hn Hd Vl) as (r & Er & Vr). rewrite Er. cbn [bind].
  rewrite orb_false_r in Vr. destruct (finish_sound sp S _ _ r eq_refl Vr) as (ex & Ex & Vx). rewrite Ex. cbn [bind].
  destruct (minus_sound sp S _ f ts Hn Hd V) as (mi & Em & Vm). rewrite Em. cbn [bind].
  destruct (get_full_sound sp true true S _ _ mi Hn Hd Vm) as (r0 & E0 & V0). rewrite E0. cbn [bind].
  destruct (get_full_sound sp true true S _ _ ex Hn Hd Vx) as (r1 & E1 & V1). rewrite E1. cbn [bind].
  replace (ax_len (pre ++ [k]) (length (pre ++ [k]) - 1)) with k.
  2:{ rewrite app_length. cbn [length]. replace (length pre + 1 - 1)%nat with (length pre) by lia. rewrite ax_len_mid. auto. }
  apply (bcast_full _ _ _ _ _ _ k _ _ K) in V1.
  assert (Em' : prodn (pre ++ [k]) = (prodn (pre ++ []) * k)%nat) by (rewrite !prodn_app; cbn [prodn]; lia).
  eexists. split; [reflexivity|].
  apply (op_sp_ext sp S _ (fun z j => - f z j + ln (gs z (j / k)%nat))).
  { intros z j Z J. destruct (position_split pre [k] j J) as (p & q & Ip & Iq & ->).
    inversion Iq as [|? c ? q' Hc Hq]; subst. inversion Hq; subst. rewrite Hg by auto. unfold cross_entropy. do 2 f_equal.
    rewrite ravel_flat by auto. unfold flat. cbn [prodn ravel]. replace ((ravel pre p * k + c) * 1 + 0)%nat with (ravel pre p * k + c)%nat by lia. rewrite flat_div by auto.
    unfold gs. apply rsum_ext. intros c' Hc'. rewrite ravel_flat by auto. unfold flat. cbn [prodn ravel].
    do 2 f_equal. lia. }
  unfold op_sp. rewrite Em' in *. apply vfull_valid. rewrite orb_true_r in *. destruct V0 as [C0 A0]. destruct V1 as [C1 A1]. split.
  - intros _ z j Hz Hj. cbn [add_full f_uc f_lc ew2]. specialize (C0 eq_refl z j Hz Hj). specialize (C1 eq_refl z j Hz Hj). cbn beta in C0, C1. unfold add_full, ew2 in *. cbn in *. lra.
  - intros Ha. destruct (A0 Ha) as [X0 B0]. destruct (A1 Ha) as [X1 B1]. split; [exact X0|].
    intros z j Hz Hj. cbn [add_full f_wu f_bu f_wl f_bl]. specialize (B0 z j Hz Hj). specialize (B1 z j Hz Hj). cbn beta in B0, B1.
    rewrite (aff_plus _ (f_wl r0) (f_wl (bcast k r1)) (f_bl r0 0%nat) (f_bl (bcast k r1) 0%nat)).
    rewrite (aff_plus _ (f_wu r0) (f_wu (bcast k r1)) (f_bu r0 0%nat) (f_bu (bcast k r1) 0%nat)). lra.
Qed.
