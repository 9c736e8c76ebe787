(** The upper line of the softplus relaxation is below softplus at both ends of every box. *)
From Coq Require Import Reals List Arith Bool Lra Lia.
From Verif Require Import RLib Spec Spec_Layers Spec_Backward M_Core M_Utils M_MergeLayers M_Ops M_Layers M_Pool M_Backward P_Core P_Utils P_UtilsThm P_Ops P_Act P_BackwardOps P_Backward.
Import ListNotations.
Local Open Scope R_scope.

Lemma softplus_above : forall x, 0 < softplus x /\ x < softplus x.
Proof.
  intros x. unfold softplus. pose proof (exp_pos x). split; [rewrite <- ln_1; apply ln_increasing; lra|].
  rewrite <- (ln_exp x) at 1. apply ln_increasing; lra.
Qed.
Lemma softsign_below : forall x, softsign x < softplus x.
Proof.
  intros x. destruct (softplus_above x) as [H1 H2]. unfold softsign. destruct (Rle_dec x 0).
  - apply Rle_lt_trans with 0; [|exact H1]. assert (0 < 1 + Rabs x) by (pose proof (Rabs_pos x); lra). assert (0 < / (1 + Rabs x)) by (apply Rinv_0_lt_compat; lra). unfold Rdiv. nra.
  - apply Rle_lt_trans with x; [|exact H2]. assert (D : 1 <= 1 + Rabs x) by (pose proof (Rabs_pos x); lra). assert (/ (1 + Rabs x) <= 1) by (rewrite <- Rinv_1; apply Rinv_le_contravar; lra).
    unfold Rdiv. nra.
Qed.
Lemma softsign_mono : forall x y, x <= y -> softsign x <= softsign y.
Proof.
  intros x y H. unfold softsign. assert (P : forall t, 0 < 1 + Rabs t) by (intros t; pose proof (Rabs_pos t); lra).
  apply (Rmult_le_reg_r ((1 + Rabs x) * (1 + Rabs y))); [apply Rmult_lt_0_compat; apply P|].
  replace (x / (1 + Rabs x) * ((1 + Rabs x) * (1 + Rabs y))) with (x * (1 + Rabs y)) by (field; pose proof (P x); lra).
  replace (y / (1 + Rabs y) * ((1 + Rabs x) * (1 + Rabs y))) with (y * (1 + Rabs x)) by (field; pose proof (P y); lra).
  unfold Rabs. destruct (Rcase_abs x), (Rcase_abs y); nra.
Qed.
Lemma hull_softplus_below : forall ke sl u l, 0 < ke -> sl <> A_SLOPE -> l <= u ->
  exists h, hull_softplus ke sl None u l = Ok h /\ h_wu h * u + h_bu h < softplus u /\ h_wu h * l + h_bu h < softplus l.
Proof.
  intros ke sl u l Hke Hsl H.
  set (a := (softsign u - softsign l) / Rmax ke (u - l)).
  assert (E : exists h, hull_softplus ke sl None u l = Ok h /\ h_wu h = (1 - index_dead u) * a /\ h_bu h = (1 - index_dead u) * (- a * l + softsign l)).
  { unfold hull_softplus. fold a. destruct sl; try congruence; eexists; (split; [reflexivity|]); split; reflexivity. }
  destruct E as (h & Eh & W & B). exists h. split; [exact Eh|]. rewrite W, B. destruct (Rle_dec u 0).
  - rewrite index_dead_1 by assumption. destruct (softplus_above u), (softplus_above l). split; lra.
  - rewrite index_dead_0 by lra. pose proof (softsign_below u). pose proof (softsign_below l). pose proof (softsign_mono l u H).
    assert (A : a * (u - l) <= softsign u - softsign l).
    { unfold a, Rdiv. assert (0 < Rmax ke (u - l)) by (pose proof (Rmax_l ke (u - l)); lra). assert (I : / Rmax ke (u - l) * (u - l) <= 1).
      { apply (Rmult_le_reg_l (Rmax ke (u - l))); [assumption|]. rewrite <- Rmult_assoc, Rinv_r by lra. pose proof (Rmax_r ke (u - l)). lra. }
      rewrite Rmult_assoc. nra. }
    split; lra.
Qed.

Lemma softplus_everywhere : forall ke sl a b, 0 < ke -> sl <> A_SLOPE -> a <= b ->
  exists out, op_softplus ke (mk_spec false AFFINE Box 1) sl 1 (id_affine a b) = Ok out /\
    aff 1 (nth 1 out empty_tensor) (nth 2 out empty_tensor 0%nat) (fun _ => a) 0%nat < ln (1 + exp a) /\
    aff 1 (nth 1 out empty_tensor) (nth 2 out empty_tensor 0%nat) (fun _ => b) 0%nat < ln (1 + exp b).
Proof.
  intros ke sl a b Hke Hsl Hab. unfold op_softplus. rewrite id_full. cbn [bind get_affine sp_mode hulls f_uc f_lc].
  change (vt (fun _ : nat => b) 0%nat 0%nat) with b. change (vt (fun _ : nat => a) 0%nat 0%nat) with a.
  destruct (hull_softplus_below ke sl b a Hke Hsl Hab) as (h & Eh & Hb & Ha). rewrite Eh. cbn [bind app]. eexists. split; [reflexivity|].
  unfold softplus in *. unfold aff, dot. cbn. split; lra.
Qed.
Lemma hulls_all : forall A (hl : nat -> result A) (g : nat -> A) m, (forall j, (j < m)%nat -> hl j = Ok (g j)) -> hulls hl m = Ok (map g (seq 0 m)).
Proof.
  intros A hl g m. induction m as [|m IH]; intros H; [reflexivity|]. cbn [hulls]. rewrite IH by (intros j Hj; apply H; lia). cbn [bind]. rewrite H by lia. cbn [bind].
  rewrite seq_S, map_app. reflexivity.
Qed.
Definition sp_line (ke : R) (sl : slope) (u l : R) : hull := match hull_softplus ke sl None u l with Ok h => h | Err _ => zero_hull end.
Lemma bsoftplus_everywhere : forall ke sl n m (u l : vec), 0 < ke -> sl <> A_SLOPE -> (forall j, (j < m)%nat -> l j <= u j) ->
  exists B, backward_activation ke (mk_spec false IBP Box n) ActSoftplus sl None m [vt u; vt l] = Ok B /\
    forall j, (j < m)%nat -> aff m (bb_wu B) (bb_bu B) l j < ln (1 + exp (l j)) /\ aff m (bb_wu B) (bb_bu B) u j < ln (1 + exp (u j)).
Proof.
  intros ke sl n m u l Hke Hsl H. unfold backward_activation, backward_softplus. cbn [sp_dc].
  assert (E : exists r, get_fullinputs (mk_spec false IBP Box n) true true [vt u; vt l] = Ok r /\ f_uc r = vt u /\ f_lc r = vt l)
    by (eexists; split; [reflexivity|]; split; reflexivity).
  destruct E as (r & E & U & L). rewrite E. cbn [bind option_map]. rewrite U, L. unfold vt.
  rewrite (hulls_all _ _ (fun j => sp_line ke sl (u j) (l j)) m).
  2:{ intros j Hj. unfold sp_line. destruct (hull_softplus_below ke sl (u j) (l j) Hke Hsl (H j Hj)) as (h & Eh & _). rewrite Eh. reflexivity. }
  cbn [bind]. eexists. split; [reflexivity|]. intros j Hj.
  assert (N : nth j (map (fun j => sp_line ke sl (u j) (l j)) (seq 0 m)) zero_hull = sp_line ke sl (u j) (l j)).
  { rewrite (nth_indep _ zero_hull (sp_line ke sl (u 0%nat) (l 0%nat))) by (rewrite map_length, seq_length; exact Hj).
    rewrite (map_nth (fun j => sp_line ke sl (u j) (l j)) (seq 0 m) 0%nat j). rewrite seq_nth by exact Hj. reflexivity. }
  unfold hull_bb. cbn [bb_wu bb_bu]. rewrite !aff_diag by exact Hj. rewrite N. unfold sp_line.
  destruct (hull_softplus_below ke sl (u j) (l j) Hke Hsl (H j Hj)) as (h & Eh & Hb & Ha). rewrite Eh. unfold softplus in *. split; lra.
Qed.
