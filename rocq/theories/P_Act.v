(** Proofs about M_Ops: exp, log, 1/z, softplus, softmax, abs. *)
From Coq Require Import Reals Lra Lia Psatz List Arith Bool ZArith FunctionalExtensionality.
From Verif Require Import RLib Spec M_Core M_Utils M_MergeLayers M_Ops P_Core P_Utils P_MergeLayers P_UtilsThm P_Axis P_Ops.
Import ListNotations.
Local Open Scope R_scope.

(** ** convexity *)
Lemma exp_tangent : forall y z, exp y + exp y * (z - y) <= exp z.
Proof.
  intros. replace (exp z) with (exp y * exp (z - y)) by (rewrite <- exp_plus; f_equal; lra).
  pose proof (exp_ineq1_le (z - y)). pose proof (exp_pos y). nra.
Qed.

Lemma ln_tangent : forall y z, 0 < y -> 0 < z -> ln z <= ln y + (z - y) / y.
Proof.
  intros y z Hy Hz. pose proof (exp_ineq1_le (ln (z / y))) as H.
  assert (0 < z / y) by (apply Rdiv_lt_0_compat; auto).
  rewrite exp_ln in H by auto.
  assert (E : ln (z / y) = ln z - ln y).
  { unfold Rdiv. rewrite ln_mult by (auto; apply Rinv_0_lt_compat; auto). rewrite ln_Rinv by auto. lra. }
  rewrite E in H. replace ((z - y) / y) with (z / y - 1) by (field; lra). lra.
Qed.

Lemma exp_le : forall x y, x <= y -> exp x <= exp y.
Proof. intros x y [H|H]; [left; apply exp_increasing; auto | subst; right; auto]. Qed.
Lemma ln_le' : forall x y, 0 < x -> x <= y -> ln x <= ln y.
Proof. intros x y H [H'|H']; [left; apply ln_increasing; auto | subst; right; auto]. Qed.

(** a line above f at both ends of [l,u] is above a function with a tangent from below at z *)
Lemma chord_above : forall (F : R -> R) d l u z s, l <= z <= u -> l < u ->
  F z + d * (u - z) <= F u -> F z + d * (l - z) <= F l ->
  s = (F u - F l) / (u - l) -> F z <= F l + s * (z - l).
Proof.
  intros F d l u z s Hz Hlu Hu Hl ->.
  apply Rmult_le_reg_l with (u - l); [lra|].
  replace ((u - l) * (F l + (F u - F l) / (u - l) * (z - l))) with ((u - z) * F l + (z - l) * F u) by (field; lra).
  assert (0 <= (z - l) * (F u - (F z + d * (u - z)))) by (apply Rmult_le_pos; lra).
  assert (0 <= (u - z) * (F l - (F z + d * (l - z)))) by (apply Rmult_le_pos; lra).
  nra.
Qed.
Lemma chord_below : forall (F : R -> R) d l u z s, l <= z <= u -> l < u ->
  F u <= F z + d * (u - z) -> F l <= F z + d * (l - z) ->
  s = (F u - F l) / (u - l) -> F l + s * (z - l) <= F z.
Proof.
  intros F d l u z s Hz Hlu Hu Hl E.
  pose proof (chord_above (fun x => - F x) (- d) l u z (- s) Hz Hlu ltac:(lra) ltac:(lra)
    ltac:(rewrite E; field; lra)) as H. cbv beta in H. lra.
Qed.

(** ** exp *)
Lemma hull_exp_ok : forall ke u l z, 0 < ke -> l <= z <= u ->
  let h := hull_exp ke u l in
  0 <= h_wu h /\ 0 <= h_wl h /\ h_wl h * z + h_bl h <= exp z /\
  exp z <= h_wu h * z + h_bu h + (if Rlt_dec (u - l) ke then ke * exp u else 0) /\
  (wide ke u l -> exp z <= h_wu h * z + h_bu h).
Proof.
  intros ke u l z Hke Hz h.
  assert (E : exp l <= exp u) by (apply exp_le; lra).
  assert (M : 0 < Rmax (u - l) ke) by (eapply Rlt_le_trans; [exact Hke|apply Rmax_r]).
  assert (W : 0 <= (exp u - exp l) / Rmax (u - l) ke).
  { apply Rmult_le_pos; [lra|]. left. apply Rinv_0_lt_compat; auto. }
  assert (U : ke <= u - l -> exp z <= exp l + (exp u - exp l) / Rmax (u - l) ke * (z - l)).
  { intros H. rewrite Rmax_left by lra.
    apply (chord_above exp (exp z) l u z); auto; try lra; apply exp_tangent. }
  split; [exact W|]. split; [left; apply exp_pos|]. split; [|split].
  - unfold h, hull_exp. cbn. pose proof (exp_tangent ((u + l) / 2) z). nra.
  - unfold h, hull_exp. cbn. destruct (Rlt_dec (u - l) ke) as [Hs|Hs].
    + pose proof (exp_tangent u l). pose proof (exp_le z u ltac:(lra)). pose proof (exp_pos u).
      assert (0 <= (exp u - exp l) / Rmax (u - l) ke * (z - l)) by (apply Rmult_le_pos; lra). nra.
    + specialize (U ltac:(lra)). lra.
  - intros [Hw|Hw]; unfold h, hull_exp; cbn.
    + subst u. replace z with l by lra. lra.
    + specialize (U Hw). lra.
Qed.

(** every completed interval satisfies P (only needed for affine computations) *)
Definition intervals (P : R -> R -> Prop) (sp : spec) (m : nat) (ts : list tensor) : Prop :=
  sp_mode sp <> IBP -> forall r, get_fullinputs sp true true ts = Ok r ->
  forall j, (j < m)%nat -> P (f_uc r 0%nat j) (f_lc r 0%nat j).

Lemma exp_sound : forall ke sp S m f ts,
  0 < ke -> (0 < sp_n sp)%nat -> dom_ok (sp_dom sp) (sp_mode sp) -> sp_dc sp = false ->
  op_sp sp S m f ts -> intervals (wide ke) sp m ts ->
  exists out, op_exp ke sp ts = Ok out /\ op_sp sp S m (fun z j => exp (f z j)) out.
Proof.
  intros ke sp S m f ts Hke Hn Hd Hdc H Hw.
  destruct (get_full_sound sp true true S m f ts Hn Hd H) as (r & E & C & A).
  rewrite orb_true_r in C. specialize (C eq_refl).
  unfold op_exp. rewrite E. cbn [bind].
  apply (hull_out_sound sp S m f); auto.
  - intros _ z j Hz Hj. specialize (C z j Hz Hj). unfold ew. split; apply exp_le; lra.
  - intros Ha. destruct (A Ha) as [X B]. split; auto. split; auto. intros z j Hz Hj. specialize (C z j Hz Hj).
    assert (Hm : sp_mode sp <> IBP) by (intro K; rewrite K in Ha; discriminate).
    specialize (Hw Hm r E j Hj).
    destruct (hull_exp_ok ke (f_uc r 0%nat j) (f_lc r 0%nat j) (f z j) Hke C) as (P1 & P2 & P3 & _ & P4). auto.
Qed.

(** ** log *)
Lemma hull_log_ok : forall ke u l z, 0 < ke -> 0 < l -> l <= z <= u ->
  let h := hull_log ke u l in
  0 <= h_wu h /\ 0 <= h_wl h /\ h_wl h * z + h_bl h <= ln z <= h_wu h * z + h_bu h.
Proof.
  intros ke u l z Hke Hl Hz h.
  assert (E : ln l <= ln u) by (apply ln_le'; lra).
  assert (M : 0 < Rmax (u - l) ke) by (eapply Rlt_le_trans; [exact Hke|apply Rmax_r]).
  assert (W : 0 <= (ln u - ln l) / Rmax (u - l) ke).
  { apply Rmult_le_pos; [lra|]. left. apply Rinv_0_lt_compat; auto. }
  assert (Hy : 0 < (u + l) / 2) by lra.
  unfold h, hull_log. cbn. split; [|split; [exact W|split]].
  - left. apply Rdiv_lt_0_compat; lra.
  - destruct (Req_dec u l) as [->|Hne].
    + replace z with l by lra. lra.
    + assert (H1 : (ln u - ln l) / Rmax (u - l) ke <= (ln u - ln l) / (u - l)).
      { apply Rmult_le_compat_l; [lra|]. apply Rinv_le_contravar; [lra|apply Rmax_l]. }
      pose proof (chord_below ln (/ z) l u z ((ln u - ln l) / (u - l)) Hz ltac:(lra)) as H2.
      assert (T : forall x, 0 < x -> ln x <= ln z + / z * (x - z)).
      { intros x Hx. pose proof (ln_tangent z x ltac:(lra) Hx). unfold Rdiv in *. lra. }
      specialize (H2 (T u ltac:(lra)) (T l ltac:(lra)) eq_refl).
      assert (0 <= (z - l) * ((ln u - ln l) / (u - l) - (ln u - ln l) / Rmax (u - l) ke)) by (apply Rmult_le_pos; lra).
      nra.
  - pose proof (ln_tangent ((u + l) / 2) z Hy ltac:(lra)) as H.
    replace (1 / ((u + l) / 2) * z + (ln ((u + l) / 2) - 1)) with (ln ((u + l) / 2) + (z - (u + l) / 2) / ((u + l) / 2)); auto.
    field. lra.
Qed.

(** lower bounds required by log: positive constant bounds, and at least ke in affine mode *)
Definition log_dom (ke : R) (mode : fmode) (u l : R) : Prop :=
  match mode with AFFINE => ke <= l | _ => 0 < l end.

Lemma log_sound : forall ke sp S m f ts,
  0 < ke -> (0 < sp_n sp)%nat -> dom_ok (sp_dom sp) (sp_mode sp) -> sp_dc sp = false ->
  op_sp sp S m f ts ->
  (forall r, get_fullinputs sp true true ts = Ok r ->
     forall j, (j < m)%nat -> log_dom ke (sp_mode sp) (f_uc r 0%nat j) (f_lc r 0%nat j)) ->
  exists out, op_log ke sp ts = Ok out /\ op_sp sp S m (fun z j => ln (f z j)) out.
Proof.
  intros ke sp S m f ts Hke Hn Hd Hdc H Hpos.
  destruct (get_full_sound sp true true S m f ts Hn Hd H) as (r & E & C & A).
  rewrite orb_true_r in C. specialize (C eq_refl). specialize (Hpos r E).
  unfold op_log. rewrite E. cbn [bind].
  set (lc := if mode_eqb (sp_mode sp) AFFINE then ew (Rmax ke) (f_lc r) else f_lc r).
  assert (Hlc : forall j, (j < m)%nat -> lc 0%nat j = f_lc r 0%nat j /\ 0 < f_lc r 0%nat j).
  { intros j Hj. specialize (Hpos j Hj). unfold lc, log_dom in *. destruct (sp_mode sp); cbn; split; auto; try lra.
    unfold ew. apply Rmax_right; auto. }
  apply (hull_out_sound sp S m f); auto.
  - intros _ z j Hz Hj. specialize (C z j Hz Hj). destruct (Hlc j Hj) as [L1 L2]. unfold ew. rewrite L1.
    split; apply ln_le'; lra.
  - intros Ha. destruct (A Ha) as [X B]. split; auto. split; auto. intros z j Hz Hj. specialize (C z j Hz Hj).
    destruct (Hlc j Hj) as [L1 L2]. rewrite L1.
    destruct (hull_log_ok ke (f_uc r 0%nat j) (f_lc r 0%nat j) (f z j) Hke L2 C) as (P1 & P2 & P3); auto.
Qed.

(** ** completed identity on an interval *)
Lemma id_full : forall a b,
  get_fullinputs (mk_spec false AFFINE Box 1) true true (id_affine a b) =
  Ok (mk_full (idbox a b) (vt (fun _ => b)) (fun _ _ => 1) (fun _ _ => 0) (vt (fun _ => a)) (fun _ _ => 1) (fun _ _ => 0) empty_tensor empty_tensor).
Proof.
  intros. cbn. do 2 f_equal; f_equal; apply functional_extensionality; intros j;
  rewrite !(Rmax_left 1 0), !(Rmin_right 1 0) by lra; lra.
Qed.

Lemma id_full_ft : forall a b,
  get_fullinputs (mk_spec false AFFINE Box 1) false true (id_affine a b) =
  Ok (mk_full (idbox a b) empty_tensor (fun _ _ => 1) (fun _ _ => 0) empty_tensor (fun _ _ => 1) (fun _ _ => 0) empty_tensor empty_tensor).
Proof. reflexivity. Qed.

(** counter-example format: affine mode, one input, one neuron *)
Definition upper_fails (op : list tensor -> result (list tensor)) (phi : R -> R) (a b : R) : Prop :=
  exists out z, op (id_affine a b) = Ok out /\ a <= z 0%nat <= b /\
    aff 1 (nth 1 out empty_tensor) (nth 2 out empty_tensor 0%nat) z 0%nat < phi (z 0%nat).
Definition lower_fails (op : list tensor -> result (list tensor)) (phi : R -> R) (a b : R) : Prop :=
  exists out z, op (id_affine a b) = Ok out /\ a <= z 0%nat <= b /\
    phi (z 0%nat) < aff 1 (nth 3 out empty_tensor) (nth 4 out empty_tensor 0%nat) z 0%nat.
Notation sp1 := (mk_spec false AFFINE Box 1).

Lemma exp_short_refuted : forall ke, 0 < ke -> upper_fails (op_exp ke sp1) exp 0 (ke / 2).
Proof.
  intros ke Hke. unfold upper_fails, op_exp. rewrite id_full. eexists. exists (fun _ => ke / 2).
  split; [reflexivity|]. split; [lra|].
  unfold aff, dot. cbn [nth rsum]. cbn. unfold vt.
  rewrite (Rmax_right (ke / 2 - 0) ke) by lra. rewrite exp_0.
  assert (1 < exp (ke / 2)) by (rewrite <- exp_0; apply exp_increasing; lra).
  replace ((exp (ke / 2) - 1) / ke * 1 * (ke / 2)) with ((exp (ke / 2) - 1) / 2) by (field; lra).
  lra.
Qed.

Lemma log_small_refuted : forall ke, 0 < ke -> lower_fails (op_log ke sp1) ln (ke / 4) (ke / 2).
Proof.
  intros ke Hke. unfold lower_fails, op_log. rewrite id_full. eexists. exists (fun _ => ke / 4).
  split; [reflexivity|]. split; [lra|].
  unfold aff, dot. cbn [nth rsum]. cbn. unfold vt, ew.
  rewrite (Rmax_left ke (ke / 4)) by lra. rewrite (Rmax_right (ke / 2 - ke) ke) by lra.
  assert (E2 : ln (ke / 2) = ln ke - ln 2) by (unfold Rdiv; rewrite ln_mult, ln_Rinv by lra; lra).
  assert (E4 : ln (ke / 4) = ln ke - 2 * ln 2).
  { unfold Rdiv. rewrite ln_mult, ln_Rinv by lra. replace 4 with (2 * 2) by lra. rewrite ln_mult by lra. lra. }
  rewrite E2, E4. pose proof ln_lt_2. assert (0 < ln 2) by lra.
  replace ((ln ke - ln 2 - ln ke) / ke * 1 * (ke / 4)) with (- ln 2 / 4) by (field; lra).
  replace ((ln ke - ln 2 - ln ke) / ke * ke) with (- ln 2) by (field; lra). lra.
Qed.

(** ** 1/z *)
Lemma frac_pos_ibp : forall ke sp S m f ts,
  (0 < sp_n sp)%nat -> sp_mode sp = IBP -> sp_dc sp = false ->
  op_sp sp S m f ts ->
  (forall r, get_fullinputs sp true true ts = Ok r -> forall j, (j < m)%nat -> 0 < f_lc r 0%nat j) ->
  exists out, frac_pos ke sp ts = Ok out /\ op_sp sp S m (fun z j => / f z j) out.
Proof.
  intros ke sp S m f ts Hn Hm Hdc H Hpos.
  destruct (get_full_sound sp true true S m f ts Hn) as (r & E & C & A); auto.
  { rewrite Hm. exact I. }
  rewrite orb_true_r in C. specialize (C eq_refl). specialize (Hpos r E).
  unfold frac_pos. rewrite E. cbn [bind]. apply finish_sound; auto. split.
  - intros Hi. unfold frac_full. rewrite Hi. cbn. intros z j Hz Hj.
    specialize (C z j Hz Hj). specialize (Hpos j Hj). unfold Rdiv. rewrite !Rmult_1_l.
    split; apply Rinv_le_contravar; lra.
  - rewrite Hm. discriminate.
Qed.

Lemma frac_pos_refuted : forall ke, 0 < ke <= 1 -> upper_fails (frac_pos ke sp1) Rinv 1 3.
Proof.
  intros ke Hke. unfold upper_fails, frac_pos. rewrite id_full. eexists. exists (fun _ => 1).
  split; [reflexivity|]. split; [lra|].
  unfold aff, dot. cbn [nth rsum]. cbn. unfold vt. rewrite (Rmax_left (3 - 1) ke) by lra. lra.
Qed.

(** the affine bounds of 1/z are wrong on every interval of positive numbers that is at least ke wide *)
Lemma frac_pos_upper_wrong : forall ke a b, 0 < ke -> 0 < a -> ke <= b - a -> upper_fails (frac_pos ke sp1) Rinv a b.
Proof.
  intros ke a b Hke Ha Hb. unfold upper_fails, frac_pos. rewrite id_full. eexists. exists (fun _ => a).
  split; [reflexivity|]. split; [lra|].
  unfold aff, dot. cbn [nth rsum]. cbn. unfold vt. rewrite (Rmax_left (b - a) ke) by lra.
  replace (0 + (1 / a - 1 / b) / (b - a) * 1 * a + ((1 / b - (1 / a - 1 / b) / (b - a) * a) * 0 + (1 / b - (1 / a - 1 / b) / (b - a) * a)))
    with (/ b) by (field; lra).
  apply Rinv_lt_contravar; [nra|lra].
Qed.

(** ** softplus *)
Lemma softplus_le : forall x y, x <= y -> softplus x <= softplus y.
Proof.
  intros. unfold softplus. apply ln_le'; [pose proof (exp_pos x); lra|]. pose proof (exp_le x y H). lra.
Qed.

Lemma softplus_ibp : forall ke sp sl S m f ts,
  (0 < sp_n sp)%nat -> sp_mode sp = IBP -> sp_dc sp = false ->
  op_sp sp S m f ts ->
  exists out, op_softplus ke sp sl m ts = Ok out /\ op_sp sp S m (fun z j => ln (1 + exp (f z j))) out.
Proof.
  intros ke sp sl S m f ts Hn Hm Hdc H.
  destruct (get_full_sound sp true true S m f ts Hn) as (r & E & C & A); auto.
  { rewrite Hm. exact I. }
  rewrite orb_true_r in C. specialize (C eq_refl).
  unfold op_softplus. rewrite E. cbn [bind]. rewrite Hm. cbn [get_affine bind].
  apply (hull_out_sound sp S m f); auto.
  - intros _ z j Hz Hj. specialize (C z j Hz Hj). unfold ew. split; apply softplus_le; lra.
  - rewrite Hm. discriminate.
Qed.

Lemma softplus_A : forall ke sp S m f ts,
  (0 < sp_n sp)%nat -> dom_ok (sp_dom sp) (sp_mode sp) -> sp_mode sp <> IBP -> (0 < m)%nat ->
  op_sp sp S m f ts -> op_softplus ke sp A_SLOPE m ts = Err ValueError.
Proof.
  intros ke sp S m f ts Hn Hd Hm Hm0 H.
  destruct (get_full_sound sp true true S m f ts Hn Hd H) as (r & E & _).
  unfold op_softplus. rewrite E. cbn [bind].
  replace (get_affine (sp_mode sp)) with true by (destruct (sp_mode sp); auto; congruence).
  assert (G : forall k, hulls (fun j => hull_softplus ke A_SLOPE None (f_uc r 0%nat j) (f_lc r 0%nat j)) (Datatypes.S k) = Err ValueError).
  { induction k; [reflexivity|]. change (hulls (fun j => hull_softplus ke A_SLOPE None (f_uc r 0%nat j) (f_lc r 0%nat j)) (Datatypes.S (Datatypes.S k)))
      with (q <- hulls (fun j => hull_softplus ke A_SLOPE None (f_uc r 0%nat j) (f_lc r 0%nat j)) (Datatypes.S k) ;
            a <- hull_softplus ke A_SLOPE None (f_uc r 0%nat (Datatypes.S k)) (f_lc r 0%nat (Datatypes.S k)) ; Ok (q ++ [a])).
    rewrite IHk. reflexivity. }
  destruct m; [lia|]. rewrite G. reflexivity.
Qed.

Lemma softplus_refuted : forall ke sl, 0 < ke -> sl <> A_SLOPE ->
  upper_fails (op_softplus ke sp1 sl 1) (fun z => ln (1 + exp z)) (-1) 0.
Proof.
  intros ke sl Hke Hsl. unfold upper_fails, op_softplus. rewrite id_full. cbn [bind get_affine sp_mode hulls f_uc f_lc].
  change (vt (fun _ : nat => 0) 0%nat 0%nat) with 0. change (vt (fun _ : nat => -1) 0%nat 0%nat) with (-1).
  assert (G : exists h, hull_softplus ke sl None 0 (-1) = Ok h /\ h_wu h = 0 /\ h_bu h = 0).
  { unfold hull_softplus. rewrite index_dead_1 by lra.
    destruct sl; try congruence; eexists; (split; [reflexivity|]); cbn; split; ring. }
  destruct G as (h & Eh & W & B). rewrite Eh. cbn [bind app]. eexists. exists (fun _ => 0).
  split; [reflexivity|]. split; [lra|]. unfold aff, dot. cbn. rewrite W, B. rewrite exp_0.
  pose proof ln_lt_2. replace (1 + 1) with 2 by lra. lra.
Qed.

(** ** abs *)
Definition abs_gaps (ke : R) (sp : spec) (m : nat) (ts : list tensor) : Prop :=
  gaps_ok ke sp m ts /\ forall t, minus sp ts = Ok t -> gaps_ok ke sp m t.

Lemma abs_is_identity : forall ke sp S m f ts,
  0 < ke -> (0 < sp_n sp)%nat -> dom_ok (sp_dom sp) (sp_mode sp) -> sp_dc sp = false ->
  op_sp sp S m f ts -> abs_gaps ke sp m ts ->
  exists out, op_abs ke sp ts = Ok out /\ op_sp sp S m f out.
Proof.
  intros ke sp S m f ts Hke Hn Hd Hdc H [G1 G2]. unfold op_abs. rewrite (no_dc_id sp Hdc).
  destruct (relu_sound ke sp V_SLOPE None S m f ts Hke Hn Hd I H G1) as (r0 & E0 & V0). rewrite E0. cbn [bind].
  destruct (minus_sound sp S m f ts Hn Hd H) as (t & Et & Vt). rewrite Et. cbn [bind].
  destruct (relu_sound ke sp V_SLOPE None S m _ t Hke Hn Hd I Vt (G2 t Et)) as (r1 & E1 & V1). rewrite E1. cbn [bind].
  destruct (minus_sound sp S m _ r1 Hn Hd V1) as (t1 & Et1 & Vt1). rewrite Et1. cbn [bind].
  destruct (add_sound sp S m _ _ r0 t1 Hn Hd V0 Vt1) as (o & Eo & Vo). exists o. split; auto.
  eapply op_sp_ext; [|exact Vo]. intros. cbn. unfold Rrelu. rcases.
Qed.

(** with intervals, the result is exactly the input *)
Lemma abs_ibp : forall ke D n (u l : tensor),
  exists u' l', op_abs ke (mk_spec false IBP D n) [u; l] = Ok [u'; l'] /\
    (forall i j, u' i j = u i j) /\ (forall i j, l' i j = l i j).
Proof.
  intros. unfold op_abs, relu_, minus, add, get_fullinputs, no_dc. cbn.
  do 2 eexists. split; [reflexivity|]. split; intros i j; cbn; unfold Rrelu; rcases.
Qed.

(** ** softmax, interval mode *)
Definition softmax_of (sgn : R) (pre : list nat) (k : nat) (f g : vec -> vec) : Prop :=
  forall z p c, in_shape pre p -> (c < k)%nat ->
    g z (ravel (pre ++ [k]) (p ++ [c])) =
    exp (sgn * f z (ravel (pre ++ [k]) (p ++ [c]))) / rsum k (fun c' => exp (sgn * f z (ravel (pre ++ [k]) (p ++ [c'])))).

Lemma op_sp_ibp : forall D n S m f (u l : tensor), const_ok S m f (u 0%nat) (l 0%nat) ->
  op_sp (mk_spec false IBP D n) S m f [u; l].
Proof. intros. split; auto. Qed.
Lemma op_sp_ibp_inv : forall D n S m f ts, op_sp (mk_spec false IBP D n) S m f ts ->
  exists u l, ts = [u; l] /\ const_ok S m f (u 0%nat) (l 0%nat).
Proof.
  intros D n S m f ts [L V]. cbn in L. destruct ts as [|u [|l [|? ?]]]; try discriminate. exists u, l. auto.
Qed.

Lemma softmax_ibp : forall ke D n S pre k f g ts,
  (0 < n)%nat -> (0 < k)%nat -> softmax_of (-1) pre k f g ->
  op_sp (mk_spec false IBP D n) S (prodn (pre ++ [k])) f ts ->
  exists out, softmax ke (mk_spec false IBP D n) (pre ++ [k]) ts = Ok out /\
    op_sp (mk_spec false IBP D n) S (prodn (pre ++ [k])) g out.
Proof.
  intros ke D n S pre k f g ts Hn Hk Hg H.
  destruct (op_sp_ibp_inv _ _ _ _ _ _ H) as (u & l & -> & C).
  set (sp := mk_spec false IBP D n) in *.
  unfold softmax. cbn [sp sp_dc].
  destruct (minus_sound sp S _ f [u; l] Hn I H) as (t & Et & Vt). rewrite Et. cbn [bind].
  destruct (exp_sound 1 sp S _ _ t ltac:(lra) Hn I eq_refl Vt ltac:(intros K; cbn in K; congruence)) as (e & Ee & Ve).
  assert (Ee' : op_exp ke sp t = Ok e).
  { destruct (op_sp_ibp_inv _ _ _ _ _ _ Vt) as (tu & tl & -> & _). exact Ee. }
  rewrite Ee'. cbn [bind].
  set (gs := fun (z : vec) (q : nat) => rsum k (fun c => exp (- f z (q * k + c)%nat))).
  assert (Hgs : along_axis rsum pre k [] (fun z j => exp (- f z j)) gs).
  { intros z p q Ip Iq. inversion Iq; subst. rewrite !app_nil_r. unfold gs. apply rsum_ext. intros c Hc.
    rewrite ravel_flat by auto. unfold flat. cbn [prodn ravel]. do 3 f_equal. lia. }
  destruct (sum_sound sp S pre k [] (-1) _ gs e Hn I eq_refl ltac:(right; split; [reflexivity|left; reflexivity]) Hgs Ve) as (sm & Esm & Vsm).
  rewrite Esm. cbn [bind].
  (* positivity of the lower bound of the sum *)
  assert (Pos : forall r, get_fullinputs sp true true sm = Ok r -> forall j, (j < prodn (pre ++ []))%nat -> 0 < f_lc r 0%nat j).
  { intros r Hr j Hj.
    assert (Et2 : exists tu tl, t = [tu; tl]) by (destruct (op_sp_ibp_inv _ _ _ _ _ _ Vt) as (tu & tl & -> & _); eauto).
    destruct Et2 as (tu & tl & ->). unfold op_exp in Ee. cbn in Ee. injection Ee as <-.
    unfold op_sum in Esm. cbn [get_fullinputs unpack bind complete andb orb mode_eqb sp sp_mode sp_dc] in Esm.
    rewrite (axis_ok_b IBP pre k [] (-1)) in Esm by (right; split; [reflexivity|left; reflexivity]).
    cbn in Esm. injection Esm as <-. cbn in Hr. injection Hr as <-. cbn.
    unfold red_axis, slice. rewrite ax_len_mid. rewrite <- (rsum_0 k) at 1. apply rsum_lt; auto. intros. apply exp_pos. }
  destruct (frac_pos_ibp ke sp S _ gs sm Hn eq_refl eq_refl Vsm Pos) as (fr & Efr & Vfr).
  rewrite Efr. cbn [bind].
  destruct (op_sp_ibp_inv _ _ _ _ _ _ Vfr) as (fu & fl & -> & Cfr).
  cbn [get_fullinputs unpack bind complete andb orb mode_eqb sp_mode sp_dc sp].
  replace (ax_len (pre ++ [k]) (length (pre ++ [k]) - 1)) with k.
  2:{ rewrite app_length. cbn [length]. replace (length pre + 1 - 1)%nat with (length pre) by lia. rewrite ax_len_mid. auto. }
  cbn [extract bcast f_uc f_lc app].
  assert (Vb : op_sp sp S (prodn (pre ++ [k])) (fun z q => / gs z (q / k)%nat) [fun i q => fu i (q / k)%nat; fun i q => fl i (q / k)%nat]).
  { apply op_sp_ibp. intros z j Hz Hj. apply Cfr; auto. rewrite app_nil_r. apply Nat.div_lt_upper_bound; [lia|].
    rewrite prodn_app in Hj. cbn [prodn] in Hj. lia. }
  destruct (multiply_sound sp S _ _ _ e _ Hn I eq_refl Ve Vb) as (o & Eo & Vo).
  match goal with |- context [multiply sp e ?x] => replace (multiply sp e x) with (@Ok (list tensor) o) by (symmetry; exact Eo) end. cbn [bind].
  destruct (op_sp_ibp_inv _ _ _ _ _ _ Vo) as (ou & ol & -> & Co).
  cbn [get_ibp extract f_uc f_lc app]. eexists. split; [reflexivity|].
  apply op_sp_ibp. intros z j Hz Hj. specialize (Co z j Hz Hj). unfold ew.
  assert (Eg : g z j = exp (- f z j) * / gs z (j / k)%nat).
  { destruct (position_split pre [k] j Hj) as (p & q & Ip & Iq & ->).
    inversion Iq as [|? c ? q' Hc Hq]; subst. inversion Hq; subst. rewrite Hg by auto. unfold Rdiv.
    replace (-1 * f z (ravel (pre ++ [k]) (p ++ [c]))) with (- f z (ravel (pre ++ [k]) (p ++ [c]))) by lra.
    do 2 f_equal. rewrite ravel_flat by auto. unfold flat. cbn [prodn ravel].
    replace ((ravel pre p * k + c) * 1 + 0)%nat with (ravel pre p * k + c)%nat by lia. rewrite flat_div by auto.
    unfold gs. apply rsum_ext. intros c' Hc'. rewrite ravel_flat by auto. unfold flat. cbn [prodn ravel].
    f_equal. replace ((ravel pre p * k + c') * 1 + 0)%nat with (ravel pre p * k + c')%nat by lia. lra. }
  assert (G01 : 0 <= g z j <= 1).
  { rewrite Eg. assert (Pg : 0 < gs z (j / k)%nat).
    { unfold gs. rewrite <- (rsum_0 k) at 1. apply rsum_lt; auto. intros; apply exp_pos. }
    pose proof (exp_pos (- f z j)). pose proof (Rinv_0_lt_compat _ Pg). split; [nra|].
    assert (exp (- f z j) <= gs z (j / k)%nat).
    { unfold gs. pose proof (Nat.div_mod j k ltac:(lia)) as D0.
      pose proof (rsum_ge_term k (fun c => exp (- f z (j / k * k + c)%nat)) (j mod k)) as T. cbv beta in T.
      replace (j / k * k + j mod k)%nat with j in T by lia. apply T.
      - intros; left; apply exp_pos.
      - apply Nat.mod_upper_bound. lia. }
    apply Rmult_le_reg_r with (gs z (j / k)%nat); auto. rewrite Rmult_assoc, Rinv_l by lra. lra. }
  cbn [f_uc f_lc]. cbv beta in Co. rewrite <- Eg in Co. split; [apply Rmax_lub | apply Rmin_glb]; lra.
Qed.
