(** Proofs about M_Utils: relu hull and the operators add, minus, relu_, maximum, minimum. *)
From Coq Require Import Reals Lra Lia Psatz List Arith Bool.
From Verif Require Import RLib Spec M_Core M_Utils P_Core.
Import ListNotations.
Local Open Scope R_scope.

Lemma index_dead_1 : forall u, u <= 0 -> index_dead u = 1.
Proof.
  intros u H. unfold index_dead. destruct (Rsgn_cases u) as [[? E]|[[? E]|[? E]]]; rewrite E;
  unfold Rclip; rcases.
Qed.
Lemma index_dead_0 : forall u, 0 < u -> index_dead u = 0.
Proof. intros u H. unfold index_dead. rewrite Rsgn_pos by auto. unfold Rclip; rcases. Qed.
Lemma index_linear_1 : forall l, 0 <= l -> index_linear l = 1.
Proof.
  intros u H. unfold index_linear. destruct (Rsgn_cases u) as [[? E]|[[? E]|[? E]]]; rewrite E;
  unfold Rclip; rcases.
Qed.
Lemma index_linear_0 : forall l, l < 0 -> index_linear l = 0.
Proof. intros u H. unfold index_linear. rewrite Rsgn_neg by auto. unfold Rclip; rcases. Qed.

(** ** relu hull *)

(** slope of the lower line before masking is in [0,1] *)
Lemma clip_sgn_01 : forall x, 0 <= Rclip (Rsgn x) 0 1 <= 1.
Proof. intros. apply Rclip_range. lra. Qed.

Lemma hull_relu_cross : forall ke sl ft u l,
  0 < ke -> l < 0 -> 0 < u ->
  (match ft with Some g => 0 <= g <= 1 | None => True end) ->
  let h := hull_relu ke sl ft u l in
  h_wu h = u / Rmax ke (u - l) /\ h_bu h = - (u / Rmax ke (u - l)) * l /\
  0 <= h_wl h <= 1 /\ h_bl h = 0.
Proof.
  intros ke sl ft u l Hke Hl Hu Hft.
  assert (Ha : 0 <= u / Rmax ke (u - l) <= 1).
  { assert (0 < Rmax ke (u - l)) by (eapply Rlt_le_trans; [exact Hke | apply Rmax_l]).
    split.
    - apply Rmult_le_pos; [lra|]. left. apply Rinv_0_lt_compat. auto.
    - apply Rmult_le_reg_r with (Rmax ke (u - l)); auto.
      unfold Rdiv. rewrite Rmult_assoc, Rinv_l by lra. pose proof (Rmax_r ke (u - l)). lra. }
  unfold hull_relu. rewrite index_dead_0, index_linear_0 by auto.
  assert (Eu : Rrelu u = u) by (unfold Rrelu; rcases).
  assert (El : Rrelu l = 0) by (unfold Rrelu; rcases).
  rewrite Eu, El, Rminus_0_r.
  set (a := u / Rmax ke (u - l)) in *.
  set (g := match ft with Some g => g | None => 1 end).
  assert (Hg : 0 <= g <= 1) by (unfold g; destruct ft; lra).
  pose proof (Rclip_range (Rsgn (u + l) - 1) (-1) 0 ltac:(lra)) as C1.
  pose proof (Rclip_range (Rsgn (a - 1/2)) 0 1 ltac:(lra)) as C2.
  destruct sl; cbn [h_wu h_bu h_wl h_bl]; repeat split; try lra; nra.
Qed.

Lemma hull_relu_linear : forall ke sl ft u l, 0 <= l ->
  hull_relu ke sl ft u l = mk_hull 1 0 1 0.
Proof.
  intros. unfold hull_relu. rewrite index_linear_1 by auto.
  destruct sl; f_equal; lra.
Qed.

Lemma hull_relu_dead : forall ke sl ft u l, u <= 0 -> l < 0 ->
  hull_relu ke sl ft u l = mk_hull 0 0 0 0.
Proof.
  intros. unfold hull_relu. rewrite index_linear_0, index_dead_1 by auto.
  destruct sl; f_equal; lra.
Qed.

Lemma hull_relu_weights : forall ke sl ft u l, 0 < ke -> l <= u ->
  (match ft with Some g => 0 <= g <= 1 | None => True end) ->
  let h := hull_relu ke sl ft u l in 0 <= h_wu h <= 1 /\ 0 <= h_wl h <= 1.
Proof.
  intros ke sl ft u l Hke Hlu Hft h.
  destruct (Rle_dec 0 l) as [Hl|Hl].
  { unfold h. rewrite hull_relu_linear by auto. cbn. lra. }
  destruct (Rle_dec u 0) as [Hu|Hu].
  { unfold h. rewrite hull_relu_dead by lra. cbn. lra. }
  destruct (hull_relu_cross ke sl ft u l) as (A & B & C & D); try lra; auto.
  split; [|exact C]. unfold h. rewrite A.
  assert (0 < Rmax ke (u - l)) by (eapply Rlt_le_trans; [exact Hke | apply Rmax_l]).
  split.
  - apply Rmult_le_pos; [lra|]. left. apply Rinv_0_lt_compat. auto.
  - apply Rmult_le_reg_r with (Rmax ke (u - l)); auto.
    unfold Rdiv. rewrite Rmult_assoc, Rinv_l by lra. pose proof (Rmax_r ke (u - l)). lra.
Qed.

Lemma hull_relu_lower : forall ke sl ft u l z, 0 < ke -> l <= z <= u ->
  (match ft with Some g => 0 <= g <= 1 | None => True end) ->
  let h := hull_relu ke sl ft u l in h_wl h * z + h_bl h <= Rrelu z.
Proof.
  intros ke sl ft u l z Hke Hz Hft h.
  destruct (Rle_dec 0 l) as [Hl|Hl].
  { unfold h. rewrite hull_relu_linear by auto. cbn. unfold Rrelu; rcases. }
  destruct (Rle_dec u 0) as [Hu|Hu].
  { unfold h. rewrite hull_relu_dead by lra. cbn. unfold Rrelu; rcases. }
  destruct (hull_relu_cross ke sl ft u l) as (A & B & C & D); try lra; auto.
  fold h in C, D. rewrite D. unfold Rrelu, Rmax. destruct Rle_dec; nra.
Qed.

Lemma hull_relu_upper : forall ke sl ft u l z, 0 < ke -> l <= z <= u -> gap_free ke u l ->
  (match ft with Some g => 0 <= g <= 1 | None => True end) ->
  let h := hull_relu ke sl ft u l in Rrelu z <= h_wu h * z + h_bu h.
Proof.
  intros ke sl ft u l z Hke Hz Hgap Hft h.
  destruct (Rle_dec 0 l) as [Hl|Hl].
  { unfold h. rewrite hull_relu_linear by auto. cbn. unfold Rrelu; rcases. }
  destruct (Rle_dec u 0) as [Hu|Hu].
  { unfold h. rewrite hull_relu_dead by lra. cbn. unfold Rrelu; rcases. }
  destruct (hull_relu_cross ke sl ft u l) as (A & B & C & D); try lra; auto.
  unfold h. rewrite A, B.
  destruct Hgap as [?|[?|Hg]]; try lra.
  rewrite Rmax_right by lra.
  assert (0 < u - l) by lra.
  replace (u / (u - l) * z + - (u / (u - l)) * l) with (u * (z - l) / (u - l)) by (field; lra).
  apply Rmult_le_reg_r with (u - l); auto.
  replace (u * (z - l) / (u - l) * (u - l)) with (u * (z - l)) by (field; lra).
  unfold Rrelu, Rmax. destruct Rle_dec; nra.
Qed.

(** without any condition on the width, the error is at most ke *)
Lemma hull_relu_upper_slack : forall ke sl ft u l z, 0 < ke -> l <= z <= u ->
  (match ft with Some g => 0 <= g <= 1 | None => True end) ->
  let h := hull_relu ke sl ft u l in Rrelu z <= h_wu h * z + h_bu h + ke.
Proof.
  intros ke sl ft u l z Hke Hz Hft h.
  destruct (Rle_dec 0 l) as [Hl|Hl].
  { pose proof (hull_relu_upper ke sl ft u l z Hke Hz ltac:(unfold gap_free; tauto) Hft). fold h in H. cbv zeta in H. fold h in H. lra. }
  destruct (Rle_dec u 0) as [Hu|Hu].
  { pose proof (hull_relu_upper ke sl ft u l z Hke Hz ltac:(unfold gap_free; tauto) Hft). cbv zeta in H. fold h in H. lra. }
  destruct (Rle_dec ke (u - l)) as [Hg|Hg].
  { pose proof (hull_relu_upper ke sl ft u l z Hke Hz ltac:(unfold gap_free; tauto) Hft). cbv zeta in H. fold h in H. lra. }
  destruct (hull_relu_cross ke sl ft u l) as (A & B & C & D); try lra; auto.
  unfold h. rewrite A, B.
  assert (0 <= u / Rmax ke (u - l)).
  { rewrite Rmax_left by lra. apply Rmult_le_pos; [lra|]. left. apply Rinv_0_lt_compat. auto. }
  assert (Rrelu z <= ke) by (unfold Rrelu, Rmax; destruct Rle_dec; lra).
  nra.
Qed.

Lemma hull_relu_gap_unsound : forall ke sl ft u l, 0 < ke -> l < 0 -> 0 < u -> u - l < ke ->
  (match ft with Some g => 0 <= g <= 1 | None => True end) ->
  let h := hull_relu ke sl ft u l in h_wu h * u + h_bu h < Rrelu u.
Proof.
  intros ke sl ft u l Hke Hl Hu Hg Hft h.
  destruct (hull_relu_cross ke sl ft u l) as (A & B & C & D); try lra; auto.
  unfold h. rewrite A, B. rewrite Rmax_left by lra.
  replace (u / ke * u + - (u / ke) * l) with (u * (u - l) / ke) by (field; lra).
  apply Rmult_lt_reg_r with ke; auto.
  replace (u * (u - l) / ke * ke) with (u * (u - l)) by (field; lra).
  unfold Rrelu, Rmax. destruct Rle_dec; nra.
Qed.

(** ** affine combination facts *)

Lemma aff_plus : forall n w1 w2 b1 b2 z j,
  aff n (fun i j => w1 i j + w2 i j) (fun j => b1 j + b2 j) z j = aff n w1 b1 z j + aff n w2 b2 z j.
Proof. intros. unfold aff. rewrite dot_plus_l. lra. Qed.

Lemma aff_opp : forall n w b z j,
  aff n (fun i j => - w i j) (fun j => - b j) z j = - aff n w b z j.
Proof. intros. unfold aff. rewrite dot_opp_l. lra. Qed.

Lemma aff_scal : forall n c w b d z j,
  aff n (fun i j => c j * w i j) (fun j => c j * b j + d j) z j = c j * aff n w b z j + d j.
Proof. intros. unfold aff. rewrite dot_scal_l. lra. Qed.

(** ** operators *)

Definition op_sp (sp : spec) (S : vec -> Prop) (m : nat) (f : vec -> vec) (ts : list tensor) : Prop :=
  valid (sp_dom sp) (sp_mode sp) (sp_dc sp) S (sp_n sp) m f ts.

Lemma get_ibp_or : forall mode, get_ibp mode = true -> (get_ibp mode || true)%bool = true.
Proof. intros; apply orb_true_r. Qed.

Lemma add_sound : forall sp S m f0 f1 in0 in1,
  (0 < sp_n sp)%nat -> dom_ok (sp_dom sp) (sp_mode sp) ->
  op_sp sp S m f0 in0 -> op_sp sp S m f1 in1 ->
  exists out, add sp in0 in1 = Ok out /\ op_sp sp S m (fun z j => f0 z j + f1 z j) out.
Proof.
  intros sp S m f0 f1 in0 in1 Hn Hd H0 H1.
  destruct (get_full_sound sp true true S m f0 in0 Hn Hd H0) as (r0 & E0 & C0 & A0).
  destruct (get_full_sound sp true true S m f1 in1 Hn Hd H1) as (r1 & E1 & C1 & A1).
  unfold add. rewrite E0, E1. cbn [bind]. eexists. split; [reflexivity|].
  apply vfull_valid. rewrite orb_true_r in *. split.
  - intros _ z j Hz Hj. cbn. specialize (C0 eq_refl z j Hz Hj). specialize (C1 eq_refl z j Hz Hj). lra.
  - intros Ha. destruct (A0 Ha) as [X0 B0]. destruct (A1 Ha) as [X1 B1]. split; [exact X0|].
    intros z j Hz Hj. cbn [add_full f_wu f_bu f_wl f_bl].
    specialize (B0 z j Hz Hj). specialize (B1 z j Hz Hj).
    rewrite (aff_plus _ (f_wl r0) (f_wl r1) (f_bl r0 0%nat) (f_bl r1 0%nat)).
    rewrite (aff_plus _ (f_wu r0) (f_wu r1) (f_bu r0 0%nat) (f_bu r1 0%nat)). lra.
Qed.

Lemma minus_sound : forall sp S m f ts,
  (0 < sp_n sp)%nat -> dom_ok (sp_dom sp) (sp_mode sp) ->
  op_sp sp S m f ts ->
  exists out, minus sp ts = Ok out /\ op_sp sp S m (fun z j => - f z j) out.
Proof.
  intros sp S m f ts Hn Hd H.
  destruct (get_full_sound sp false false S m f ts Hn Hd H) as (r & E & C & A).
  unfold minus. rewrite E. cbn [bind]. eexists. split; [reflexivity|].
  apply vfull_valid. rewrite orb_false_r in C. split.
  - intros Hi z j Hz Hj. cbn. specialize (C Hi z j Hz Hj). lra.
  - intros Ha. destruct (A Ha) as [X B]. split; [exact X|].
    intros z j Hz Hj. cbn [minus_full f_wu f_bu f_wl f_bl].
    specialize (B z j Hz Hj).
    rewrite (aff_opp _ (f_wl r) (f_bl r 0%nat)). rewrite (aff_opp _ (f_wu r) (f_bu r 0%nat)). lra.
Qed.

(** extensional equality of the bounded function *)
Lemma op_sp_ext : forall sp (S : vec -> Prop) m (f g : vec -> vec) ts,
  (forall z j, S z -> (j < m)%nat -> f z j = g z j) -> op_sp sp S m f ts -> op_sp sp S m g ts.
Proof.
  intros sp S m f g ts H [Hl Hv]. split; auto.
  assert (Hc : forall u l, const_ok S m f u l -> const_ok S m g u l).
  { intros u l Hk z j Hz Hj. rewrite <- H by auto. auto. }
  assert (Ha : forall a b c d, affine_ok S (sp_n sp) m f a b c d -> affine_ok S (sp_n sp) m g a b c d).
  { intros a b c d Hk z j Hz Hj. rewrite <- H by auto. auto. }
  destruct (sp_mode sp).
  - destruct ts as [|? [|? ?]]; auto.
  - destruct ts as [|? [|? [|? [|? [|? ?]]]]]; auto. destruct Hv; split; auto.
  - destruct ts as [|? [|? [|? [|? [|? [|? [|? ?]]]]]]]; auto.
    destruct Hv as (?&?&?); split; auto.
Qed.

Lemma subtract_sound : forall sp S m f0 f1 in0 in1,
  (0 < sp_n sp)%nat -> dom_ok (sp_dom sp) (sp_mode sp) ->
  op_sp sp S m f0 in0 -> op_sp sp S m f1 in1 ->
  exists out, subtract sp in0 in1 = Ok out /\ op_sp sp S m (fun z j => f0 z j - f1 z j) out.
Proof.
  intros sp S m f0 f1 in0 in1 Hn Hd H0 H1. unfold subtract.
  destruct (minus_sound sp S m f1 in1 Hn Hd H1) as (m1 & E1 & V1). rewrite E1. cbn [bind].
  destruct (add_sound sp S m f0 _ in0 m1 Hn Hd H0 V1) as (o & E & V).
  exists o. split; auto.
Qed.

(** every neuron's completed interval is gap free (only needed for affine computations) *)
Definition gaps_ok (ke : R) (sp : spec) (m : nat) (ts : list tensor) : Prop :=
  sp_mode sp <> IBP -> forall r, get_fullinputs sp true true ts = Ok r ->
  forall j, (j < m)%nat -> gap_free ke (f_uc r 0%nat j) (f_lc r 0%nat j).

(** element-wise activations from a per-neuron hull *)
Lemma hull_affine_sound : forall (S : vec -> Prop) n m f g wu bu wl bl (hl : nat -> hull),
  affine_ok S n m f wu bu wl bl ->
  (forall z j, S z -> (j < m)%nat ->
     0 <= h_wu (hl j) /\ 0 <= h_wl (hl j) /\
     h_wl (hl j) * f z j + h_bl (hl j) <= g z j <= h_wu (hl j) * f z j + h_bu (hl j)) ->
  affine_ok S n m g (fun i j => h_wu (hl j) * wu i j) (fun j => h_wu (hl j) * bu j + h_bu (hl j))
                    (fun i j => h_wl (hl j) * wl i j) (fun j => h_wl (hl j) * bl j + h_bl (hl j)).
Proof.
  intros S n m f g wu bu wl bl hl Ha Hh z j Hz Hj.
  specialize (Ha z j Hz Hj). destruct (Hh z j Hz Hj) as (P1 & P2 & P3).
  rewrite (aff_scal n (fun j => h_wu (hl j)) wu bu (fun j => h_bu (hl j)) z j).
  rewrite (aff_scal n (fun j => h_wl (hl j)) wl bl (fun j => h_bl (hl j)) z j).
  nra.
Qed.

Lemma ft_ok_at : forall m ft j, ft_ok m ft -> (j < m)%nat ->
  match option_map (fun v : vec => v j) ft with Some g => 0 <= g <= 1 | None => True end.
Proof. intros m [g|] j H Hj; cbn in *; auto. Qed.

Lemma relu_sound : forall ke sp sl ft S m f ts,
  0 < ke -> (0 < sp_n sp)%nat -> dom_ok (sp_dom sp) (sp_mode sp) -> ft_ok m ft ->
  op_sp sp S m f ts -> gaps_ok ke sp m ts ->
  exists out, relu_ ke sp sl ft ts = Ok out /\ op_sp sp S m (fun z j => Rrelu (f z j)) out.
Proof.
  intros ke sp sl ft S m f ts Hke Hn Hd Hft H Hgap.
  destruct (get_full_sound sp true true S m f ts Hn Hd H) as (r & E & C & A).
  unfold relu_. rewrite E. cbn [bind]. eexists. split; [reflexivity|].
  rewrite orb_true_r in C. specialize (C eq_refl).
  apply vfull_valid. unfold relu_full. split.
  - intros Hi. rewrite Hi. destruct (sp_dc sp), (get_affine (sp_mode sp)); cbn;
    intros z j Hz Hj; specialize (C z j Hz Hj); split; apply Rrelu_le; lra.
  - intros Ha. rewrite Ha. destruct (A Ha) as [X B].
    assert (Hm : sp_mode sp <> IBP) by (intro K; rewrite K in Ha; discriminate).
    specialize (Hgap Hm r E).
    assert (G : affine_ok S (sp_n sp) m (fun z j => Rrelu (f z j))
      (fun i j => h_wu (hull_relu ke sl (option_map (fun v : vec => v j) ft) (f_uc r 0%nat j) (f_lc r 0%nat j)) * f_wu r i j)
      (fun j => h_wu (hull_relu ke sl (option_map (fun v : vec => v j) ft) (f_uc r 0%nat j) (f_lc r 0%nat j)) * f_bu r 0%nat j + h_bu (hull_relu ke sl (option_map (fun v : vec => v j) ft) (f_uc r 0%nat j) (f_lc r 0%nat j)))
      (fun i j => h_wl (hull_relu ke sl (option_map (fun v : vec => v j) ft) (f_uc r 0%nat j) (f_lc r 0%nat j)) * f_wl r i j)
      (fun j => h_wl (hull_relu ke sl (option_map (fun v : vec => v j) ft) (f_uc r 0%nat j) (f_lc r 0%nat j)) * f_bl r 0%nat j + h_bl (hull_relu ke sl (option_map (fun v : vec => v j) ft) (f_uc r 0%nat j) (f_lc r 0%nat j)))).
    { apply (hull_affine_sound S (sp_n sp) m f _ (f_wu r) (f_bu r 0%nat) (f_wl r) (f_bl r 0%nat)
        (fun j => hull_relu ke sl (option_map (fun v : vec => v j) ft) (f_uc r 0%nat j) (f_lc r 0%nat j))); auto.
      intros z j Hz Hj. specialize (C z j Hz Hj). pose proof (ft_ok_at m ft j Hft Hj) as F.
      destruct (hull_relu_weights ke sl (option_map (fun v : vec => v j) ft) (f_uc r 0%nat j) (f_lc r 0%nat j) Hke ltac:(lra) F) as [W1 W2].
      pose proof (hull_relu_lower ke sl _ _ _ (f z j) Hke C F).
      pose proof (hull_relu_upper ke sl _ _ _ (f z j) Hke C (Hgap j Hj) F).
      cbv zeta in *. lra. }
    destruct (sp_dc sp), (get_ibp (sp_mode sp)); cbn; split; auto.
Qed.

(** conditions collected along maximum / minimum *)
Definition max_gaps_ok (ke : R) (sp : spec) (m : nat) (in0 in1 : list tensor) : Prop :=
  forall d, subtract sp in1 in0 = Ok d -> gaps_ok ke sp m d.

Lemma maximum_sound : forall ke sp ft S m f0 f1 in0 in1,
  0 < ke -> (0 < sp_n sp)%nat -> dom_ok (sp_dom sp) (sp_mode sp) -> ft_ok m ft ->
  op_sp sp S m f0 in0 -> op_sp sp S m f1 in1 -> max_gaps_ok ke sp m in0 in1 ->
  exists out, maximum ke sp ft in0 in1 = Ok out /\ op_sp sp S m (fun z j => Rmax (f0 z j) (f1 z j)) out.
Proof.
  intros ke sp ft S m f0 f1 in0 in1 Hke Hn Hd Hft H0 H1 Hg. unfold maximum.
  destruct (subtract_sound sp S m f1 f0 in1 in0 Hn Hd H1 H0) as (d & Ed & Vd). rewrite Ed. cbn [bind].
  destruct (relu_sound ke sp V_SLOPE ft S m _ d Hke Hn Hd Hft Vd (Hg d Ed)) as (rl & Er & Vr).
  rewrite Er. cbn [bind].
  destruct (add_sound sp S m _ f0 rl in0 Hn Hd Vr H0) as (o & Eo & Vo).
  exists o. split; auto. eapply op_sp_ext; [|exact Vo].
  intros z j _ _. cbn. unfold Rrelu. rcases.
Qed.

Definition min_gaps_ok (ke : R) (sp : spec) (m : nat) (in0 in1 : list tensor) : Prop :=
  forall m0 m1, minus sp in0 = Ok m0 -> minus sp in1 = Ok m1 -> max_gaps_ok ke sp m m0 m1.

Lemma minimum_sound : forall ke sp ft S m f0 f1 in0 in1,
  0 < ke -> (0 < sp_n sp)%nat -> dom_ok (sp_dom sp) (sp_mode sp) -> ft_ok m ft ->
  op_sp sp S m f0 in0 -> op_sp sp S m f1 in1 -> min_gaps_ok ke sp m in0 in1 ->
  exists out, minimum ke sp ft in0 in1 = Ok out /\ op_sp sp S m (fun z j => Rmin (f0 z j) (f1 z j)) out.
Proof.
  intros ke sp ft S m f0 f1 in0 in1 Hke Hn Hd Hft H0 H1 Hg. unfold minimum.
  destruct (minus_sound sp S m f0 in0 Hn Hd H0) as (m0 & E0 & V0). rewrite E0. cbn [bind].
  destruct (minus_sound sp S m f1 in1 Hn Hd H1) as (m1 & E1 & V1). rewrite E1. cbn [bind].
  destruct (maximum_sound ke sp ft S m _ _ m0 m1 Hke Hn Hd Hft V0 V1 (Hg m0 m1 E0 E1)) as (mx & Em & Vm).
  rewrite Em. cbn [bind].
  destruct (minus_sound sp S m _ mx Hn Hd Vm) as (o & Eo & Vo).
  exists o. split; auto. eapply op_sp_ext; [|exact Vo].
  intros z j _ _. cbn. rcases.
Qed.

(** in ibp mode no width condition is needed *)
Lemma gaps_ok_ibp : forall ke sp m ts, sp_mode sp = IBP -> gaps_ok ke sp m ts.
Proof. intros ke sp m ts H K. congruence. Qed.
