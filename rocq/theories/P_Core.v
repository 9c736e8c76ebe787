(** Proofs about M_Core. *)
From Coq Require Import Reals Lra Lia Psatz List Arith Bool ZArith.
From Verif Require Import RLib Spec M_Core.
Import ListNotations.
Local Open Scope R_scope.

(** ** Box *)

Lemma box_term_upper : forall w a b z, a <= z <= b -> w * z <= Rmax w 0 * b + Rmin w 0 * a.
Proof.
  intros w a b z H. unfold Rmax, Rmin.
  repeat destruct Rle_dec; nra.
Qed.

Lemma box_term_lower : forall w a b z, a <= z <= b -> Rmax w 0 * a + Rmin w 0 * b <= w * z.
Proof.
  intros w a b z H. unfold Rmax, Rmin.
  repeat destruct Rle_dec; nra.
Qed.

Lemma get_upper_box_sound : forall n a b w c z j,
  in_box n a b z -> aff n w c z j <= get_upper_box n false a b w c j.
Proof.
  intros. unfold aff, dot, get_upper_box.
  apply Rplus_le_compat_r. apply rsum_le. intros. apply box_term_upper. auto.
Qed.

Lemma get_lower_box_sound : forall n a b w c z j,
  in_box n a b z -> get_lower_box n false a b w c j <= aff n w c z j.
Proof.
  intros. unfold aff, dot, get_lower_box.
  apply Rplus_le_compat_r. apply rsum_le. intros. apply box_term_lower. auto.
Qed.

Lemma get_upper_box_max : forall n a b w c j,
  (forall i, (i < n)%nat -> a i <= b i) ->
  is_max (in_box n a b) (fun z => aff n w c z j) (get_upper_box n false a b w c j).
Proof.
  intros n a b w c j Hab. split.
  - intros; apply get_upper_box_sound; auto.
  - exists (fun i => if Rle_dec (w i j) 0 then a i else b i). split.
    + intros i Hi. specialize (Hab i Hi). simpl. destruct Rle_dec; lra.
    + unfold aff, dot, get_upper_box. f_equal. apply rsum_ext. intros i Hi.
      unfold Rmax, Rmin. destruct (Rle_dec (w i j) 0); lra.
Qed.

Lemma get_lower_box_min : forall n a b w c j,
  (forall i, (i < n)%nat -> a i <= b i) ->
  is_min (in_box n a b) (fun z => aff n w c z j) (get_lower_box n false a b w c j).
Proof.
  intros n a b w c j Hab. split.
  - intros; apply get_lower_box_sound; auto.
  - exists (fun i => if Rle_dec (w i j) 0 then b i else a i). split.
    + intros i Hi. specialize (Hab i Hi). simpl. destruct Rle_dec; lra.
    + unfold aff, dot, get_lower_box. f_equal. apply rsum_ext. intros i Hi.
      unfold Rmax, Rmin. destruct (Rle_dec (w i j) 0); lra.
Qed.

(** ** Ball *)

Lemma in_ball_inf_box : forall n eps c z,
  in_ball n Pinf eps c z <-> in_box n (fun i => c i - eps) (fun i => c i + eps) z.
Proof.
  intros; simpl; unfold in_box; split; intros H i Hi; specialize (H i Hi).
  - unfold Rabs in H. destruct Rcase_abs; lra.
  - unfold Rabs. destruct Rcase_abs; lra.
Qed.

Lemma aff_center : forall n w b z c j,
  aff n w b z j = dot n (fun i => w i j) (fun i => z i - c i) + (rsum n (fun i => w i j * c i) + b j).
Proof.
  intros. unfold aff. rewrite dot_minus_r. unfold dot at 3. lra.
Qed.

(** Hoelder p=1: sum w d <= max|w| * sum |d| *)
Lemma hoelder_1 : forall n w d, (0 < n)%nat ->
  Rabs (dot n w d) <= rmax n (fun i => Rabs (w i)) * rsum n (fun i => Rabs (d i)).
Proof.
  intros n w d Hn. unfold dot.
  eapply Rle_trans; [apply rsum_Rabs|]. rewrite <- rsum_scal. apply rsum_le. intros i Hi.
  rewrite Rabs_mult. apply Rmult_le_compat_r; [apply Rabs_pos|].
  apply (rmax_ge n (fun i => Rabs (w i)) i Hi).
Qed.

Lemma hoelder_2 : forall n w d,
  Rabs (dot n w d) <= sqrt (rsum n (fun i => w i ^ 2)) * sqrt (rsum n (fun i => d i ^ 2)).
Proof.
  intros n w d.
  assert (E : forall f, rsum n (fun i => f i ^ 2) = dot n f f).
  { intro f; unfold dot; apply rsum_ext; intros; ring. }
  rewrite !E. apply Rabs_le. split; [|apply cauchy_schwarz].
  pose proof (cauchy_schwarz n (fun i => - w i) d) as H.
  rewrite dot_opp_l in H.
  replace (dot n (fun i => - w i) (fun i => - w i)) with (dot n w w) in H.
  - lra.
  - unfold dot; apply rsum_ext; intros; ring.
Qed.

Lemma in_ball1 : forall n eps c z, in_ball n (Pnum 1) eps c z <->
  0 <= eps /\ rsum n (fun i => Rabs (z i - c i)) <= eps.
Proof.
  intros. simpl. rewrite Rmult_1_r.
  rewrite (rsum_ext n (fun i => Rabs (z i - c i) * 1) (fun i => Rabs (z i - c i))).
  - tauto.
  - intros; lra.
Qed.

Lemma in_ball2_norm : forall n eps c z, in_ball n (Pnum 2) eps c z ->
  0 <= eps /\ sqrt (rsum n (fun i => (z i - c i) ^ 2)) <= eps.
Proof.
  intros n eps c z [H0 H]. split; auto.
  rewrite <- (sqrt_pow2 eps) by auto. apply sqrt_le_1.
  - apply rsum_ge0; intros; apply pow2_ge_0.
  - apply pow2_ge_0.
  - eapply Rle_trans; [|exact H]. right. apply rsum_ext. intros. symmetry. apply pow2_abs.
Qed.

Lemma ball_dot_bound : forall n p eps c z w q j,
  (0 < n)%nat -> p <> Pinf ->
  get_lq_norm n p w = Ok q -> in_ball n p eps c z ->
  Rabs (dot n (fun i => w i j) (fun i => z i - c i)) <= eps * q j.
Proof.
  intros n p eps c z w q j Hn Hp Hq Hz.
  destruct p as [k|]; [|congruence].
  destruct k as [|[|[|k]]]; try discriminate Hq; injection Hq as <-.
  - apply in_ball1 in Hz. destruct Hz as [He Hz].
    eapply Rle_trans; [apply hoelder_1; auto|].
    rewrite Rmult_comm. apply Rmult_le_compat_r; auto.
    eapply Rle_trans; [apply Rabs_pos | apply (rmax_ge n (fun i => Rabs (w i j)) 0%nat Hn)].
  - apply in_ball2_norm in Hz. destruct Hz as [He Hz].
    eapply Rle_trans; [apply hoelder_2|].
    rewrite Rmult_comm. apply Rmult_le_compat_r; auto. apply sqrt_pos.
Qed.

Lemma get_upper_ball0_sound : forall n eps p c w b r z j,
  (0 < n)%nat -> get_upper_ball0 n false c eps p w b = Ok r -> in_ball n p eps c z ->
  aff n w b z j <= r j.
Proof.
  intros n eps p c w b r z j Hn Hr Hz. unfold get_upper_ball0 in Hr.
  destruct p as [k|].
  - destruct (get_lq_norm n (Pnum k) w) as [q|] eqn:Eq; simpl in Hr; [|discriminate].
    injection Hr as <-.
    pose proof (ball_dot_bound n (Pnum k) eps c z w q j Hn ltac:(discriminate) Eq Hz) as B.
    rewrite (aff_center n w b z c j). pose proof (Rle_abs (dot n (fun i => w i j) (fun i => z i - c i))).
    lra.
  - injection Hr as <-. apply get_upper_box_sound. apply in_ball_inf_box. auto.
Qed.

Lemma get_lower_ball0_sound : forall n eps p c w b r z j,
  (0 < n)%nat -> get_lower_ball0 n false c eps p w b = Ok r -> in_ball n p eps c z ->
  r j <= aff n w b z j.
Proof.
  intros n eps p c w b r z j Hn Hr Hz. unfold get_lower_ball0 in Hr.
  destruct p as [k|].
  - destruct (get_lq_norm n (Pnum k) w) as [q|] eqn:Eq; simpl in Hr; [|discriminate].
    injection Hr as <-.
    pose proof (ball_dot_bound n (Pnum k) eps c z w q j Hn ltac:(discriminate) Eq Hz) as B.
    rewrite (aff_center n w b z c j).
    pose proof (Rle_abs (- dot n (fun i => w i j) (fun i => z i - c i))). rewrite Rabs_Ropp in H.
    lra.
  - injection Hr as <-. apply get_lower_box_sound. apply in_ball_inf_box. auto.
Qed.

(** the maximiser of w over the ball, as a displacement from the centre *)
Lemma ball_attained : forall n p eps c w q j,
  (0 < n)%nat -> 0 <= eps -> p <> Pinf -> get_lq_norm n p w = Ok q ->
  exists d, dot n (fun i => w i j) d = eps * q j /\
            in_ball n p eps c (fun i => c i + d i) /\ in_ball n p eps c (fun i => c i - d i).
Proof.
  intros n p eps c w q j Hn He Hp Hq.
  destruct p as [k|]; [|congruence].
  destruct k as [|[|[|k]]]; try discriminate Hq; injection Hq as <-.
  - destruct (rmax_attained n (fun i => Rabs (w i j)) Hn) as (k & Hk & E).
    exists (fun i => if Nat.eqb i k then eps * Rsgn (w k j) else 0).
    assert (Hs : Rabs (Rsgn (w k j)) <= 1).
    { pose proof (Rsgn_range (w k j)). apply Rabs_le. lra. }
    assert (N : rsum n (fun i => Rabs (if Nat.eqb i k then eps * Rsgn (w k j) else 0)) <= eps).
    { replace (rsum n (fun i => Rabs (if Nat.eqb i k then eps * Rsgn (w k j) else 0)))
        with (rsum n (fun i => if Nat.eqb i k then Rabs (eps * Rsgn (w k j)) else 0)).
      - rewrite rsum_delta by auto. rewrite Rabs_mult, (Rabs_pos_eq eps) by auto.
        nra.
      - apply rsum_ext. intros i Hi. destruct (Nat.eqb i k); auto. rewrite Rabs_R0; auto. }
    split; [|split].
    + unfold dot. rewrite E.
      replace (rsum n (fun i => w i j * (if Nat.eqb i k then eps * Rsgn (w k j) else 0)))
        with (rsum n (fun i => if Nat.eqb i k then w i j * (eps * Rsgn (w k j)) else 0)).
      * rewrite rsum_delta by auto. rewrite <- (Rsgn_mult_abs (w k j)). ring.
      * apply rsum_ext. intros i Hi. destruct (Nat.eqb i k); lra.
    + apply in_ball1. split; auto. eapply Rle_trans; [|exact N]. right. apply rsum_ext.
      intros i Hi. f_equal. lra.
    + apply in_ball1. split; auto. eapply Rle_trans; [|exact N]. right. apply rsum_ext.
      intros i Hi. rewrite <- Rabs_Ropp. f_equal. lra.
  - set (N2 := rsum n (fun i => w i j ^ 2)).
    assert (HN : 0 <= N2) by (apply rsum_ge0; intros; apply pow2_ge_0).
    destruct (Req_dec N2 0) as [E0|E0].
    + exists (fun _ => 0). split; [|split].
      * change (rsum n (fun i => w i j * (w i j * 1))) with N2. unfold dot. rewrite rsum_eq0 by (intros; lra). rewrite E0, sqrt_0. lra.
      * split; auto. rewrite rsum_eq0; [apply pow_le; auto|]. intros i Hi.
        replace (c i + 0 - c i) with 0 by lra. rewrite Rabs_R0. ring.
      * split; auto. rewrite rsum_eq0; [apply pow_le; auto|]. intros i Hi.
        replace (c i - 0 - c i) with 0 by lra. rewrite Rabs_R0. ring.
    + assert (Hs : 0 < sqrt N2) by (apply sqrt_lt_R0; lra).
      assert (Hss : sqrt N2 * sqrt N2 = N2) by (apply sqrt_sqrt; auto).
      exists (fun i => eps / sqrt N2 * w i j).
      assert (N : rsum n (fun i => Rabs (eps / sqrt N2 * w i j) ^ 2) = eps ^ 2).
      { rewrite (rsum_ext n _ (fun i => (eps / sqrt N2) ^ 2 * (w i j) ^ 2)).
        - rewrite rsum_scal. fold N2.
          replace ((eps / sqrt N2) ^ 2 * N2) with (eps ^ 2 * (N2 / (sqrt N2 * sqrt N2))) by (field; lra).
          rewrite Hss. field. lra.
        - intros i Hi. rewrite pow2_abs. ring. }
      split; [|split].
      * change (rsum n (fun i => w i j * (w i j * 1))) with N2. unfold dot. rewrite (rsum_ext n _ (fun i => eps / sqrt N2 * (w i j) ^ 2)) by (intros; ring).
        rewrite rsum_scal. fold N2. rewrite <- Hss at 2. field. lra.
      * split; auto. rewrite <- N. right. apply rsum_ext. intros i Hi. do 2 f_equal. lra.
      * split; auto. rewrite <- N. right. apply rsum_ext. intros i Hi.
        rewrite <- Rabs_Ropp. do 2 f_equal. lra.
Qed.

Lemma get_upper_ball0_max : forall n eps p c w b r j,
  (0 < n)%nat -> 0 <= eps -> get_upper_ball0 n false c eps p w b = Ok r ->
  is_max (in_ball n p eps c) (fun z => aff n w b z j) (r j).
Proof.
  intros n eps p c w b r j Hn He Hr. split.
  - intros; eapply get_upper_ball0_sound; eauto.
  - unfold get_upper_ball0 in Hr. destruct p as [k|].
    + destruct (get_lq_norm n (Pnum k) w) as [q|] eqn:Eq; simpl in Hr; [|discriminate].
      injection Hr as <-.
      destruct (ball_attained n (Pnum k) eps c w q j Hn He ltac:(discriminate) Eq) as (d & Hd & Hin & _).
      exists (fun i => c i + d i). split; auto.
      rewrite (aff_center n w b _ c j). rewrite <- Hd.
      rewrite (dot_ext n _ (fun i => w i j) (fun i => c i + d i - c i) d) by (intros; lra). lra.
    + injection Hr as <-.
      destruct (get_upper_box_max n (fun i => c i - eps) (fun i => c i + eps) w b j) as (_ & z & Hz & E).
      { intros; lra. }
      exists z. split; auto. apply in_ball_inf_box. auto.
Qed.

Lemma get_lower_ball0_min : forall n eps p c w b r j,
  (0 < n)%nat -> 0 <= eps -> get_lower_ball0 n false c eps p w b = Ok r ->
  is_min (in_ball n p eps c) (fun z => aff n w b z j) (r j).
Proof.
  intros n eps p c w b r j Hn He Hr. split.
  - intros; eapply get_lower_ball0_sound; eauto.
  - unfold get_lower_ball0 in Hr. destruct p as [k|].
    + destruct (get_lq_norm n (Pnum k) w) as [q|] eqn:Eq; simpl in Hr; [|discriminate].
      injection Hr as <-.
      destruct (ball_attained n (Pnum k) eps c w q j Hn He ltac:(discriminate) Eq) as (d & Hd & _ & Hin).
      exists (fun i => c i - d i). split; auto.
      rewrite (aff_center n w b _ c j).
      rewrite (dot_ext n _ (fun i => w i j) (fun i => c i - d i - c i) (fun i => -1 * d i)) by (intros; lra).
      rewrite dot_scal_r, Hd. lra.
    + injection Hr as <-.
      destruct (get_lower_box_min n (fun i => c i - eps) (fun i => c i + eps) w b j) as (_ & z & Hz & E).
      { intros; lra. }
      exists z. split; auto. apply in_ball_inf_box. auto.
Qed.

Lemma lq_norm_ok : forall n p w, (exists q, get_lq_norm n p w = Ok q) <-> (p = Pnum 1 \/ p = Pnum 2).
Proof.
  intros n p w. split.
  - intros [q H]. destruct p as [[|[|[|k]]]|]; try discriminate; auto.
  - intros [->| ->]; eexists; reflexivity.
Qed.

(** ** Domains *)

Lemma get_upper_no_kw : forall D n x w b,
  get_upper D n false x w b no_kw =
  match D with
  | Box => Ok (get_upper_box n false (x 0%nat) (x 1%nat) w b)
  | Ball eps p => get_upper_ball0 n false (x 0%nat) eps p w b
  end.
Proof. intros. destruct D as [|eps [k|]]; reflexivity. Qed.

Lemma get_lower_no_kw : forall D n x w b,
  get_lower D n false x w b no_kw =
  match D with
  | Box => Ok (get_lower_box n false (x 0%nat) (x 1%nat) w b)
  | Ball eps p => get_lower_ball0 n false (x 0%nat) eps p w b
  end.
Proof. intros. destruct D as [|eps [k|]]; reflexivity. Qed.

Lemma get_upper_ok : forall D n x w b, norm_ok D ->
  exists r, get_upper D n false x w b no_kw = Ok r.
Proof.
  intros D n x w b H. rewrite get_upper_no_kw. destruct D as [|eps [k|]]; try (eexists; reflexivity).
  destruct k as [|[|[|k]]]; simpl in H; try contradiction; eexists; reflexivity.
Qed.

Lemma get_lower_ok : forall D n x w b, norm_ok D ->
  exists r, get_lower D n false x w b no_kw = Ok r.
Proof.
  intros D n x w b H. rewrite get_lower_no_kw. destruct D as [|eps [k|]]; try (eexists; reflexivity).
  destruct k as [|[|[|k]]]; simpl in H; try contradiction; eexists; reflexivity.
Qed.

Lemma get_upper_sound : forall D n x w b r z j, (0 < n)%nat ->
  get_upper D n false x w b no_kw = Ok r -> in_dom D n x z -> aff n w b z j <= r j.
Proof.
  intros D n x w b r z j Hn Hr Hz. rewrite get_upper_no_kw in Hr. destruct D as [|eps p].
  - injection Hr as <-. apply get_upper_box_sound; auto.
  - eapply get_upper_ball0_sound; eauto.
Qed.

Lemma get_lower_sound : forall D n x w b r z j, (0 < n)%nat ->
  get_lower D n false x w b no_kw = Ok r -> in_dom D n x z -> r j <= aff n w b z j.
Proof.
  intros D n x w b r z j Hn Hr Hz. rewrite get_lower_no_kw in Hr. destruct D as [|eps p].
  - injection Hr as <-. apply get_lower_box_sound; auto.
  - eapply get_lower_ball0_sound; eauto.
Qed.

(** the domain denotes at least one point *)
Definition dom_nonempty (D : domain) (n : nat) (x : tensor) : Prop :=
  match D with
  | Box => forall i, (i < n)%nat -> x 0%nat i <= x 1%nat i
  | Ball eps _ => 0 <= eps
  end.

Lemma get_upper_max : forall D n x w b r j, (0 < n)%nat -> dom_nonempty D n x ->
  get_upper D n false x w b no_kw = Ok r ->
  is_max (in_dom D n x) (fun z => aff n w b z j) (r j).
Proof.
  intros D n x w b r j Hn He Hr. rewrite get_upper_no_kw in Hr. destruct D as [|eps p].
  - injection Hr as <-. apply get_upper_box_max; auto.
  - apply get_upper_ball0_max; auto.
Qed.

Lemma get_lower_min : forall D n x w b r j, (0 < n)%nat -> dom_nonempty D n x ->
  get_lower D n false x w b no_kw = Ok r ->
  is_min (in_dom D n x) (fun z => aff n w b z j) (r j).
Proof.
  intros D n x w b r j Hn He Hr. rewrite get_lower_no_kw in Hr. destruct D as [|eps p].
  - injection Hr as <-. apply get_lower_box_min; auto.
  - apply get_lower_ball0_min; auto.
Qed.

(** ** Fine-tuned ball *)

Lemma ft_lower_sound : forall n x_0 eps p w b k r z j,
  (0 < n)%nat ->
  (forall a i j, k_ft_lower k = Some a -> (i < n)%nat -> 0 <= a i j <= 1) ->
  (forall u i, k_upper k = Some u -> (i < n)%nat -> z i <= u i) ->
  (forall l i, k_lower k = Some l -> (i < n)%nat -> l i <= z i) ->
  in_ball n p eps x_0 z ->
  get_lower_ball n false x_0 eps p w b k = Ok r ->
  r j <= aff n w b z j.
Proof.
  intros n x_0 eps p w b k r z j Hn Ha Hu Hl Hz Hr.
  unfold get_lower_ball in Hr.
  destruct p as [kk|]; [|eapply get_lower_ball0_sound; eauto].
  destruct (kw_nonempty k) eqn:Ek; [|eapply get_lower_ball0_sound; eauto].
  unfold get_lower_ball_finetune in Hr.
  destruct k as [fu fl ku kl]; cbn [k_ft_upper k_ft_lower k_upper k_lower] in *.
  destruct fl as [a|]; destruct ku as [u|]; destruct kl as [l|]; cbn [is_some andb orb kget bind] in Hr; try discriminate;
    try (eapply get_lower_ball0_sound; eauto; fail).
  - (* both corners *)
    match type of Hr with context [add_score _ _ ?B] => destruct B as [s|] eqn:Es end;
      cbn in Hr; [|discriminate].
    injection Hr as <-.
    pose proof (get_lower_ball0_sound n eps (Pnum kk) x_0 _ b s z j Hn Es Hz) as B. cbv beta in B.
    unfold aff, dot in *.
    assert (rsum n (fun i => Rmax 0 (w i j * (1 - a i j)) * l i) + rsum n (fun i => Rmin 0 (w i j * (1 - a i j)) * u i)
            <= rsum n (fun i => w i j * (1 - a i j) * z i)).
    { rewrite <- rsum_plus. apply rsum_le. intros i Hi.
      specialize (Hu u i eq_refl Hi). specialize (Hl l i eq_refl Hi).
      rewrite (Rmax_comm 0), (Rmin_comm 0). apply box_term_lower. lra. }
    assert (E : rsum n (fun i => w i j * z i) = rsum n (fun i => w i j * (1 - a i j) * z i) + rsum n (fun i => w i j * a i j * z i)).
    { rewrite <- rsum_plus. apply rsum_ext; intros; ring. }
    rewrite E. lra.
  - (* upper only *)
    match type of Hr with context [add_score _ _ ?B] => destruct B as [s|] eqn:Es end;
      cbn in Hr; [|discriminate].
    injection Hr as <-.
    pose proof (get_lower_ball0_sound n eps (Pnum kk) x_0 _ b s z j Hn Es Hz) as B. cbv beta in B.
    unfold aff, dot in *.
    assert (rsum n (fun i => Rmin 0 (Rmin 0 (w i j) * (1 - a i j)) * u i)
            <= rsum n (fun i => Rmin 0 (w i j) * (1 - a i j) * z i)).
    { apply rsum_le. intros i Hi. specialize (Hu u i eq_refl Hi). specialize (Ha a i j eq_refl Hi).
      assert (Rmin 0 (w i j) * (1 - a i j) <= 0).
      { assert (Rmin 0 (w i j) <= 0) by apply Rmin_l. nra. }
      rewrite (Rmin_right 0 (Rmin 0 (w i j) * (1 - a i j))) by auto. nra. }
    assert (E : rsum n (fun i => w i j * z i) = rsum n (fun i => Rmin 0 (w i j) * (1 - a i j) * z i) +
       rsum n (fun i => (Rmin 0 (w i j) * a i j + Rmax 0 (w i j)) * z i)).
    { rewrite <- rsum_plus. apply rsum_ext; intros i _.
      pose proof (Rpos_neg (w i j)) as Hpn. unfold Rpos, Rneg in Hpn.
      rewrite Rmin_comm, Rmax_comm. rewrite <- Hpn at 1. ring. }
    rewrite E. lra.
Qed.

(** ** Layout *)

Lemma nb_tensors_spec : forall mode dc, nb_tensors mode dc = spec_nb mode dc.
Proof. destruct mode, dc; reflexivity. Qed.

Lemma extract_length : forall A mode dc (r : full A), length (extract mode dc r) = spec_nb mode dc.
Proof. destruct mode, dc; reflexivity. Qed.

Lemma extract_unpack : forall A (none : A) mode dc l,
  length l = spec_nb mode dc ->
  exists r, unpack none mode dc l = Ok r /\ extract mode dc r = l.
Proof.
  intros A none mode dc l H.
  destruct mode, dc;
    do 10 (try (destruct l as [|? l]; [simpl in H; try discriminate H|]));
    try discriminate H;
    eexists; split; reflexivity.
Qed.

Lemma unpack_short : forall A (none : A) mode dc l,
  (length l < spec_nb mode dc)%nat -> unpack none mode dc l = Err ValueError.
Proof.
  intros A none mode dc l H.
  destruct mode, dc; unfold spec_nb in H; simpl in H;
    do 9 (try (destruct l as [|? l]; [simpl; reflexivity|])); simpl in H; lia.
Qed.

Lemma unpack_app : forall A (none : A) mode dc l l',
  length l = spec_nb mode dc -> unpack none mode dc (l ++ l') = unpack none mode dc l.
Proof.
  intros A none mode dc l l' H.
  destruct mode, dc;
    do 10 (try (destruct l as [|? l]; [simpl in H; try discriminate H|]));
    try discriminate H; reflexivity.
Qed.

(** the fields carried by a mode *)
Definition fields_eq {A} (mode : fmode) (dc : bool) (r r' : full A) : Prop :=
  (get_ibp mode = true -> f_uc r = f_uc r' /\ f_lc r = f_lc r') /\
  (get_affine mode = true -> f_x r = f_x r' /\ f_wu r = f_wu r' /\ f_bu r = f_bu r' /\
                              f_wl r = f_wl r' /\ f_bl r = f_bl r') /\
  (dc = true -> f_h r = f_h r' /\ f_g r = f_g r').

Lemma unpack_extract : forall A (none : A) mode dc r,
  exists r', unpack none mode dc (extract mode dc r) = Ok r' /\ fields_eq mode dc r r'.
Proof.
  intros A none mode dc r. destruct mode, dc; (eexists; split; [reflexivity|]);
    unfold fields_eq; simpl; repeat split; intros; try discriminate; auto.
Qed.

Lemma split_to_merge_concat : forall A nb (ls : list (list A)),
  (0 < nb)%nat -> (forall l, In l ls -> length l = nb) -> split_to_merge nb (concat ls) = ls.
Proof.
  intros A nb ls Hnb H. unfold split_to_merge.
  assert (Hlen : length (concat ls) = (nb * length ls)%nat).
  { induction ls as [|l q IH]; simpl; [lia|].
    rewrite app_length, (H l) by (left; auto). rewrite IH by (intros; apply H; right; auto). lia. }
  rewrite Hlen. rewrite Nat.mul_comm, Nat.div_mul by lia. clear Hlen.
  induction ls as [|l q IH]; simpl; auto.
  assert (Hl : length l = nb) by (apply H; left; auto).
  f_equal.
  - rewrite Nat.mul_0_r. simpl. rewrite <- Hl at 1. rewrite firstn_app, Nat.sub_diag, firstn_all. simpl.
    rewrite app_nil_r. auto.
  - rewrite <- seq_shift, map_map. rewrite <- IH at 2 by (intros; apply H; right; auto).
    apply map_ext. intro i. f_equal. rewrite skipn_app, Hl.
    replace (nb * S i - nb)%nat with (nb * i)%nat by lia.
    rewrite skipn_all2 by lia. reflexivity.
Qed.

Lemma strided_skip : forall A k st (l l' : list A),
  strided (length l + k) st (l ++ l') = strided k st l'.
Proof. induction l; simpl; auto. Qed.

Lemma strided_concat : forall A (d : A) nb o (ls : list (list A)),
  (o < nb)%nat -> (forall l, In l ls -> length l = nb) ->
  strided o nb (concat ls) = map (fun l => nth o l d) ls.
Proof.
  intros A d nb o ls Ho H. induction ls as [|l q IH]; auto.
  simpl. assert (Hl : length l = nb) by (apply H; left; auto).
  destruct (nth_split l d (n := o)) as (l1 & l2 & El & Hl1); [lia|].
  remember (nth o l d) as a. rewrite El.
  rewrite <- app_assoc. rewrite <- Hl1 at 1. rewrite <- (Nat.add_0_r (length l1)), strided_skip. simpl.
  f_equal. rewrite El in Hl. rewrite app_length in Hl. simpl in Hl.
  replace (pred nb) with (length l2 + o)%nat by lia.
  rewrite strided_skip. apply IH. intros; apply H; right; auto.
Qed.

(** ** Completion *)

(** validity of a full record *)
Definition vfull (D : domain) (ibp affine : bool) (S : vec -> Prop) (n m : nat) (f : vec -> vec) (r : full tensor) : Prop :=
  (ibp = true -> const_ok S m f (f_uc r 0%nat) (f_lc r 0%nat)) /\
  (affine = true -> (forall z, S z -> in_dom D n (f_x r) z) /\
     affine_ok S n m f (f_wu r) (f_bu r 0%nat) (f_wl r) (f_bl r 0%nat)).

Lemma valid_unpack : forall D mode dc S n m f ts,
  valid D mode dc S n m f ts ->
  exists r, unpack empty_tensor mode dc ts = Ok r /\
    vfull D (get_ibp mode) (get_affine mode) S n m f r /\ extract mode dc r = ts.
Proof.
  intros D mode dc S n m f ts [Hlen H].
  destruct (extract_unpack tensor empty_tensor mode dc ts Hlen) as (r & Hr & E).
  exists r. split; auto. split; auto.
  rewrite <- E in H. unfold vfull. destruct mode, dc; cbn [extract app get_ibp get_affine] in *;
    (split; intros; try discriminate; tauto).
Qed.

Lemma vfull_valid : forall D mode dc S n m f r,
  vfull D (get_ibp mode) (get_affine mode) S n m f r ->
  valid D mode dc S n m f (extract mode dc r).
Proof.
  intros D mode dc S n m f r [H1 H2]. split; [apply extract_length|].
  destruct mode, dc; cbn [extract app get_ibp get_affine] in *;
    try specialize (H1 eq_refl); try specialize (H2 eq_refl); tauto.
Qed.

(** completion is possible and gives valid constant bounds *)
Lemma complete_sound : forall sp ca ti S m f r,
  (0 < sp_n sp)%nat -> dom_ok (sp_dom sp) (sp_mode sp) ->
  vfull (sp_dom sp) (get_ibp (sp_mode sp)) (get_affine (sp_mode sp)) S (sp_n sp) m f r ->
  exists r', complete sp ca ti r = Ok r' /\
    vfull (sp_dom sp) (get_ibp (sp_mode sp) || ca) (get_affine (sp_mode sp)) S (sp_n sp) m f r' /\
    f_x r' = f_x r /\ f_wu r' = f_wu r /\ f_bu r' = f_bu r /\ f_wl r' = f_wl r /\ f_bl r' = f_bl r /\
    f_h r' = f_h r /\ f_g r' = f_g r.
Proof.
  intros sp ca ti S m f r Hn Hd [H1 H2]. unfold complete.
  destruct sp as [dc mode D n]; cbn [sp_dc sp_mode sp_dom sp_n] in *.
  destruct mode.
  - (* IBP *) replace ((ca && mode_eqb IBP AFFINE || ti && mode_eqb IBP HYBRID)%bool) with false
      by (destruct ca, ti; reflexivity).
    exists r. split; auto. split; [split; simpl; intros; [auto | discriminate]|]. repeat split; auto.
  - (* AFFINE *)
    destruct ca; cbn [mode_eqb andb orb].
    + destruct (get_upper_ok D n (f_x r) (f_wu r) (f_bu r 0%nat) Hd) as [ua Eu].
      destruct (get_lower_ok D n (f_x r) (f_wl r) (f_bl r 0%nat) Hd) as [la El].
      rewrite Eu, El. cbn. eexists. split; [reflexivity|]. cbn.
      destruct (H2 eq_refl) as [Hx Ha].
      split; [split; cbn|repeat split; auto].
      * intros _ z j Hz Hj. unfold vt. cbn.
        pose proof (get_upper_sound D n _ _ _ ua z j Hn Eu (Hx z Hz)).
        pose proof (get_lower_sound D n _ _ _ la z j Hn El (Hx z Hz)).
        specialize (Ha z j Hz Hj). lra.
      * intros _. split; auto.
    + replace (ti && false)%bool with false by (destruct ti; auto).
      exists r. split; auto. split; [split; simpl; intros; [discriminate|auto]|]. repeat split; auto.
  - (* HYBRID *)
    destruct ti; cbn [mode_eqb andb orb];
      rewrite ?andb_false_r, ?orb_true_r, ?orb_false_r.
    + destruct (get_upper_ok D n (f_x r) (f_wu r) (f_bu r 0%nat) Hd) as [ua Eu].
      destruct (get_lower_ok D n (f_x r) (f_wl r) (f_bl r 0%nat) Hd) as [la El].
      cbn [orb]. rewrite Eu, El. cbn. eexists. split; [reflexivity|]. cbn.
      destruct (H2 eq_refl) as [Hx Ha].
      split; [split; cbn|repeat split; auto].
      * intros _ z j Hz Hj. unfold vt. cbn.
        pose proof (get_upper_sound D n _ _ _ ua z j Hn Eu (Hx z Hz)).
        pose proof (get_lower_sound D n _ _ _ la z j Hn El (Hx z Hz)).
        specialize (Ha z j Hz Hj). specialize (H1 eq_refl z j Hz Hj).
        split.
        -- apply Rmax_lub; lra.
        -- apply Rmin_glb; lra.
      * intros _. split; auto.
    + exists r. split; auto. split; [split; simpl; intros; auto|]. repeat split; auto.
Qed.

(** from lists to completed records *)
Lemma get_full_sound : forall sp ca ti S m f ts,
  (0 < sp_n sp)%nat -> dom_ok (sp_dom sp) (sp_mode sp) ->
  valid (sp_dom sp) (sp_mode sp) (sp_dc sp) S (sp_n sp) m f ts ->
  exists r, get_fullinputs sp ca ti ts = Ok r /\
    vfull (sp_dom sp) (get_ibp (sp_mode sp) || ca) (get_affine (sp_mode sp)) S (sp_n sp) m f r.
Proof.
  intros sp ca ti S m f ts Hn Hd Hv.
  destruct (valid_unpack _ _ _ _ _ _ _ _ Hv) as (r & Er & Hr & _).
  unfold get_fullinputs. rewrite Er. cbn.
  destruct (complete_sound sp ca ti S m f r Hn Hd Hr) as (r' & E' & H' & _).
  exists r'. auto.
Qed.
