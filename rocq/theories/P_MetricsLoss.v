(** Cross-entropy losses (C55) and radius loss (C56). *)
From Coq Require Import Reals Lra Lia List Arith Bool ZArith.
From Verif Require Import RLib Spec M_Core M_Utils M_Ops M_Backward M_Convert M_Metrics Spec_Convert Spec_Wrapper Spec_Metrics P_Core P_Convert P_Metrics P_MetricsAdv.
Import ListNotations.
Local Open Scope R_scope.

(** ** C55 *)
Lemma sum_exp_pos : forall k v, (0 < k)%nat -> 0 < rsum k (fun j => exp (v j)).
Proof.
  intros k v K. eapply Rlt_le_trans; [apply (exp_pos (v O))|]. apply (rsum_ge_term k (fun j => exp (v j)) O); [|exact K]. intros; left; apply exp_pos.
Qed.
Lemma ce_bound_eq : forall k u l i, (0 < k)%nat -> ce_bound k u l i = - l i + ln (rsum k (fun j => exp (u j))).
Proof.
  intros k u l i K. unfold ce_bound. rewrite (rsum_ext k _ (fun j => exp (u j) * exp (- rmax k u))) by (intros; unfold Rminus; rewrite exp_plus; reflexivity).
  rewrite rsum_scal_r, ln_mult, ln_exp; [ring|apply sum_exp_pos; exact K|apply exp_pos].
Qed.
Lemma ln_sum_le : forall k u v, (0 < k)%nat -> (forall j, (j < k)%nat -> v j <= u j) -> ln (rsum k (fun j => exp (v j))) <= ln (rsum k (fun j => exp (u j))).
Proof.
  intros k u v K H. assert (Q : rsum k (fun j => exp (v j)) <= rsum k (fun j => exp (u j))).
  { apply rsum_le. intros j J. destruct (H j J) as [Hl| ->]; [left; apply exp_increasing; exact Hl|right; reflexivity]. }
  destruct Q as [Q | ->]; [left; apply ln_increasing; [apply sum_exp_pos; exact K|exact Q]|right; reflexivity].
Qed.
Lemma fusion_sound : forall D mode S n k f ts, (0 < n)%nat -> dom_ok D mode -> valid D mode false S n k f ts ->
  exists u l, fusion_bounds D n mode ts = Ok (u, l) /\ const_ok S k f u l.
Proof.
  intros D mode S n k f ts Hn Hd V. destruct (convert2mode_sound D n mode IBP S k f ts Hn Hd (fun _ => eq_refl) V) as (o & E & L & C).
  cbn in L. destruct o as [|u [|l [|? ?]]]; try discriminate L. exists (u 0%nat), (l 0%nat). unfold fusion_bounds. rewrite E. split; [reflexivity|exact C].
Qed.
Lemma fusion_tightest : forall D mode n ts, (0 < n)%nat -> norm_ok D -> length ts = spec_nb mode false -> inhabited_dom D mode n ts ->
  exists u l, fusion_bounds D n mode ts = Ok (u 0%nat, l 0%nat) /\ tightest D mode n ts u l.
Proof.
  intros D mode n ts Hn ND L H. unfold fusion_bounds. destruct mode; cbn in L.
  - destruct ts as [|u [|l [|? ?]]]; try discriminate L. exists u, l. split; [reflexivity|split; reflexivity].
  - destruct ts as [|x [|wu [|bu [|wl [|bl [|? ?]]]]]]; try discriminate L.
    destruct (convert2mode_affine D n IBP x wu bu wl bl [] Hn ND H) as (u & l & U & V & E). rewrite E. exists u, l. split; [reflexivity|split; assumption].
  - destruct ts as [|x [|u' [|wu [|bu [|l' [|wl [|bl [|? ?]]]]]]]]; try discriminate L.
    destruct (convert2mode_hybrid D n IBP x u' wu bu l' wl bl [] Hn ND H) as (u & l & U & V & E). rewrite E. exists u, l. split; [reflexivity|split; assumption].
Qed.

Theorem ce_value : forall D mode n k batch ts, (0 < n)%nat -> (0 < k)%nat -> norm_ok D -> length ts = spec_nb mode false -> inhabited_dom D mode n ts ->
  exists u l v, tightest D mode n ts u l /\ loss_fusion D n k mode false false batch ts = Ok v /\
    forall i, v i = - l 0%nat i + ln (rsum k (fun j => exp (u 0%nat j))).
Proof.
  intros D mode n k batch ts Hn K ND L H. destruct (fusion_tightest D mode n ts Hn ND L H) as (u & l & E & T).
  exists u, l. eexists. split; [exact T|]. unfold loss_fusion. rewrite E. cbn [bind fst snd]. split; [reflexivity|]. intro i. apply ce_bound_eq. exact K.
Qed.
Theorem ce_sound : forall D mode S n k f batch ts, (0 < n)%nat -> (0 < k)%nat -> dom_ok D mode -> valid D mode false S n k f ts ->
  exists v, loss_fusion D n k mode false false batch ts = Ok v /\
    forall z i, S z -> (i < k)%nat -> cross_entropy k (f z) i <= v i.
Proof.
  intros D mode S n k f batch ts Hn K Hd V. destruct (fusion_sound D mode S n k f ts Hn Hd V) as (u & l & E & C).
  unfold loss_fusion. rewrite E. cbn [bind fst snd]. eexists. split; [reflexivity|]. intros z i Z I. rewrite ce_bound_eq by exact K.
  unfold cross_entropy. pose proof (C z i Z I). pose proof (ln_sum_le k u (f z) K (fun j J => proj2 (C z j Z J))). lra.
Qed.

(** the label of class i *)
Lemma id_mask : forall k i, mask01 k (id_mat i).
Proof. intros k i j J. unfold id_mat. destruct (Nat.eqb i j); [right|left]; reflexivity. Qed.
Lemma id_pair : forall i t s, label_pair (id_mat i) t s <-> t <> i /\ s = i.
Proof.
  intros i t s. unfold label_pair, id_mat. destruct (Nat.eqb_spec i t), (Nat.eqb_spec i s); subst; split; intros [A B]; try lra; try congruence; split; congruence.
Qed.
Lemma id_some_pair : forall k i, (2 <= k)%nat -> (i < k)%nat -> some_pair k (id_mat i).
Proof.
  intros k i K I. exists (if Nat.eqb i 0 then 1%nat else O), i. destruct (Nat.eqb_spec i 0).
  - split; [lia|]. split; [exact I|]. apply id_pair. split; [lia|reflexivity].
  - split; [lia|]. split; [exact I|]. apply id_pair. split; [lia|reflexivity].
Qed.
Theorem asymptotic_value : forall D mode n k b ts, (0 < n)%nat -> (2 <= k)%nat -> norm_ok D -> length ts = spec_nb mode false -> inhabited_dom D mode n ts ->
  exists u l v, tightest D mode n ts u l /\ loss_fusion D n k mode true false (Some b) ts = Ok v /\
    forall i, (i < k)%nat -> exists M, v i = Rmax M (-1) /\ (forall j, (j < k)%nat -> j <> i -> u 0%nat j - l 0%nat i <= M) /\
      exists j, (j < k)%nat /\ j <> i /\ u 0%nat j - l 0%nat i = M.
Proof.
  intros D mode n k b ts Hn K ND L H. destruct (fusion_tightest D mode n ts Hn ND L H) as (u & l & E & T).
  exists u, l. eexists. split; [exact T|]. unfold loss_fusion. rewrite E. cbn [bind fst snd identity_like]. split; [reflexivity|]. intros i I.
  destruct (adv_max_pair k (fun t s => u 0%nat t - l 0%nat s) (id_mat i) (id_mask k i) (id_some_pair k i K I)) as [A (t & s & Ht & Hs & P & Q)].
  eexists. split; [reflexivity|]. apply id_pair in P as [P ->]. split.
  - intros j J N. apply (A j i J I). apply id_pair. split; [exact N|reflexivity].
  - exists t. split; [exact Ht|]. split; [exact P|]. exact Q.
Qed.
Theorem asymptotic_sound : forall D mode S n k f b ts, (0 < n)%nat -> (2 <= k)%nat -> dom_ok D mode -> valid D mode false S n k f ts ->
  exists v, loss_fusion D n k mode true false (Some b) ts = Ok v /\
    forall z i j, S z -> (i < k)%nat -> (j < k)%nat -> j <> i -> Rmax (f z j - f z i) (-1) <= v i.
Proof.
  intros D mode S n k f b ts Hn K Hd V. destruct (fusion_sound D mode S n k f ts Hn Hd V) as (u & l & E & C).
  unfold loss_fusion. rewrite E. cbn [bind fst snd identity_like]. eexists. split; [reflexivity|]. intros z i j Z I J N.
  destruct (adv_max_pair k (fun t s => u t - l s) (id_mat i) (id_mask k i) (id_some_pair k i K I)) as [A _].
  assert (P : u j - l i <= adv_max k k (fun t s => u t - l s) (id_mat i)) by (apply (A j i J I); apply id_pair; split; [exact N|reflexivity]).
  pose proof (C z i Z I). pose proof (C z j Z J). unfold asymptotic_bound, adv_ibp. apply Rmax_lub; [eapply Rle_trans; [|apply Rmax_l]; lra|apply Rmax_r].
Qed.
(** what the layer refuses *)
Theorem fusion_errors : forall D n k mode ts batch,
  loss_fusion D n k mode true true batch ts = Err NotImplementedError /\
  (forall u l, fusion_bounds D n mode ts = Ok (u, l) -> loss_fusion D n k mode true false None ts = Err TypeError).
Proof. intros. split; [reflexivity|]. intros u l E. unfold loss_fusion. rewrite E. reflexivity. Qed.
(** backward: a softmax of the upper bounds *)
Theorem fusion_backward_value : forall D mode n k batch ts, (0 < n)%nat -> (0 < k)%nat -> norm_ok D -> length ts = spec_nb mode false -> inhabited_dom D mode n ts ->
  exists u l v, tightest D mode n ts u l /\ loss_fusion D n k mode false true batch ts = Ok v /\
    (forall i, v i = exp (u 0%nat i) / rsum k (fun j => exp (u 0%nat j))) /\ forall i, (i < k)%nat -> 0 < v i <= 1.
Proof.
  intros D mode n k batch ts Hn K ND L H. destruct (fusion_tightest D mode n ts Hn ND L H) as (u & l & E & T).
  exists u, l. eexists. split; [exact T|]. unfold loss_fusion. rewrite E. cbn [bind fst snd]. split; [reflexivity|]. split; [reflexivity|]. intros i I. cbn beta.
  pose proof (sum_exp_pos k (u 0%nat) K) as P. pose proof (exp_pos (u 0%nat i)) as Q. split; [apply Rdiv_lt_0_compat; assumption|].
  apply (Rmult_le_reg_r _ _ _ P). unfold Rdiv. rewrite Rmult_assoc, Rinv_l, Rmult_1_r, Rmult_1_l by lra.
  apply (rsum_ge_term k (fun j => exp (u 0%nat j)) i); [|exact I]. intros; left; apply exp_pos.
Qed.
(** build_crossentropy_model on a box is the layer *)
Theorem build_box : forall n k mode bb batch ts, ts <> [] ->
  build_crossentropy Box n k mode bb batch ts = loss_fusion Box n k mode false bb batch ts /\
  build_asymptotic_crossentropy Box n k mode batch ts = loss_fusion Box n k mode true false batch ts.
Proof. intros n k mode bb batch ts N. destruct ts as [|x q]; [congruence|]. destruct mode; split; reflexivity. Qed.
(** on a ball with constant bounds too; with affine bounds it needs two coordinates *)
Theorem build_ball : forall eps p n k mode bb batch ts,
  (mode = IBP -> build_crossentropy (Ball eps p) n k mode bb batch ts = loss_fusion (Ball eps p) n k mode false bb batch ts) /\
  (mode <> IBP -> (n < 2)%nat -> ts <> [] -> build_crossentropy (Ball eps p) n k mode bb batch ts = Err IndexError /\
     build_asymptotic_crossentropy (Ball eps p) n k mode batch ts = Err IndexError).
Proof.
  intros eps p n k mode bb batch ts. split.
  - intros ->. reflexivity.
  - intros M N T. destruct ts as [|x q]; [congruence|]. unfold build_crossentropy, build_asymptotic_crossentropy, with_box_x, read_as_box.
    apply Nat.ltb_lt in N. rewrite N. destruct mode; [congruence|split; reflexivity|split; reflexivity].
Qed.

(** ** C56 *)
Lemma box_dev : forall n ke (x0 x1 z W : vec), (forall i, (i < n)%nat -> x0 i <= z i <= x1 i) ->
  rsum n (fun i => W i * z i) <= rsum n (fun i => W i * ((x0 i + x1 i) / 2)) + rsum n (fun i => Rabs (W i * Rmax ((x1 i - x0 i) / 2) ke)).
Proof.
  intros n ke x0 x1 z W H. rewrite <- rsum_plus. apply rsum_le. intros i I. specialize (H i I).
  pose proof (Rmax_l ((x1 i - x0 i) / 2) ke) as Q. set (r := Rmax ((x1 i - x0 i) / 2) ke) in *.
  rewrite Rabs_mult. rewrite (Rabs_pos_eq r) by lra.
  unfold Rabs. destruct (Rcase_abs (W i)); nra.
Qed.
Lemma volume_neg : forall ke n k x_0 radius W b y c, 0 < ke -> adv_volume ke n k x_0 radius W b y < 0 -> (c < k)%nat -> y c = 0 ->
  rsum n (fun i => W i c * x_0 i) + b c + rsum n (fun i => Rabs (W i c * radius i)) < 0.
Proof.
  intros ke n k x_0 radius W b y c He H C Y. unfold adv_volume in H.
  pose proof (rmax_ge k (fun j => 1 - Rmin (- (rsum n (fun i => W i j * x_0 i) + b j) / Rmax (rsum n (fun i => Rabs (W i j * radius i))) ke + y j) 2) c C) as G. cbn beta in G.
  rewrite Y in G. set (s := rsum n (fun i => W i c * x_0 i) + b c) in *. set (d := rsum n (fun i => Rabs (W i c * radius i))) in *.
  pose proof (Rmax_l d ke). pose proof (Rmax_r d ke). set (m := Rmax d ke) in *.
  pose proof (Rmin_l (- s / m + 0) 2). assert (P : 1 < - s / m) by lra.
  apply (Rmult_lt_compat_r m) in P; [|lra]. unfold Rdiv in P. rewrite Rmult_assoc, Rinv_l in P by lra. lra.
Qed.
(** the weights of radius_label for the label of class c *)
Lemma id_sum : forall k c (g : vec), (c < k)%nat -> rsum k (fun j => - g j * id_mat c j) = - g c.
Proof.
  intros k c g C. rewrite (rsum_ext k _ (fun j => if Nat.eqb j c then - g j else 0)).
  - apply (rsum_delta k c (fun j => - g j) C).
  - intros j _. unfold id_mat. rewrite Nat.eqb_sym. destruct (Nat.eqb j c); ring.
Qed.
Lemma id_off : forall c j, j <> c -> id_mat c j = 0.
Proof. intros c j N. unfold id_mat. destruct (Nat.eqb_spec c j); [congruence|reflexivity]. Qed.
Lemma id_on : forall c, id_mat c c = 1.
Proof. intro c. unfold id_mat. rewrite Nat.eqb_refl. reflexivity. Qed.

Lemma radius_run : forall ke n k mode backward b ts x wu bu wl bl, affine_part mode ts x wu bu wl bl ->
  radius_robust ke Box n k mode backward (Some b) ts = Ok (fun i =>
    if backward then radius_label_backward ke n k (fun i => (x 0%nat i + x 1%nat i) / 2) (fun i => Rmax ((x 1%nat i - x 0%nat i) / 2) ke) wu (bu 0%nat) (id_mat i)
    else radius_label ke n k (fun i => (x 0%nat i + x 1%nat i) / 2) (fun i => Rmax ((x 1%nat i - x 0%nat i) / 2) ke) wu (bu 0%nat) wl (bl 0%nat) (id_mat i)).
Proof. intros ke n k [] backward b ts x wu bu wl bl H; cbn in H; [contradiction|subst; reflexivity|destruct H as (u & l & ->); reflexivity]. Qed.
Lemma valid_part : forall mode S n k f ts, mode <> IBP -> valid Box mode false S n k f ts -> exists x wu bu wl bl, affine_part mode ts x wu bu wl bl /\
  (forall z, S z -> in_box n (x 0%nat) (x 1%nat) z) /\ affine_ok S n k f wu (bu 0%nat) wl (bl 0%nat).
Proof.
  intros mode S n k f ts M [L V]. destruct mode; [congruence| |]; cbn in L.
  - destruct ts as [|x [|wu [|bu [|wl [|bl [|? ?]]]]]]; try discriminate L. destruct V as [X V]. exists x, wu, bu, wl, bl. split; [reflexivity|]. split; assumption.
  - destruct ts as [|x [|u [|wu [|bu [|l [|wl [|bl [|? ?]]]]]]]]; try discriminate L. destruct V as (X & _ & V). exists x, wu, bu, wl, bl. split; [exists u, l; reflexivity|]. split; assumption.
Qed.
Lemma radius_neg : forall ke n k (x wu bu wl bl : tensor) c j, 0 < ke -> (c < k)%nat -> (j < k)%nat -> j <> c ->
  radius_label ke n k (fun i => (x 0%nat i + x 1%nat i) / 2) (fun i => Rmax ((x 1%nat i - x 0%nat i) / 2) ke) wu (bu 0%nat) wl (bl 0%nat) (id_mat c) < 0 ->
  separated n x wu bu wl bl j c.
Proof.
  intros ke n k x wu bu wl bl c j He C J N H z Z. unfold radius_label in H. apply (volume_neg _ _ _ _ _ _ _ _ j He) in H; [|exact J|apply id_off; exact N].
  cbn beta in H. rewrite !(id_off c j N) in H. rewrite (id_sum k c (bl 0%nat) C) in H.
  rewrite (rsum_ext n _ (fun i => (wu i j - wl i c) * ((x 0%nat i + x 1%nat i) / 2))) in H by (intros; rewrite (id_sum k c (wl i) C); ring).
  rewrite (rsum_ext n (fun i => Rabs _) (fun i => Rabs ((wu i j - wl i c) * Rmax ((x 1%nat i - x 0%nat i) / 2) ke))) in H
    by (intros; rewrite (id_sum k c (wl i) C); f_equal; ring).
  pose proof (box_dev n ke (x 0%nat) (x 1%nat) z (fun i => wu i j - wl i c) Z) as D. cbn beta in D.
  assert (E : rsum n (fun i => (wu i j - wl i c) * z i) = aff n wu (bu 0%nat) z j - bu 0%nat j - (aff n wl (bl 0%nat) z c - bl 0%nat c)).
  { unfold aff, dot. rewrite (rsum_ext n _ (fun i => wu i j * z i - wl i c * z i)) by (intros; ring). rewrite rsum_minus. ring. }
  lra.
Qed.
Theorem radius_certifies : forall ke mode S n k f b ts, 0 < ke -> mode <> IBP -> valid Box mode false S n k f ts ->
  exists v, radius_robust ke Box n k mode false (Some b) ts = Ok v /\
    forall c, (c < k)%nat -> v c < 0 -> forall z j, S z -> (j < k)%nat -> j <> c -> f z j < f z c.
Proof.
  intros ke mode S n k f b ts He M V. destruct (valid_part mode S n k f ts M V) as (x & wu & bu & wl & bl & A & X & B).
  rewrite (radius_run ke n k mode false b ts x wu bu wl bl A). eexists. split; [reflexivity|]. intros c C H z j Z J N.
  pose proof (radius_neg ke n k x wu bu wl bl c j He C J N H z (X z Z)). pose proof (B z j Z J). pose proof (B z c Z C). lra.
Qed.
Theorem radius_backward_certifies : forall ke mode S n k g b ts, 0 < ke -> mode <> IBP -> valid Box mode false S n k g ts ->
  exists v, radius_robust ke Box n k mode true (Some b) ts = Ok v /\
    forall c, (c < k)%nat -> v c < 0 -> forall z j, S z -> (j < k)%nat -> j <> c -> g z j < 0.
Proof.
  intros ke mode S n k g b ts He M V. destruct (valid_part mode S n k g ts M V) as (x & wu & bu & wl & bl & A & X & B).
  rewrite (radius_run ke n k mode true b ts x wu bu wl bl A). eexists. split; [reflexivity|]. intros c C H z j Z J N.
  unfold radius_label_backward in H. apply (volume_neg _ _ _ _ _ _ _ _ j He) in H; [|exact J|apply id_off; exact N]. cbn beta in H. rewrite (id_off c j N) in H.
  pose proof (box_dev n ke (x 0%nat) (x 1%nat) z (fun i => wu i j) (X z Z)) as D. cbn beta in D. pose proof (B z j Z J) as [_ U]. unfold aff, dot in U. lra.
Qed.
(** every certificate is found when no width or denominator is clipped *)
Lemma corner : forall n (x : tensor) (W : vec), (forall i, (i < n)%nat -> x 0%nat i <= x 1%nat i) ->
  exists z, in_box n (x 0%nat) (x 1%nat) z /\
    rsum n (fun i => W i * z i) = rsum n (fun i => W i * ((x 0%nat i + x 1%nat i) / 2)) + rsum n (fun i => Rabs (W i * ((x 1%nat i - x 0%nat i) / 2))).
Proof.
  intros n x W H. exists (fun i => if Rle_dec 0 (W i) then x 1%nat i else x 0%nat i). split.
  - intros i I. specialize (H i I). destruct (Rle_dec 0 (W i)); lra.
  - rewrite <- rsum_plus. apply rsum_ext. intros i I. specialize (H i I). rewrite Rabs_mult, (Rabs_pos_eq ((x 1%nat i - x 0%nat i) / 2)) by lra.
    destruct (Rle_dec 0 (W i)) as [P|P]; [rewrite Rabs_pos_eq by exact P; field|rewrite Rabs_left by lra; field].
Qed.
Theorem radius_complete : forall ke mode n k b ts x wu bu wl bl c, 0 < ke -> ke <= 1 -> affine_part mode ts x wu bu wl bl -> (c < k)%nat ->
  (forall i, (i < n)%nat -> 2 * ke <= x 1%nat i - x 0%nat i) ->
  (forall j, (j < k)%nat -> j <> c -> ke <= rsum n (fun i => Rabs ((wu i j - wl i c) * ((x 1%nat i - x 0%nat i) / 2)))) ->
  exists v, radius_robust ke Box n k mode false (Some b) ts = Ok v /\
    (v c < 0 <-> forall j, (j < k)%nat -> j <> c -> separated n x wu bu wl bl j c).
Proof.
  intros ke mode n k b ts x wu bu wl bl c He He1 A C W Dn. rewrite (radius_run ke n k mode false b ts x wu bu wl bl A). eexists. split; [reflexivity|]. split.
  - intros H j J N. exact (radius_neg ke n k x wu bu wl bl c j He C J N H).
  - intros H. unfold radius_label, adv_volume.
    match goal with |- rmax k ?g < 0 => destruct (rmax_attained k g ltac:(lia)) as (j & J & E) end. rewrite E. clear E. cbn beta.
    destruct (Nat.eq_dec j c) as [->|N].
    + rewrite !id_on. rewrite (id_sum k c (bl 0%nat) C).
      rewrite (rsum_ext n (fun i => _ * ((x 0%nat i + x 1%nat i) / 2)) (fun _ => 0)) by (intros; rewrite (id_sum k c (wl i) C); ring).
      rewrite (rsum_ext n (fun i => Rabs _) (fun _ => 0)) by (intros i _; rewrite (id_sum k c (wl i) C), <- Rabs_R0; f_equal; ring).
      rewrite !rsum_0. rewrite (Rmax_right 0 ke) by lra.
      replace (- (0 + (- bl 0%nat c + bu 0%nat c * (1 - 1) + (bl 0%nat c - 1000000) * 1)) / ke) with (1000000 * / ke) by (field; lra).
      assert (1 <= / ke) by (rewrite <- Rinv_1; apply Rinv_le_contravar; lra). rewrite Rmin_right by lra. lra.
    + rewrite !(id_off c j N). rewrite (id_sum k c (bl 0%nat) C).
      rewrite (rsum_ext n (fun i => _ * ((x 0%nat i + x 1%nat i) / 2)) (fun i => (wu i j - wl i c) * ((x 0%nat i + x 1%nat i) / 2))) by (intros; rewrite (id_sum k c (wl i) C); ring).
      rewrite (rsum_ext n (fun i => Rabs _) (fun i => Rabs ((wu i j - wl i c) * ((x 1%nat i - x 0%nat i) / 2)))).
      2: { intros i I. rewrite (id_sum k c (wl i) C). specialize (W i I). rewrite Rmax_left by lra. f_equal. ring. }
      specialize (Dn j J N).
      destruct (corner n x (fun i => wu i j - wl i c)) as (z & Z & E); [intros i I; specialize (W i I); lra|].
      specialize (H j J N z Z).
      assert (Q : rsum n (fun i => (wu i j - wl i c) * z i) = aff n wu (bu 0%nat) z j - bu 0%nat j - (aff n wl (bl 0%nat) z c - bl 0%nat c)).
      { unfold aff, dot. rewrite (rsum_ext n _ (fun i => wu i j * z i - wl i c * z i)) by (intros; ring). rewrite rsum_minus. ring. }
      set (d := rsum n (fun i => Rabs ((wu i j - wl i c) * ((x 1%nat i - x 0%nat i) / 2)))) in *. rewrite (Rmax_left d ke) by lra.
      set (s := rsum n (fun i => (wu i j - wl i c) * ((x 0%nat i + x 1%nat i) / 2))) in *.
      assert (P : 1 < - (s + (- bl 0%nat c + bu 0%nat j * (1 - 0) + (bl 0%nat j - 1000000) * 0)) / d).
      { apply (Rmult_lt_reg_r d); [lra|]. unfold Rdiv. rewrite Rmult_assoc, Rinv_l by lra. lra. }
      apply Rmin_case; lra.
Qed.
(** same thing for a backward model, when the centre of the domain keeps the label itself below the constant of the code *)
Theorem radius_backward_complete : forall ke mode n k b ts x wu bu wl bl c, 0 < ke -> affine_part mode ts x wu bu wl bl -> (c < k)%nat ->
  (forall i, (i < n)%nat -> 2 * ke <= x 1%nat i - x 0%nat i) ->
  (forall j, (j < k)%nat -> j <> c -> ke <= rsum n (fun i => Rabs (wu i j * ((x 1%nat i - x 0%nat i) / 2)))) ->
  aff n wu (bu 0%nat) (fun i => (x 0%nat i + x 1%nat i) / 2) c < 1000000 ->
  exists v, radius_robust ke Box n k mode true (Some b) ts = Ok v /\
    (v c < 0 <-> forall j z, (j < k)%nat -> j <> c -> in_box n (x 0%nat) (x 1%nat) z -> aff n wu (bu 0%nat) z j < 0).
Proof.
  intros ke mode n k b ts x wu bu wl bl c He A C W Dn Hc. rewrite (radius_run ke n k mode true b ts x wu bu wl bl A). eexists. split; [reflexivity|]. split.
  - intros H j z J N Z. unfold radius_label_backward in H. apply (volume_neg _ _ _ _ _ _ _ _ j He) in H; [|exact J|apply id_off; exact N]. cbn beta in H. rewrite (id_off c j N) in H.
    pose proof (box_dev n ke (x 0%nat) (x 1%nat) z (fun i => wu i j) Z) as D. cbn beta in D. unfold aff, dot.
    lra.
  - intros H. unfold radius_label_backward, adv_volume.
    match goal with |- rmax k ?g < 0 => destruct (rmax_attained k g ltac:(lia)) as (j & J & E) end. rewrite E. clear E. cbn beta.
    destruct (Nat.eq_dec j c) as [->|N].
    + rewrite !id_on. unfold aff, dot in Hc.
      set (s := rsum n (fun i => wu i c * ((x 0%nat i + x 1%nat i) / 2))) in *.
      match goal with |- 1 - Rmin (- ?a / ?d + 1) 2 < 0 => assert (P : 0 < - a / d) end.
      { apply Rmult_lt_0_compat; [lra|]. apply Rinv_0_lt_compat. eapply Rlt_le_trans; [exact He|apply Rmax_r]. }
      apply Rmin_case; lra.
    + rewrite !(id_off c j N).
      rewrite (rsum_ext n (fun i => Rabs _) (fun i => Rabs (wu i j * ((x 1%nat i - x 0%nat i) / 2)))).
      2: { intros i I. specialize (W i I). rewrite Rmax_left by lra. reflexivity. }
      specialize (Dn j J N).
      destruct (corner n x (fun i => wu i j)) as (z & Z & E); [intros i I; specialize (W i I); lra|].
      specialize (H j z J N Z). unfold aff, dot in H.
      set (d := rsum n (fun i => Rabs (wu i j * ((x 1%nat i - x 0%nat i) / 2)))) in *. rewrite (Rmax_left d ke) by lra.
      set (s := rsum n (fun i => wu i j * ((x 0%nat i + x 1%nat i) / 2))) in *.
      assert (P : 1 < - (s + (bu 0%nat j - 1000000 * 0)) / d).
      { apply (Rmult_lt_reg_r d); [lra|]. unfold Rdiv. rewrite Rmult_assoc, Rinv_l by lra. lra. }
      apply Rmin_case; lra.
Qed.
Theorem radius_errors : forall ke n k mode backward batch ts,
  radius_robust ke Box n k IBP backward batch ts = Err NotImplementedError /\
  (forall eps p, radius_robust ke (Ball eps p) n k mode backward batch ts = Err NotImplementedError) /\
  (forall x wu bu wl bl, affine_part mode ts x wu bu wl bl -> radius_robust ke Box n k mode backward None ts = Err TypeError).
Proof.
  intros ke n k mode backward batch ts. split; [reflexivity|]. split; [intros eps p; destruct mode; reflexivity|].
  intros x wu bu wl bl A. destruct mode; cbn in A; [contradiction|subst; reflexivity|destruct A as (u & l & ->); reflexivity].
Qed.
