(** Theorems C55-C60 and C63: certified losses and metrics. *)
From Coq Require Import Reals List Arith Bool ZArith.
From Verif Require Import RLib Spec M_Core M_Utils M_Ops M_Backward M_Convert M_Metrics Spec_Convert Spec_Wrapper Spec_Metrics.
From Verif Require Import P_Core P_Act P_Convert P_Metrics P_MetricsAdv P_MetricsLoss P_MetricsScore P_MetricsCE P_MetricsThm P_MetricsThm2.
Import ListNotations.
Local Open Scope R_scope.

(** C55: the layer returns an upper bound of the cross-entropy of every class *)
Theorem C55_cross_entropy : forall D mode S n k f batch ts, (0 < n)%nat -> (0 < k)%nat -> dom_ok D mode -> valid D mode false S n k f ts ->
  exists v, loss_fusion D n k mode false false batch ts = Ok v /\
    forall z i, S z -> (i < k)%nat -> cross_entropy k (f z) i <= v i.
Proof. exact ce_sound. Qed.
Print Assumptions C55_cross_entropy.

(** the value returned, from the tightest bounds of the logits *)
Theorem C55_cross_entropy_value : forall D mode n k batch ts, (0 < n)%nat -> (0 < k)%nat -> norm_ok D -> length ts = spec_nb mode false -> inhabited_dom D mode n ts ->
  exists u l v, tightest D mode n ts u l /\ loss_fusion D n k mode false false batch ts = Ok v /\
    forall i, v i = - l 0%nat i + ln (rsum k (fun j => exp (u 0%nat j))).
Proof. exact ce_value. Qed.
Print Assumptions C55_cross_entropy_value.

(** asymptotic version, batch size known *)
Theorem C55_asymptotic : forall D mode S n k f b ts, (0 < n)%nat -> (2 <= k)%nat -> dom_ok D mode -> valid D mode false S n k f ts ->
  exists v, loss_fusion D n k mode true false (Some b) ts = Ok v /\
    forall z i j, S z -> (i < k)%nat -> (j < k)%nat -> j <> i -> Rmax (f z j - f z i) (-1) <= v i.
Proof. exact asymptotic_sound. Qed.
Print Assumptions C55_asymptotic.

Theorem C55_asymptotic_value : forall D mode n k b ts, (0 < n)%nat -> (2 <= k)%nat -> norm_ok D -> length ts = spec_nb mode false -> inhabited_dom D mode n ts ->
  exists u l v, tightest D mode n ts u l /\ loss_fusion D n k mode true false (Some b) ts = Ok v /\
    forall i, (i < k)%nat -> exists M, v i = Rmax M (-1) /\ (forall j, (j < k)%nat -> j <> i -> u 0%nat j - l 0%nat i <= M) /\
      exists j, (j < k)%nat /\ j <> i /\ u 0%nat j - l 0%nat i = M.
Proof. exact asymptotic_value. Qed.
Print Assumptions C55_asymptotic_value.

(** the asymptotic layer needs the batch size when it is called, and has no backward version *)
Theorem C55_errors : forall D n k mode ts batch,
  loss_fusion D n k mode true true batch ts = Err NotImplementedError /\
  (forall u l, fusion_bounds D n mode ts = Ok (u, l) -> loss_fusion D n k mode true false None ts = Err TypeError).
Proof. exact fusion_errors. Qed.
Print Assumptions C55_errors.

(** backward version: a softmax of the upper bounds *)
Theorem C55_backward_value : forall D mode n k batch ts, (0 < n)%nat -> (0 < k)%nat -> norm_ok D -> length ts = spec_nb mode false -> inhabited_dom D mode n ts ->
  exists u l v, tightest D mode n ts u l /\ loss_fusion D n k mode false true batch ts = Ok v /\
    (forall i, v i = exp (u 0%nat i) / rsum k (fun j => exp (u 0%nat j))) /\ forall i, (i < k)%nat -> 0 < v i <= 1.
Proof. exact fusion_backward_value. Qed.
Print Assumptions C55_backward_value.

(** which is no bound of the cross-entropy, neither for bounds of the logits nor of the margins *)
Theorem C55_backward_refuted : exists n k f ts v, valid Box IBP false (fun _ => True) n k f ts /\ valid Box IBP false (fun _ => True) n k (fun z j => f z j - f z 0%nat) ts /\
  loss_fusion Box n k IBP false true None ts = Ok v /\ forall z, v 0%nat < cross_entropy k (f z) 0%nat.
Proof. exact fusion_backward_refuted. Qed.
Print Assumptions C55_backward_refuted.

(** build_crossentropy_model: the layer itself on a box *)
Theorem C55_build_box : forall n k mode bb batch ts, ts <> [] ->
  build_crossentropy Box n k mode bb batch ts = loss_fusion Box n k mode false bb batch ts /\
  build_asymptotic_crossentropy Box n k mode batch ts = loss_fusion Box n k mode true false batch ts.
Proof. exact build_box. Qed.
Print Assumptions C55_build_box.

(** on a ball the centre is read as a box *)
Theorem C55_build_ball : forall eps p n k mode bb batch ts,
  (mode = IBP -> build_crossentropy (Ball eps p) n k mode bb batch ts = loss_fusion (Ball eps p) n k mode false bb batch ts) /\
  (mode <> IBP -> (n < 2)%nat -> ts <> [] -> build_crossentropy (Ball eps p) n k mode bb batch ts = Err IndexError /\
     build_asymptotic_crossentropy (Ball eps p) n k mode batch ts = Err IndexError).
Proof. exact build_ball. Qed.
Print Assumptions C55_build_ball.

Theorem C55_build_ball_refuted : exists n k f ts v z, valid (Ball 1 Pinf) AFFINE false (in_ball n Pinf 1 (fun _ => 0)) n k f ts /\ in_ball n Pinf 1 (fun _ => 0) z /\
  build_crossentropy (Ball 1 Pinf) n k AFFINE false None ts = Ok v /\ v 1%nat < cross_entropy k (f z) 1%nat.
Proof. exact fusion_ball_refuted. Qed.
Print Assumptions C55_build_ball_refuted.

Example C55_example : exists v, loss_fusion Box 1 2 IBP false false None [row (two 1 5); row (two 0 5)] = Ok v /\ v 1%nat = - 5 + ln (exp 1 + exp 5) /\
  exists w, loss_fusion Box 1 2 IBP true false (Some 3%nat) [row (two 1 5); row (two 0 5)] = Ok w /\ w 0%nat = 5 /\ w 1%nat = -1.
Proof. exact ex_fusion. Qed.

(** C56 *)
Theorem C56_certifies : forall ke mode S n k f b ts, 0 < ke -> mode <> IBP -> valid Box mode false S n k f ts ->
  exists v, radius_robust ke Box n k mode false (Some b) ts = Ok v /\
    forall c, (c < k)%nat -> v c < 0 -> forall z j, S z -> (j < k)%nat -> j <> c -> f z j < f z c.
Proof. exact radius_certifies. Qed.
Print Assumptions C56_certifies.

(** backward version: the tensors bound the margins f_j - f_c *)
Theorem C56_backward_certifies : forall ke mode S n k g b ts, 0 < ke -> mode <> IBP -> valid Box mode false S n k g ts ->
  exists v, radius_robust ke Box n k mode true (Some b) ts = Ok v /\
    forall c, (c < k)%nat -> v c < 0 -> forall z j, S z -> (j < k)%nat -> j <> c -> g z j < 0.
Proof. exact radius_backward_certifies. Qed.
Print Assumptions C56_backward_certifies.

(** a negative value is reached exactly when the affine bounds separate the class, away from the numerical guards *)
Theorem C56_complete : forall ke mode n k b ts x wu bu wl bl c, 0 < ke -> ke <= 1 -> affine_part mode ts x wu bu wl bl -> (c < k)%nat ->
  (forall i, (i < n)%nat -> 2 * ke <= x 1%nat i - x 0%nat i) ->
  (forall j, (j < k)%nat -> j <> c -> ke <= rsum n (fun i => Rabs ((wu i j - wl i c) * ((x 1%nat i - x 0%nat i) / 2)))) ->
  exists v, radius_robust ke Box n k mode false (Some b) ts = Ok v /\
    (v c < 0 <-> forall j, (j < k)%nat -> j <> c -> separated n x wu bu wl bl j c).
Proof. exact radius_complete. Qed.
Print Assumptions C56_complete.

Theorem C56_backward_complete : forall ke mode n k b ts x wu bu wl bl c, 0 < ke -> affine_part mode ts x wu bu wl bl -> (c < k)%nat ->
  (forall i, (i < n)%nat -> 2 * ke <= x 1%nat i - x 0%nat i) ->
  (forall j, (j < k)%nat -> j <> c -> ke <= rsum n (fun i => Rabs (wu i j * ((x 1%nat i - x 0%nat i) / 2)))) ->
  aff n wu (bu 0%nat) (fun i => (x 0%nat i + x 1%nat i) / 2) c < 1000000 ->
  exists v, radius_robust ke Box n k mode true (Some b) ts = Ok v /\
    (v c < 0 <-> forall j z, (j < k)%nat -> j <> c -> in_box n (x 0%nat) (x 1%nat) z -> aff n wu (bu 0%nat) z j < 0).
Proof. exact radius_backward_complete. Qed.
Print Assumptions C56_backward_complete.

Theorem C56_errors : forall ke n k mode backward batch ts,
  radius_robust ke Box n k IBP backward batch ts = Err NotImplementedError /\
  (forall eps p, radius_robust ke (Ball eps p) n k mode backward batch ts = Err NotImplementedError) /\
  (forall x wu bu wl bl, affine_part mode ts x wu bu wl bl -> radius_robust ke Box n k mode backward None ts = Err TypeError).
Proof. exact radius_errors. Qed.
Print Assumptions C56_errors.

Example C56_example : forall ke, 0 < ke -> ke <= 1/2 -> exists v, valid Box AFFINE false (in_box 1 (fun _ => 0) (fun _ => 1)) 1 2 (fun z => two (z 0%nat) (-3)) radius_ex /\
  radius_robust ke Box 1 2 AFFINE false (Some 1%nat) radius_ex = Ok v /\ v 0%nat < 0.
Proof. exact ex_radius. Qed.

(** C57: AdversarialScore in forward mode bounds every margin, on any domain *)
Theorem C57_score : forall D mode S n k f ts ignored z0 y, (0 < n)%nat -> dom_ok D mode -> valid D mode false S n k f ts ->
  exists v, adv_metric true (get_ibp mode) (get_affine mode) FORWARD D n k (metric_inputs mode ignored z0 ts y) = Ok v /\
    forall z t s, S z -> (t < k)%nat -> (s < k)%nat -> label_pair (y 0%nat) t s -> f z t - f z s <= v.
Proof. exact adv_score_sound. Qed.
Print Assumptions C57_score.

(** affine mode: the exact largest margin of the affine bounds *)
Theorem C57_score_affine : forall D n k x wu bu wl bl ignored z0 y, (0 < n)%nat -> norm_ok D -> inhabited_dom D AFFINE n [x] ->
  mask01 k (y 0%nat) -> some_pair k (y 0%nat) ->
  (forall t s t' s' z z', (t < k)%nat -> (s < k)%nat -> (t' < k)%nat -> (s' < k)%nat -> in_dom D n x z -> in_dom D n x z' ->
     (aff n wu (bu 0%nat) z t - aff n wl (bl 0%nat) z s) - (aff n wu (bu 0%nat) z' t' - aff n wl (bl 0%nat) z' s') <= 1000000) ->
  exists v, adv_metric true false true FORWARD D n k (metric_inputs AFFINE ignored z0 [x; wu; bu; wl; bl] y) = Ok v /\
    pair_dom_max D n k x (label_pair (y 0%nat)) (fun t s z => aff n wu (bu 0%nat) z t - aff n wl (bl 0%nat) z s) v.
Proof. exact adv_score_affine_value. Qed.
Print Assumptions C57_score_affine.

(** ibp mode: the lower bound of the class counts only when it is negative *)
Theorem C57_score_ibp : forall D n k c u l ignored z0 y, (2 <= k)%nat -> (c < k)%nat -> y 0%nat = id_mat c ->
  (forall j, (j < k)%nat -> -1000000 <= u 0%nat j) ->
  exists v, adv_metric true true false FORWARD D n k (metric_inputs IBP ignored z0 [u; l] y) = Ok v /\
    (forall t, (t < k)%nat -> t <> c -> u 0%nat t - Rmin 0 (l 0%nat c) <= v) /\
    exists t, (t < k)%nat /\ t <> c /\ v = u 0%nat t - Rmin 0 (l 0%nat c).
Proof. exact adv_score_ibp_value. Qed.
Print Assumptions C57_score_ibp.

(** a separated class is not certified *)
Theorem C57_score_ibp_loose_refuted : exists v, adv_metric true true false FORWARD Box 1 2 (metric_inputs IBP zero zero [row (two 2 0); row (two 1 0)] (row (two 1 0))) = Ok v /\ v = 0.
Proof. exact score_ibp_loose. Qed.
Print Assumptions C57_score_ibp_loose_refuted.

(** AdversarialCheck: negative with an adversarial point, in the three modes *)
Theorem C57_check_refuted : forall mode, exists v, valid Box mode false unit_box 1 2 (fun _ => two 5 0) (loose mode) /\
  adv_metric false (get_ibp mode) (get_affine mode) FORWARD Box 1 2 (metric_inputs mode zero (fun c _ => INR c) (loose mode) (row (two 0 1))) = Ok v /\
  v < 0 /\ exists z, unit_box z /\ label_pair (two 0 1) 0 1 /\ (fun _ : vec => two 5 0) z 0%nat > (fun _ : vec => two 5 0) z 1%nat.
Proof. exact check_metric_refuted. Qed.
Print Assumptions C57_check_refuted.

(** AdversarialScore in backward mode *)
Theorem C57_backward_refuted : forall mode, exists v, valid Box mode false unit_box 1 2 (fun _ => two 5 0) (loose mode) /\
  affine_ok unit_box 1 2 (fun _ => two 5 0) zero (two 5 0) zero (two (-5) 0) /\
  adv_metric true (get_ibp mode) (get_affine mode) BACKWARD Box 1 2
    (metric_inputs_b mode zero (fun c _ => INR c) (loose mode) zero (row (two 5 0)) zero (row (two (-5) 0)) (row (two 0 1))) = Ok v /\
  v < 0 /\ exists z, unit_box z /\ label_pair (two 0 1) 0 1 /\ (fun _ : vec => two 5 0) z 0%nat > (fun _ : vec => two 5 0) z 1%nat.
Proof. exact score_backward_refuted. Qed.
Print Assumptions C57_backward_refuted.

(** the layers expect one tensor more than the outputs of a model *)
Theorem C57_layout : forall swap mm D n k u l y, adv_metric swap true false mm D n k [u; l; y] = Err ValueError /\ upper_metric true false mm D n k [u; l; y] = Err ValueError.
Proof. exact metric_layout. Qed.
Print Assumptions C57_layout.

Theorem C57_no_mode : forall swap mm D n k a q, adv_metric swap false false mm D n k (a :: q) = Err NotImplementedError.
Proof. exact metric_no_mode. Qed.
Print Assumptions C57_no_mode.

(** the builders read an attribute which models do not have *)
Theorem C57_build_refuted : build_formal_layer = Err AttributeError.
Proof. exact build_metric_refuted. Qed.
Print Assumptions C57_build_refuted.

Example C57_example : exists v, adv_metric true false true FORWARD Box 1 2 (metric_inputs AFFINE zero zero radius_ex (row (two 1 0))) = Ok v /\ v = -3.
Proof. exact ex_score. Qed.

(** C58, box, ibp and affine modes. Missing: hybrid mode and balls, see below *)
Theorem C58_sound_partial : forall ke mode n k sigm clip outs batch picks (f : nat -> vec -> vec) (S : nat -> vec -> Prop), (mode = IBP \/ mode = AFFINE) ->
  (forall o, In o outs -> mask01 k (fst o) /\ some_pair k (fst o) /\ length (snd o) = spec_nb mode false /\ box_ok mode n (snd o)) ->
  packed Box mode n k outs batch -> outs <> [] ->
  (forall b, (b < length outs)%nat -> valid Box mode false (S b) n k (f b) (snd (nth b outs (fun _ => 0, [])))) ->
  length picks = length outs ->
  (forall b, (b < length outs)%nat -> let '(z, (t, s)) := nth b picks (fun _ => 0, (O, O)) in
     S b z /\ (t < k)%nat /\ (s < k)%nat /\ label_pair (fst (nth b outs (fun _ => 0, []))) t s) ->
  exists v, adv_loss ke Box mode k sigm clip false batch = Ok v /\
    average (map (fun b => let '(z, (t, s)) := nth b picks (fun _ => 0, (O, O)) in shaped sigm clip (f b z t - f b z s)) (seq 0 (length outs))) <= v.
Proof. exact adv_loss_sound. Qed.
Print Assumptions C58_sound_partial.

(** the value returned: the mean of the largest margins *)
Theorem C58_value : forall ke mode n k sigm clip outs batch, (mode = IBP \/ mode = AFFINE) ->
  (forall o, In o outs -> mask01 k (fst o) /\ some_pair k (fst o) /\ length (snd o) = spec_nb mode false /\ box_ok mode n (snd o)) ->
  packed Box mode n k outs batch ->
  exists vs, adv_loss ke Box mode k sigm clip false batch = Ok (average (map (shaped sigm clip) vs)) /\
    Forall2 (fun o v => is_score mode n k (label_pair (fst o)) (snd o) v) outs vs.
Proof. exact adv_loss_value. Qed.
Print Assumptions C58_value.

(** constant bounds: any domain, also for the losses of C59 *)
Theorem C58_ibp_any_domain : forall ke D n k sigm clip outs batch, packed D IBP n k outs batch ->
  packed Box IBP n k outs batch /\ upper_loss D IBP k batch = upper_loss Box IBP k batch /\ lower_loss D IBP k batch = lower_loss Box IBP k batch /\
  adv_loss ke D IBP k sigm clip false batch = adv_loss ke Box IBP k sigm clip false batch.
Proof. exact losses_ibp_domain. Qed.
Print Assumptions C58_ibp_any_domain.

(** hybrid mode: softmax is always applied, the loss never exceeds 1 *)
Theorem C58_hybrid_range : forall ke D n k y ts p sm v, mask01 k y -> (0 < k)%nat -> length ts = spec_nb HYBRID false ->
  get_model D HYBRID n k ts = Ok p -> adv_sample ke D HYBRID k false None sm (y, p) = Ok v -> v <= 1.
Proof. exact adv_hybrid_le_1. Qed.
Print Assumptions C58_hybrid_range.

(** while the margin is 2 *)
Theorem C58_hybrid_refuted : forall ke, exists batch v, valid Box HYBRID false unit_box 1 2 (fun _ => two 0 2) hyb02 /\
  packed Box HYBRID 1 2 [(two 1 0, hyb02)] batch /\ adv_loss ke Box HYBRID 2 false None false batch = Ok v /\
  label_pair (two 1 0) 1 0 /\ v < two 0 2 1%nat - two 0 2 0%nat.
Proof. exact adv_hybrid_refuted. Qed.
Print Assumptions C58_hybrid_refuted.

(** balls with affine bounds *)
Theorem C58_ball_refused : forall ke eps p n k y ts a v sigm clip sm, (2 <= n)%nat -> (2 <= k)%nat -> n <> k ->
  length ts = spec_nb AFFINE false -> get_model (Ball eps p) AFFINE n k ts = Ok a -> adv_sample ke (Ball eps p) AFFINE k sigm clip sm (y, a) <> Ok v.
Proof. exact adv_loss_ball_error. Qed.
Print Assumptions C58_ball_refused.

Example C58_example : forall ke, exists batch v, packed Box AFFINE 1 2 [(two 1 0, radius_ex)] batch /\ adv_loss ke Box AFFINE 2 false None false batch = Ok v /\ v = -3.
Proof. exact ex_adv_loss. Qed.

(** C59: any domain, mode and dimensions *)
Theorem C59_pack : forall D mode n k ts, length ts = spec_nb mode false ->
  exists y s, get_model D mode n k ts = Ok y /\ m_r y = (match mode with IBP => k | AFFINE => n + 1 | HYBRID => n + 2 end)%nat /\
    slices D mode k y = Ok s /\ recovered D mode n k ts s.
Proof. exact pack_slices. Qed.
Print Assumptions C59_pack.

Theorem C59_pack_batch : forall D mode n k outs, (forall o, In o outs -> length (snd o) = spec_nb mode false) -> exists batch, packed D mode n k outs batch.
Proof. exact pack_batch. Qed.
Print Assumptions C59_pack_batch.

(** get_upper_loss on a box: mean over the batch of the largest gap of the bounds *)
Theorem C59_upper_loss : forall mode n k outs batch, (0 < k)%nat ->
  (forall o, In o outs -> length (snd o) = spec_nb mode false /\ box_ok mode n (snd o)) -> packed Box mode n k outs batch ->
  exists vs, upper_loss Box mode k batch = Ok (average vs) /\ Forall2 (fun o v => upper_gap mode n k (fst o) (snd o) v) outs vs.
Proof. exact upper_loss_value. Qed.
Print Assumptions C59_upper_loss.

(** which bounds the gap of the network *)
Theorem C59_upper_gap : forall mode S n k f ref ts v z j, valid Box mode false S n k f ts -> upper_gap mode n k ref ts v ->
  S z -> (j < k)%nat -> f z j - ref j <= v.
Proof. exact upper_gap_sound. Qed.
Print Assumptions C59_upper_gap.

Theorem C59_lower_loss : forall mode n k outs batch, (0 < k)%nat ->
  (forall o, In o outs -> length (snd o) = spec_nb mode false /\ box_ok mode n (snd o)) -> packed Box mode n k outs batch ->
  exists vs, lower_loss Box mode k batch = Ok (average vs) /\ Forall2 (fun o v => lower_gap mode n k (fst o) (snd o) v) outs vs.
Proof. exact lower_loss_value. Qed.
Print Assumptions C59_lower_loss.

Theorem C59_lower_gap : forall mode S n k f ref ts v z j, valid Box mode false S n k f ts -> lower_gap mode n k ref ts v ->
  S z -> (j < k)%nat -> ref j - f z j <= v.
Proof. exact lower_gap_sound. Qed.
Print Assumptions C59_lower_gap.

(** a ball: the domain is given a tensor with one axis too many, which is refused *)
Theorem C59_ball_refused : forall eps p mode n k ref ts y v, (mode = AFFINE \/ mode = HYBRID) -> (2 <= n)%nat -> (2 <= k)%nat -> n <> k ->
  length ts = spec_nb mode false -> get_model (Ball eps p) mode n k ts = Ok y ->
  upper_sample (Ball eps p) mode k (ref, y) <> Ok v /\ lower_sample (Ball eps p) mode k (ref, y) <> Ok v.
Proof. exact upper_loss_ball_error. Qed.
Print Assumptions C59_ball_refused.

(** or read wrongly when the numbers of inputs and outputs are equal *)
Theorem C59_ball_refuted : exists f batch v z, let ts := [row (two 1 0); second_w; zero; second_w; zero] in
  valid (Ball (1/2) Pinf) AFFINE false (in_ball 2 Pinf (1/2) (two 1 0)) 2 2 f ts /\ packed (Ball (1/2) Pinf) AFFINE 2 2 [(fun _ => 0, ts)] batch /\
  upper_loss (Ball (1/2) Pinf) AFFINE 2 batch = Ok v /\ in_ball 2 Pinf (1/2) (two 1 0) z /\ v < f z 1%nat - 0.
Proof. exact upper_ball_refuted. Qed.
Print Assumptions C59_ball_refuted.

Example C59_example : exists batch v w, packed Box AFFINE 1 2 [(two 0 0, radius_ex)] batch /\ upper_loss Box AFFINE 2 batch = Ok v /\ v = 1 /\
  lower_loss Box AFFINE 2 batch = Ok w /\ w = 3.
Proof. exact ex_upper_loss. Qed.

(** C60, ibp mode: any domain and any shape *)
Theorem C60_ibp : forall ke D n S pre k f g ts, 0 < ke -> (0 < n)%nat -> (0 < k)%nat -> dom_ok D IBP -> cross_entropy_of pre k f g ->
  valid D IBP false S n (prodn (pre ++ [k])) f ts ->
  exists out, categorical_cross_entropy ke (mk_spec false IBP D n) (pre ++ [k]) ts = Ok out /\ valid D IBP false S n (prodn (pre ++ [k])) g out.
Proof. exact cce_ibp. Qed.
Print Assumptions C60_ibp.

(** the three modes. Missing: hybrid mode on a ball, intervals of width below epsilon, and sums of exponentials below epsilon in affine mode *)
Theorem C60_sound_partial : forall ke D mode n S pre k f g ts, 0 < ke -> (0 < n)%nat -> (0 < k)%nat -> dom_ok D mode -> (mode = HYBRID -> D = Box) ->
  cross_entropy_of pre k f g ->
  valid D mode false S n (prodn (pre ++ [k])) f ts ->
  intervals (wide ke) (mk_spec false mode D n) (prodn (pre ++ [k])) ts ->
  (mode = AFFINE -> forall e o r, op_exp ke (mk_spec false mode D n) ts = Ok e -> op_sum (mk_spec false mode D n) (pre ++ [k]) (-1) e = Ok o ->
     get_fullinputs (mk_spec false mode D n) true true o = Ok r -> forall j, (j < prodn pre)%nat -> ke <= f_lc r 0%nat j) ->
  exists out, categorical_cross_entropy ke (mk_spec false mode D n) (pre ++ [k]) ts = Ok out /\
    valid D mode false S n (prodn (pre ++ [k])) g out.
Proof. exact cce_sound. Qed.
Print Assumptions C60_sound_partial.

(** hybrid mode on a ball: the sum reads the centre as a box *)
Theorem C60_ball_refuted : forall ke, 0 < ke -> ke <= 2 -> exists g x u wu bu l wl bl z, cross_entropy_of [] 2 (fun z => two (z 0%nat) 0) g /\
  valid (Ball 1 Pinf) HYBRID false ball1 2 2 (fun z => two (z 0%nat) 0) bts /\
  categorical_cross_entropy ke (mk_spec false HYBRID (Ball 1 Pinf) 2) [2%nat] bts = Ok [x; u; wu; bu; l; wl; bl] /\
  ball1 z /\ u 0%nat 1%nat < g z 1%nat.
Proof. exact cce_ball_refuted. Qed.
Print Assumptions C60_ball_refuted.

(** one input *)
Theorem C60_ball_error : forall ke eps p k ts, length ts = 7%nat -> norm_ok (Ball eps p) ->
  categorical_cross_entropy ke (mk_spec false HYBRID (Ball eps p) 1) [k] ts = Err IndexError.
Proof. exact cce_ball_error. Qed.
Print Assumptions C60_ball_error.

Example C60_example_ibp : forall ke, exists u l, categorical_cross_entropy ke (mk_spec false IBP Box 1) [2%nat] [row (two 1 0); row (two 0 0)] = Ok [u; l] /\
  u 0%nat 1%nat = ln (exp 1 + 1) /\ l 0%nat 1%nat = ln 2.
Proof. exact ex_cce_ibp. Qed.

Example C60_example_hybrid : exists g, cross_entropy_of [] 2 (fun z => two (z 0%nat) 2) g /\
  valid Box HYBRID false box1 1 2 (fun z => two (z 0%nat) 2) xts /\ intervals (wide 1) (mk_spec false HYBRID Box 1) 2 xts.
Proof. exact ex_cce_hybrid. Qed.

(** C63, forward. Missing: affine mode, negative targets *)
Theorem C63_sound_partial : forall D mode S n k f ts ignored z0 y, mode <> AFFINE -> (0 < n)%nat -> dom_ok D mode -> valid D mode false S n k f ts ->
  (forall j, (j < k)%nat -> 0 <= y 0%nat j) ->
  exists v, upper_metric (get_ibp mode) (get_affine mode) FORWARD D n k (metric_inputs mode ignored z0 ts y) = Ok v /\
    forall z, S z -> weighted k (y 0%nat) (f z) <= v.
Proof. exact upper_score_sound. Qed.
Print Assumptions C63_sound_partial.

Theorem C63_backward_partial : forall D mode S n k f ts ignored z0 wub bub wlb blb y, mode <> AFFINE -> (0 < n)%nat -> norm_ok D -> valid D mode false S n k f ts ->
  (forall z, S z -> in_dom D n (domain_tensor mode z0 ts) z) -> affine_ok S n k f wub (bub 0%nat) wlb (blb 0%nat) ->
  (forall j, (j < k)%nat -> 0 <= y 0%nat j) ->
  exists v, upper_metric (get_ibp mode) (get_affine mode) BACKWARD D n k (metric_inputs_b mode ignored z0 ts wub bub wlb blb y) = Ok v /\
    forall z, S z -> weighted k (y 0%nat) (f z) <= v.
Proof. exact upper_score_backward. Qed.
Print Assumptions C63_backward_partial.

(** hybrid mode: the value *)
Theorem C63_value : forall D n k ignored z0 x u wu bu l wl bl y, (0 < n)%nat -> norm_ok D -> inhabited_dom D HYBRID n [x] ->
  upper_metric true false FORWARD D n k (metric_inputs IBP ignored z0 [u; l] y) = Ok (weighted k (y 0%nat) (u 0%nat)) /\
  exists U v, (forall j, is_max (in_dom D n x) (fun z => y 0%nat j * aff n wu (bu 0%nat) z j) (U j)) /\
    upper_metric true true FORWARD D n k (metric_inputs HYBRID ignored z0 [x; u; wu; bu; l; wl; bl] y) = Ok v /\
    v = Rmin (weighted k (y 0%nat) (u 0%nat)) (rsum k U).
Proof. exact upper_score_value. Qed.
Print Assumptions C63_value.

(** affine mode always fails *)
Theorem C63_affine_refuted : forall mm D n k inputs, (2 <= length inputs)%nat -> upper_metric false true mm D n k inputs = Err ValueError.
Proof. exact upper_score_affine. Qed.
Print Assumptions C63_affine_refuted.

(** negative targets *)
Theorem C63_negative_refuted : exists f u l y v z, valid Box IBP false unit_box 1 1 f [u; l] /\ unit_box z /\
  upper_metric true false FORWARD Box 1 1 (metric_inputs IBP zero zero [u; l] y) = Ok v /\ v < weighted 1 (y 0%nat) (f z).
Proof. exact upper_negative_refuted. Qed.
Print Assumptions C63_negative_refuted.

(** the documented reading, "negative or null if the maximum of the network is lower than the target", fails both ways *)
Theorem C63_target_refuted : (exists v, valid Box IBP false unit_box 1 1 (fun _ _ => 1) [row (fun _ => 1); row (fun _ => 1)] /\
     upper_metric true false FORWARD Box 1 1 (metric_inputs IBP zero zero [row (fun _ => 1); row (fun _ => 1)] (row (fun _ => 2))) = Ok v /\ v > 0) /\
  (exists v, valid Box IBP false unit_box 1 1 (fun _ _ => 1) [row (fun _ => 1); row (fun _ => 1)] /\
     upper_metric true false FORWARD Box 1 1 (metric_inputs IBP zero zero [row (fun _ => 1); row (fun _ => 1)] (row (fun _ => -1))) = Ok v /\ v <= 0).
Proof. exact upper_target_refuted. Qed.
Print Assumptions C63_target_refuted.

Example C63_example : exists v, upper_metric true true FORWARD Box 1 2 (metric_inputs HYBRID zero zero hyb02 (row (two 1 1))) = Ok v /\ v = 2.
Proof. exact ex_upper_score. Qed.

