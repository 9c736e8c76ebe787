(** Proofs: interval mode in binary32 (C74). *)
From Coq Require Import Reals List Arith Bool ZArith Lia Lra Psatz Permutation.
From Flocq Require Import Core Relative.
From Verif Require Import RLib Spec Spec_Layers Spec_Backward Spec_Convert Spec_Near Spec_Rounding Spec_Float M_Core M_Utils M_MergeLayers M_Ops M_Layers M_Backward M_Crown M_Convert M_Network M_Rounding M_Float.
From Verif Require Import P_Core P_Utils P_Layers P_Graph P_Crown P_Convert P_Network P_NetworkSpec P_NetworkForward P_NetworkThm P_Near P_Rounding P_Lipschitz P_RoundingThm P_Float P_Float32.
From Verif Require Import Spec_Network.
Import ListNotations.
Local Open Scope R_scope.

Lemma rnd32_mono : forall x y, x <= y -> rnd32 x <= rnd32 y.
Proof. intros x y H. apply round_le; [apply FLT_exp_valid; reflexivity|apply valid_rnd_N|exact H]. Qed.
Lemma rnd32_0 : rnd32 0 = 0.
Proof. apply round_0. apply valid_rnd_N. Qed.
Lemma rnd32_idem : forall x, rnd32 (rnd32 x) = rnd32 x.
Proof. intros x. apply round_generic; [apply valid_rnd_N|]. apply generic_format_round; [apply FLT_exp_valid; reflexivity|apply valid_rnd_N]. Qed.
Lemma u32_pos : 0 <= u32. Proof. apply bpow_ge_0. Qed.
Lemma eta32_pos : 0 <= eta32. Proof. apply bpow_ge_0. Qed.
Lemma op32_rounded : forall x y, op32 x y -> rounded u32 eta32 x y.
Proof.
  intros x y E. unfold op32, fop in E. subst y. unfold rounded.
  destruct (error_N_FLT radix2 (-149) 24 ltac:(lia) (fun t => negb (Z.even t)) x) as (eps & eta & H1 & H2 & _ & E). change (round radix2 (FLT_exp (-149) 24) (Znearest (fun t => negb (Z.even t))) x) with (rnd32 x) in E.
  rewrite E. replace (x * (1 + eps) + eta - x) with (x * eps + eta) by ring. eapply Rle_trans; [apply Rabs_triang|].
  assert (A : / 2 * bpow radix2 (- (24) + 1) = u32) by (change (/ 2) with (bpow radix2 (-1)); rewrite <- bpow_plus; reflexivity).
  assert (B : / 2 * bpow radix2 (-149) = eta32) by (change (/ 2) with (bpow radix2 (-1)); rewrite <- bpow_plus; reflexivity).
  rewrite A in H1. rewrite B in H2. rewrite Rabs_mult. pose proof (Rabs_pos x). nra.
Qed.

(** larger relations *)
Lemma dot_value_impl : forall (op op' : R -> R -> Prop), (forall x y, op x y -> op' x y) -> forall x w t y, dot_value op x w t y -> dot_value op' x w t y.
Proof. intros op op' H x w t y D. induction D; [constructor|constructor; auto|econstructor; eauto|econstructor; eauto]. Qed.
Lemma any_order_impl : forall (op op' : R -> R -> Prop), (forall x y, op x y -> op' x y) -> forall k N d x w y, any_order op k N d x w y -> any_order op' k N d x w y.
Proof. intros op op' H k N d x w y (t & A & B & C & D). exists t. repeat split; auto. eapply dot_value_impl; eauto. Qed.
Lemma one_order_any : forall op T k N d x w y, Permutation (leaves (T d)) (seq 0 d) -> (depth (T d) <= k)%nat -> (ops (T d) <= N)%nat ->
  one_order op T d x w y -> any_order op k N d x w y.
Proof. intros op T k N d x w y HP Hk HN H. exists (T d). repeat split; assumption. Qed.
Lemma neuron_impl : forall (op op' : R -> R -> Prop) (dot dot' : nat -> vec -> vec -> R -> Prop) F a b j y, (forall x y, op x y -> op' x y) -> (forall x w y, dot (ln_d F) x w y -> dot' (ln_d F) x w y) ->
  float_neuron op dot F a b j y -> float_neuron op' dot' F a b j y.
Proof.
  intros op op' dot dot' F a b j y H1 H2 (p & q & s & A & B & C & D). exists p, q, s. repeat split; auto.
  destruct (ln_bias F); cbn in *; auto.
Qed.
Lemma chain_impl : forall (op op' : R -> R -> Prop), (forall x y, op x y -> op' x y) -> forall l s y, chain op s l y -> chain op' s l y.
Proof. intros op op' H l. induction l as [|x l IH]; intros s y D; cbn in *; [exact D|]. destruct D as (t & A & B). exists t. auto. Qed.
Lemma merge_impl : forall (op op' : R -> R -> Prop) L M, (forall x y, op x y -> op' x y) -> merge_op op L = Some M -> exists M', merge_op op' L = Some M' /\ forall l y, M l y -> M' l y.
Proof.
  intros op op' L M H HM. destruct L; try discriminate HM; injection HM as <-; (eexists; split; [reflexivity|]); intros l y D.
  - destruct l; [exact D|]. eapply chain_impl; eauto.
  - destruct D as (s & A & B). exists s. split; [|auto]. destruct l; [exact A|]. eapply chain_impl; eauto.
  - destruct l as [|a [|b [|]]]; auto.
Qed.
(** lengths of the inner products of a network satisfy P *)
Definition dense_dims (P : nat -> Prop) (net : network) : Prop :=
  forall i L ps F, nth_error net i = Some (Some L, ps) -> lin_of L = Some F -> P (ln_d F).
Lemma float_run_impl : forall (op op' : R -> R -> Prop) (dot dot' : nat -> vec -> vec -> R -> Prop) (P : nat -> Prop) ke n opts net o z r, (forall x y, op x y -> op' x y) -> (forall d x w y, P d -> dot d x w y -> dot' d x w y) -> dense_dims P net ->
  float_run op dot ke n opts net o z r -> float_run op' dot' ke n opts net o z r.
Proof.
  intros op op' dot dot' P ke n opts net o z r H1 H2 HP (A & B & C). split; [exact A|split; [|exact C]]. intros i q ps En. specialize (B i q ps En).
  destruct q as [L|]; [|exact B]. destruct (lin_of L) as [F|] eqn:HF.
  - specialize (HP _ _ _ _ En HF). unfold float_linear in *. destruct (concat (map (r_nodes r) ps)) as [|? [|? [|]]]; try contradiction. destruct (r_nodes r i) as [|? [|? [|]]]; try contradiction.
    intros j Hj. destruct (B j Hj) as [B1 B2]. split; (eapply neuron_impl; [exact H1| |eassumption]; intros; apply H2; assumption).
  - destruct (merge_op op L) as [M|] eqn:HM.
    + destruct (merge_impl op op' L M H1 HM) as (M' & -> & HM'). unfold float_merge in *. destruct (r_nodes r i) as [|? [|? [|]]]; try contradiction. intros j Hj. destruct (B j Hj). auto.
    + replace (merge_op op' L) with (@None (list R -> R -> Prop)) by (destruct L; try discriminate HM; reflexivity). exact B.
Qed.
Lemma float_values_impl : forall (op op' : R -> R -> Prop) (dot dot' : nat -> vec -> vec -> R -> Prop) (P : nat -> Prop) net y a, (forall x y, op x y -> op' x y) -> (forall d x w y, P d -> dot d x w y -> dot' d x w y) -> dense_dims P net ->
  float_values op dot net y a -> float_values op' dot' net y a.
Proof.
  intros op op' dot dot' P net y a H1 H2 HP H i q ps En. specialize (H i q ps En). destruct q as [L|]; [|exact H]. destruct (lin_of L) as [F|] eqn:HF.
  - specialize (HP _ _ _ _ En HF). destruct H as (x & Ex & H).
    exists x. split; [exact Ex|]. intros j Hj. destruct (H j Hj) as (p & A & B). exists p. split; [apply H2; assumption|]. destruct (ln_bias F); cbn in *; auto.
  - destruct (merge_op op L) as [M|] eqn:HM.
    + destruct (merge_impl op op' L M H1 HM) as (M' & -> & HM'). auto.
    + replace (merge_op op' L) with (@None (list R -> R -> Prop)) by (destruct L; try discriminate HM; reflexivity). exact H.
Qed.

Lemma float32_bounds : forall k N ke n opts net v o z r A,
  0 <= A -> (0 < n)%nat -> net_ok n net -> net_value net v -> layers_ok IBP opts net -> (o < length net)%nat ->
  (forall i L ps, nth_error net i = Some (Some L, ps) -> float_layer L) ->
  merges_within (Nat.min k N) net -> float_run op32 (any_order op32 k N) ke n opts net o z r -> run_size A net r ->
  exists U L, r_out r = [U; L] /\ forall y j, in_dom Box n z y -> (j < net_dim n net o)%nat ->
    L 0%nat j - (net_error net + 1) * float_error u32 eta32 k N A <= v o y j <= U 0%nat j + (net_error net + 1) * float_error u32 eta32 k N A.
Proof.
  intros k N ke n opts net v o z r A HA Hn Hnet Hval Hlay Ho Hfl Hmw Hr Hs.
  apply (float_bounds u32 eta32 k N ke n opts net v o z r A); auto using u32_pos, eta32_pos.
  apply (float_run_impl op32 _ (any_order op32 k N) _ (fun _ => True)); [exact op32_rounded| |intros ? ? ? ? ? ?; exact I|exact Hr]. intros d x w y _. apply any_order_impl. exact op32_rounded.
Qed.
Lemma float32_predictions : forall k N ke n opts net v o z r A A' y a,
  0 <= A -> 0 <= A' -> (0 < n)%nat -> net_ok n net -> net_value net v -> layers_ok IBP opts net -> (o < length net)%nat ->
  (forall i L ps, nth_error net i = Some (Some L, ps) -> float_layer L) ->
  merges_within (Nat.min k N) net -> float_run op32 (any_order op32 k N) ke n opts net o z r -> run_size A net r -> in_dom Box n z y ->
  float_values op32 (any_order op32 k N) net y a -> values_size A' net a ->
  exists U L, r_out r = [U; L] /\ forall j, (j < net_dim n net o)%nat ->
    L 0%nat j - (net_error net + 1) * (float_error u32 eta32 k N A + float_error u32 eta32 k N A') <= a o j <= U 0%nat j + (net_error net + 1) * (float_error u32 eta32 k N A + float_error u32 eta32 k N A').
Proof.
  intros k N ke n opts net v o z r A A' y a HA HA' Hn Hnet Hval Hlay Ho Hfl Hmw Hr Hs Hy Ha Hsa.
  apply (float_predictions u32 eta32 k N ke n opts net v o z r A A' y a); auto using u32_pos, eta32_pos.
  - apply (float_run_impl op32 _ (any_order op32 k N) _ (fun _ => True)); [exact op32_rounded| |intros ? ? ? ? ? ?; exact I|exact Hr]. intros d x w y0 _. apply any_order_impl. exact op32_rounded.
  - apply (float_values_impl op32 _ (any_order op32 k N) _ (fun _ => True)); [exact op32_rounded| |intros ? ? ? ? ? ?; exact I|exact Ha]. intros d x w y0 _. apply any_order_impl. exact op32_rounded.
Qed.

(** a simpler bound of the error of a layer *)
Lemma pow_linear : forall u m, 0 <= u -> INR m * u <= 1 / 2 -> (1 + u) ^ m <= 1 + 2 * INR m * u.
Proof.
  intros u m Hu. assert (G : INR m * u <= 1 -> (1 + u) ^ m * (1 - INR m * u) <= 1).
  { induction m as [|m IH]; intros H; [cbn; lra|]. rewrite S_INR in *. pose proof (pos_INR m). specialize (IH ltac:(nra)). cbn [pow].
    pose proof (pow_ge1 u m Hu) as P. set (p := (1 + u) ^ m) in *. nra. }
  intros H. specialize (G ltac:(lra)). pose proof (pos_INR m) as Pm. pose proof (pow_ge1 u m Hu) as P. set (p := (1 + u) ^ m) in *. set (t := INR m * u) in *. assert (0 <= t) by (unfold t; nra).
  replace (1 + 2 * INR m * u) with (1 + 2 * t) by (unfold t; ring). apply Rnot_lt_le. intros C. assert ((1 + 2 * t) * (1 - t) < p * (1 - t)) by (apply Rmult_lt_compat_r; lra). nra.
Qed.
Lemma float_error_linear : forall u eta k N A, 0 <= u -> 0 <= eta -> 0 <= A -> INR (k + 2) * u <= 1 / 2 ->
  float_error u eta k N A <= 2 * INR (k + 2) * u * A + 4 * INR (N + 1) * eta.
Proof.
  intros u eta k N A Hu He HA H. unfold float_error. pose proof (pow_linear u (k + 2) Hu H) as P. pose proof (pow_ge1 u (k + 2) Hu) as P1.
  replace (INR (2 * N + 2)) with (2 * INR (N + 1)) by (rewrite !plus_INR, mult_INR; cbn; ring). pose proof (pos_INR (N + 1)) as PN.
  apply Rplus_le_compat; [apply Rmult_le_compat_r; lra|]. assert (Q : (1 + u) ^ (k + 2) <= 2) by lra. assert (2 * INR (N + 1) * (1 + u) ^ (k + 2) <= 2 * INR (N + 1) * 2) by (apply Rmult_le_compat_l; lra).
  apply Rmult_le_compat_r; [exact He|]. lra.
Qed.

Lemma left_right_leaves : forall d, leaves (left_right d) = seq 0 d.
Proof. induction d as [|[|d] IH]; [reflexivity|reflexivity|]. change (left_right (S (S d))) with (TAdd (left_right (S d)) (TProd (S d))). cbn [leaves]. rewrite IH. rewrite <- seq_S. reflexivity. Qed.
Lemma left_right_perm : forall d, Permutation (leaves (left_right d)) (seq 0 d).
Proof. intros d. rewrite left_right_leaves. apply Permutation_refl. Qed.

(** in binary32 the order of the bounds never changes *)
Lemma float32_ordered : forall T ke n opts net o z r,
  (forall d, Permutation (leaves (T d)) (seq 0 d)) ->
  0 < ke -> (0 < n)%nat -> net_ok n net -> layers_ok IBP opts net -> (o < length net)%nat ->
  (forall i L ps, nth_error net i = Some (Some L, ps) -> float_layer L) ->
  (forall j, (j < n)%nat -> z 0%nat j <= z 1%nat j) ->
  float_run op32 (one_order op32 T) ke n opts net o z r ->
  exists U L, r_out r = [U; L] /\ forall j, (j < net_dim n net o)%nat -> L 0%nat j <= U 0%nat j.
Proof. intros T ke n opts net o z r HT. apply float_ordered; [exact rnd32_mono|exact HT]. Qed.
Lemma float32_one_sign : forall T ke n opts net o z r y a,
  (forall d, Permutation (leaves (T d)) (seq 0 d)) ->
  0 < ke -> (0 < n)%nat -> net_ok n net -> layers_ok IBP opts net -> (o < length net)%nat ->
  (forall i L ps, nth_error net i = Some (Some L, ps) -> float_layer L) -> one_sign net ->
  float_run op32 (one_order op32 T) ke n opts net o z r -> in_dom Box n z y -> float_values op32 (one_order op32 T) net y a ->
  exists U L, r_out r = [U; L] /\ forall j, (j < net_dim n net o)%nat -> L 0%nat j <= a o j <= U 0%nat j.
Proof. intros T ke n opts net o z r y a HT. apply float_one_sign; [exact rnd32_0|exact rnd32_idem|exact rnd32_mono|exact HT]. Qed.

(** ** Without a margin: x0 - x1 + x2 at (1, 1, 2^-25) *)
Definition tiny : R := bpow radix2 (-25).
Lemma tiny_pos : 0 < tiny. Proof. apply bpow_gt_0. Qed.
Lemma rnd32_bpow : forall e, (-149 <= e)%Z -> rnd32 (bpow radix2 e) = bpow radix2 e.
Proof. intros e He. apply round_generic; [apply valid_rnd_N|]. apply generic_format_bpow. unfold FLT_exp. lia. Qed.
Lemma rnd32_1 : rnd32 1 = 1. Proof. exact (rnd32_bpow 0 ltac:(lia)). Qed.
Lemma rnd32_tiny : rnd32 tiny = tiny. Proof. exact (rnd32_bpow (-25) ltac:(lia)). Qed.
Lemma rnd32_m1 : rnd32 (-1) = -1.
Proof. change (-1) with (- (1)). unfold rnd32. rewrite round_NE_opp. f_equal. exact rnd32_1. Qed.
Lemma rnd32_absorb : rnd32 (1 + tiny) = 1.
Proof.
  assert (T1 : tiny < 1) by (change 1 with (bpow radix2 0); apply bpow_lt; lia). pose proof tiny_pos as T0.
  assert (M : mag radix2 (1 + tiny) = 1%Z :> Z). { apply mag_unique_pos. change (bpow radix2 (1 - 1)) with 1. change (bpow radix2 1) with 2. lra. }
  unfold rnd32, round, scaled_mantissa, cexp. rewrite M. change (FLT_exp (-149) 24 1) with (-23)%Z. unfold F2R. cbn [Fnum Fexp].
  rewrite (Znearest_imp _ _ 8388608).
  - change (bpow radix2 (-23)) with (/ 8388608). field.
  - rewrite Rmult_plus_distr_r. unfold tiny. rewrite <- bpow_plus. change (bpow radix2 (- -23)) with 8388608. change (bpow radix2 (-25 + - -23)) with (/ 4). rewrite Rabs_right; lra.
Qed.

Definition cancel_kernel : mat := fun c _ => if Nat.eqb c 1 then -1 else 1.
Definition cancel_net : network := [(None, []); (Some (NDense 1 3 1 cancel_kernel None), [0%nat])].
Definition cancel_point : vec := fun j => if Nat.ltb j 2 then 1 else tiny.
Definition cancel_box : tensor := fun _ => cancel_point.
Definition cancel_value (i : nat) (y : vec) : vec := match i with O => y | _ => fun _ => y 0%nat - y 1%nat + y 2%nat end.
Definition cancel_opts : nat -> lopts := fun _ => mk_opts V_SLOPE None false.

Lemma cancel_ok : net_ok 3 cancel_net /\ net_value cancel_net cancel_value /\ single_output cancel_net 1 /\ layers_ok IBP cancel_opts cancel_net /\
  (forall i L ps, nth_error cancel_net i = Some (Some L, ps) -> float_layer L).
Proof.
  split; [|split; [|split; [|split]]].
  - intros i o ps E. unfold cancel_net in E. each_node E; (split; [intros p Hp; cbn in Hp; lia|]); try reflexivity; (split; [discriminate|reflexivity]).
  - intros y i o ps E. unfold cancel_net in E. each_node E; cbn [cancel_value]; [reflexivity|].
    intros p u Hp Hu. replace p with O by lia. replace u with O by lia. unfold cancel_kernel, opt_vec, rsum. cbn. ring.
  - split; [cbn; lia|]. intros j Hj. cbn in Hj. destruct j as [|[|]]; [step 1%nat; constructor|constructor|lia].
  - intros i L ps E. unfold cancel_net in E. each_node E. cbn. split; [lia|exact I].
  - intros i L ps E. unfold cancel_net in E. each_node E. exact I.
Qed.

(** the nodes of the run, and of the network *)
Definition cancel_run : run := mk_run [cancel_box; cancel_box] (fun i => match i with O => [cancel_box; cancel_box] | _ => [(fun _ _ => 0) : tensor; (fun _ _ => 0) : tensor] end) [(fun _ _ => 0) : tensor; (fun _ _ => 0) : tensor].
Definition cancel_float (i : nat) : vec := match i with O => cancel_point | _ => fun _ => tiny end.

Definition cancel_lin : lin := mk_lin (1 * 1) 3 (fun j c => Some (j / 1 * 3 + c)%nat) (fun j c => cancel_kernel c (j mod 1)%nat) None (fun j => j mod 1)%nat.
Lemma cancel_neuron : float_neuron op32 (one_order op32 left_right) cancel_lin cancel_point cancel_point 0 0.
Proof.
  exists 1, (-1), 0. unfold one_order. cbn [left_right cancel_lin ln_d ln_src ln_w ln_bias ln_unit]. split; [|split; [|split]].
  - apply (dv_add _ _ _ _ _ 1 tiny 1); [apply (dv_add _ _ _ _ _ 1 0 1); [apply dv_prod|apply dv_prod|]|apply dv_prod|]; unfold op32, fop, cancel_kernel, cancel_point; cbn;
    rewrite ?(Rmax_right 0 1), ?(Rmax_left 0 (-1)) by lra; rewrite ?Rmult_1_r, ?Rmult_0_r, ?Rplus_0_r; symmetry; auto using rnd32_1, rnd32_0, rnd32_tiny, rnd32_absorb.
  - apply (dv_add _ _ _ _ _ (-1) 0 (-1)); [apply (dv_add _ _ _ _ _ 0 (-1) (-1)); [apply dv_prod|apply dv_prod|]|apply dv_prod|]; unfold op32, fop, cancel_kernel, cancel_point; cbn;
    rewrite ?(Rmin_left 0 1), ?(Rmin_right 0 (-1)) by lra; rewrite ?Rmult_1_l, ?Rmult_0_r, ?Rplus_0_r, ?Rplus_0_l; symmetry; auto using rnd32_m1, rnd32_0.
  - unfold op32, fop. replace (1 + -1) with 0 by ring. symmetry. exact rnd32_0.
  - reflexivity.
Qed.
Lemma cancel_is_run : forall ke, float_run op32 (one_order op32 left_right) ke 3 cancel_opts cancel_net 1 cancel_box cancel_run.
Proof.
  intros ke. split; [reflexivity|split; [|reflexivity]]. intros i q ps E. unfold cancel_net in E. each_node E; [reflexivity|].
  cbn [map concat cancel_run r_nodes app lin_of float_linear ln_out]. intros j Hj. replace j with O by lia. split; exact cancel_neuron.
Qed.
Lemma cancel_is_float : float_values op32 (one_order op32 left_right) cancel_net cancel_point cancel_float.
Proof.
  intros i q ps E. unfold cancel_net in E. each_node E; [reflexivity|]. exists cancel_point. split; [reflexivity|].
  intros j Hj. cbn [ln_out] in Hj. replace j with O by lia. exists tiny. split; [|reflexivity]. unfold one_order. cbn [left_right ln_d].
  apply (dv_add _ _ _ _ _ 0 tiny tiny); [apply (dv_add _ _ _ _ _ 1 (-1) 0); [apply dv_prod|apply dv_prod|]|apply dv_prod|]; unfold op32, fop, cancel_kernel, cancel_point; cbn;
    rewrite ?Rmult_1_l, ?Rmult_1_r, ?Rplus_0_l; try replace (1 + -1) with 0 by ring; symmetry; auto using rnd32_1, rnd32_m1, rnd32_0, rnd32_tiny.
Qed.

Lemma float32_margin_needed : forall ke, exists net v o z r U L a y,
  net_ok 3 net /\ net_value net v /\ single_output net o /\ layers_ok IBP cancel_opts net /\ (forall i L ps, nth_error net i = Some (Some L, ps) -> float_layer L) /\
  (forall k j, rnd32 (z k j) = z k j) /\
  float_run op32 (one_order op32 left_right) ke 3 cancel_opts net o z r /\ r_out r = [U; L] /\
  in_dom Box 3 z y /\ float_values op32 (one_order op32 left_right) net y a /\ U 0%nat 0%nat < v o y 0%nat /\ U 0%nat 0%nat < a o 0%nat.
Proof.
  intros ke. destruct cancel_ok as (H1 & H2 & H3 & H4 & H5). exists cancel_net, cancel_value, 1%nat, cancel_box, cancel_run, (fun _ _ => 0), (fun _ _ => 0), cancel_float, cancel_point.
  repeat (split; [assumption|]). split.
  { intros k j. unfold cancel_box, cancel_point. destruct (j <? 2)%nat; [exact rnd32_1|exact rnd32_tiny]. }
  split; [apply cancel_is_run|]. split; [reflexivity|]. split; [intros j Hj; unfold cancel_box; lra|]. split; [exact cancel_is_float|].
  split; [cbn [cancel_value]; unfold cancel_point; cbn; pose proof tiny_pos; lra|exact tiny_pos].
Qed.

(** the theorems apply to it: a run of this network has the margin of float32_bounds *)
Lemma cancel_margin : forall ke, exists U L, r_out cancel_run = [U; L] /\
  (forall y, in_dom Box 3 cancel_box y -> L 0%nat 0%nat - (net_error cancel_net + 1) * float_error u32 eta32 3 5 3 <= y 0%nat - y 1%nat + y 2%nat <= U 0%nat 0%nat + (net_error cancel_net + 1) * float_error u32 eta32 3 5 3) /\
  net_error cancel_net = 6 /\ float_error u32 eta32 3 5 3 <= 30 * u32 + 24 * eta32 /\ float_run op32 (any_order op32 3 5) ke 3 cancel_opts cancel_net 1 cancel_box cancel_run.
Proof.
  intros ke. destruct cancel_ok as (H1 & H2 & H3 & H4 & H5).
  assert (R0 : float_run op32 (any_order op32 3 5) ke 3 cancel_opts cancel_net 1 cancel_box cancel_run).
  { apply (float_run_impl op32 op32 (one_order op32 left_right) _ (fun d => d = 3%nat)); [auto| | |apply cancel_is_run].
    - intros d x w y ->. apply one_order_any; [apply left_right_perm|cbn; lia|cbn; lia].
    - intros i L ps F E HF. unfold cancel_net in E. each_node E. injection HF as <-. reflexivity. }
  assert (S0 : run_size 3 cancel_net cancel_run).
  { intros i L ps E. unfold cancel_net in E. each_node E. cbn [lin_of]. intros uc lc Ec j Hj. cbn in Ec. cbn [ln_out] in Hj. injection Ec as <- <-. replace j with O by lia.
    unfold lin_size, rsum, cancel_kernel, cancel_box, cancel_point, opt_vec. cbn -[tiny]. rewrite ?Rabs_R0, ?(Rabs_right tiny), ?Rabs_R1, ?(Rabs_left (-1)) by (pose proof tiny_pos; lra).
    assert (tiny <= 1) by (change 1 with (bpow radix2 0); apply bpow_le; lia). rewrite !Rmax_left by lra. lra. }
  destruct (float32_bounds 3 5 ke 3 cancel_opts cancel_net cancel_value 1 cancel_box cancel_run 3 ltac:(lra) ltac:(lia) H1 H2 H4 ltac:(cbn; lia) H5 ltac:(intros i L ps E HM; unfold cancel_net in E; each_node E; contradiction HM; reflexivity) R0 S0) as (U & L & E & B).
  exists U, L. split; [exact E|]. split; [intros y Hy; exact (B y 0%nat Hy ltac:(cbn; lia))|]. split; [|split; [|exact R0]].
  - unfold net_error, cancel_net, rsum, cancel_kernel. cbn. rewrite ?Rabs_R1, ?(Rabs_left (-1)) by lra. rewrite (Rmax_right 1) by lra. ring.
  - eapply Rle_trans; [apply float_error_linear; try lra; [apply u32_pos|apply eta32_pos|]|].
    + assert (u32 <= bpow radix2 (-4)) by (apply bpow_le; lia). change (bpow radix2 (-4)) with (/ 16) in H. cbn. pose proof u32_pos. lra.
    + cbn. pose proof u32_pos. pose proof eta32_pos. lra.
Qed.

(** a network whose weights have one sign *)
Lemma sign_example : forall ke, 0 < ke -> exists r a U L,
  one_sign (scale_net 2) /\ float_run op32 (one_order op32 left_right) ke 1 cancel_opts (scale_net 2) 1 unit_box r /\
  float_values op32 (one_order op32 left_right) (scale_net 2) (fun _ => / 2) a /\ in_dom Box 1 unit_box (fun _ => / 2) /\
  r_out r = [U; L] /\ U 0%nat 0%nat = 2 /\ L 0%nat 0%nat = 0 /\ a 1%nat 0%nat = 1 /\ L 0%nat 0%nat <= a 1%nat 0%nat <= U 0%nat 0%nat.
Proof.
  intros ke Hke. set (U := (fun _ _ => 2) : tensor). set (L := (fun _ _ => 0) : tensor).
  set (its := [(fun _ => unit_box 1%nat) : tensor; (fun _ => unit_box 0%nat) : tensor]). set (r := mk_run its (fun i => match i with O => its | _ => [U; L] end) [U; L]).
  set (a := (fun i => match i with O => fun _ => / 2 | _ => fun _ => 1 end) : nat -> vec).
  assert (rnd2 : rnd32 2 = 2) by exact (rnd32_bpow 1 ltac:(lia)).
  assert (S0 : one_sign (scale_net 2)). { intros i L0 ps F E HF j Hj. unfold scale_net in E. each_node E. injection HF as <-. left. intros c Hc. cbn. lra. }
  assert (R0 : float_run op32 (one_order op32 left_right) ke 1 cancel_opts (scale_net 2) 1 unit_box r).
  { split; [reflexivity|split; [|reflexivity]]. intros i q ps E. unfold scale_net in E. each_node E; [reflexivity|]. cbn [map concat r r_nodes app lin_of float_linear ln_out its]. intros k Hk. replace k with O by lia. split.
    - exists 2, 0, 2. unfold one_order. cbn [left_right]. repeat split; try apply dv_prod; unfold op32, fop, unit_box; cbn [Nat.eqb ln_src ln_w px]; rewrite ?(Rmax_right 0 2), ?(Rmin_left 0 2) by lra;
        rewrite ?Rmult_1_l, ?Rmult_0_r, ?Rplus_0_r; auto using rnd32_0.
    - exists 0, 0, 0. unfold one_order. cbn [left_right]. repeat split; try apply dv_prod; unfold op32, fop, unit_box; cbn [Nat.eqb ln_src ln_w px]; rewrite ?(Rmax_right 0 2), ?(Rmin_left 0 2) by lra;
        rewrite ?Rmult_1_l, ?Rmult_0_l, ?Rmult_0_r, ?Rplus_0_r; auto using rnd32_0. }
  assert (A0 : float_values op32 (one_order op32 left_right) (scale_net 2) (fun _ => / 2) a).
  { intros i q ps E. unfold scale_net in E. each_node E; [reflexivity|]. exists (fun _ => / 2). split; [reflexivity|]. intros k Hk. cbn [ln_out] in Hk. replace k with O by lia. exists 1. split; [|reflexivity].
    unfold one_order. cbn [left_right]. apply dv_prod. unfold op32, fop. cbn [ln_src ln_w px]. replace (/ 2 * 2) with 1 by lra. symmetry. exact rnd32_1. }
  assert (D0 : in_dom Box 1 unit_box (fun _ => / 2)) by (intros k Hk; unfold unit_box; cbn; lra).
  destruct (scale_ok 2) as (H1 & H2 & H3 & H4 & H5).
  destruct (float32_one_sign left_right ke 1 cancel_opts (scale_net 2) 1 unit_box r (fun _ => / 2) a) as (U' & L' & E & B); auto using left_right_perm; try (cbn; lia).
  { intros i L0 ps E. unfold scale_net in E. each_node E. exact I. }
  exists r, a, U, L. repeat (split; [first [assumption|reflexivity]|]). cbn in E. injection E as <- <-. exact (B 0%nat ltac:(cbn; lia)).
Qed.

(** a convolution and a residual connection: conv(x) + x on [0, 1] *)
Definition res_win : win := mk_win 1 1 1 1 false.
Definition res_net : network := [(None, []); (Some (NConv2D (mk_geo true res_win res_win 1 1) (fun _ _ _ _ => 2) None), [0%nat]); (Some (NAdd 1 2), [1%nat; 0%nat])].
Definition res_value (i : nat) (y : vec) : vec := match i with O => y | 1%nat => fun _ => 2 * y 0%nat | _ => fun _ => 2 * y 0%nat + y 0%nat end.
Lemma res_ok : net_ok 1 res_net /\ net_value res_net res_value /\ single_output res_net 2 /\ layers_ok IBP cancel_opts res_net /\
  (forall i L ps, nth_error res_net i = Some (Some L, ps) -> float_layer L) /\ one_sign res_net /\ merges_within 2 res_net.
Proof.
  split; [|split; [|split; [|split; [|split; [|split]]]]].
  - intros i o ps E. unfold res_net in E. each_node E; (split; [intros p Hp; cbn in Hp; lia|]); try reflexivity; (split; [discriminate|reflexivity]).
  - intros y i o ps E. unfold res_net in E. each_node E; cbn [res_value]; [reflexivity| |].
    + intros j Hj. cbn in Hj. replace j with O by lia. lazy -[Rplus Rmult IZR]. ring.
    + intros j Hj. replace j with O by lia. lazy -[Rplus Rmult IZR]. ring.
  - split; [cbn; lia|]. intros j Hj. cbn in Hj. destruct j as [|[|[|]]]; [step 2%nat; constructor|step 2%nat; constructor|constructor|lia].
  - intros i L ps E. unfold res_net in E. each_node E; cbn; (split; [try lia; exact I|exact I]).
  - intros i L ps E. unfold res_net in E. each_node E; exact I.
  - intros i L ps F E HF j Hj. unfold res_net in E. each_node E; try discriminate HF. injection HF as <-. left. intros c Hc. cbn. lra.
  - intros i L ps E HM. unfold res_net in E. each_node E; [contradiction HM; reflexivity|cbn; lia].
Qed.
Lemma residual_example : forall ke, 0 < ke -> exists r a U L,
  one_sign res_net /\ float_run op32 (one_order op32 left_right) ke 1 cancel_opts res_net 2 unit_box r /\
  float_values op32 (one_order op32 left_right) res_net (fun _ => 1) a /\ in_dom Box 1 unit_box (fun _ => 1) /\
  r_out r = [U; L] /\ U 0%nat 0%nat = 3 /\ L 0%nat 0%nat = 0 /\ a 2%nat 0%nat = 3 /\ L 0%nat 0%nat <= a 2%nat 0%nat <= U 0%nat 0%nat /\
  float_run op32 (any_order op32 2 2) ke 1 cancel_opts res_net 2 unit_box r /\ run_size 3 res_net r /\
  (forall y, in_dom Box 1 unit_box y -> L 0%nat 0%nat - (net_error res_net + 1) * float_error u32 eta32 2 2 3 <= 2 * y 0%nat + y 0%nat <= U 0%nat 0%nat + (net_error res_net + 1) * float_error u32 eta32 2 2 3).
Proof.
  intros ke Hke. set (U := (fun _ _ => 3) : tensor). set (L := (fun _ _ => 0) : tensor). set (U1 := (fun _ _ => 2) : tensor).
  set (its := [(fun _ => unit_box 1%nat) : tensor; (fun _ => unit_box 0%nat) : tensor]). set (r := mk_run its (fun i => match i with O => its | 1%nat => [U1; L] | _ => [U; L] end) [U; L]).
  set (a := (fun i => match i with O => fun _ => 1 | 1%nat => fun _ => 2 | _ => fun _ => 3 end) : nat -> vec).
  assert (rnd2 : rnd32 2 = 2) by exact (rnd32_bpow 1 ltac:(lia)).
  assert (rnd3 : rnd32 3 = 3).
  { apply round_generic; [apply valid_rnd_N|]. apply generic_format_FLT. apply (FLT_spec _ _ _ _ (Float radix2 3 0)); [unfold F2R; cbn; lra|cbn; lia|cbn; lia]. }
  destruct res_ok as (H1 & H2 & H3 & H4 & H5 & H6 & H7).
  assert (R0 : float_run op32 (one_order op32 left_right) ke 1 cancel_opts res_net 2 unit_box r).
  { split; [reflexivity|split; [|reflexivity]]. intros i q ps E. unfold res_net in E. each_node E; [reflexivity| |].
    - cbn [map concat r r_nodes app lin_of float_linear ln_out its]. intros k Hk. cbn in Hk. replace k with O by lia. split.
      + exists 2, 0, 2. unfold one_order. repeat match goal with |- context [left_right ?d] => change (left_right d) with (TProd 0) end. split; [|split; [|split]]; try apply dv_prod; unfold op32, fop, unit_box; cbn -[Rmax Rmin]; try reflexivity; rewrite ?(Rmax_right 0 2), ?(Rmin_left 0 2) by lra;
          rewrite ?Rmult_1_l, ?Rmult_0_r, ?Rplus_0_r; auto using rnd32_0.
      + exists 0, 0, 0. unfold one_order. repeat match goal with |- context [left_right ?d] => change (left_right d) with (TProd 0) end. split; [|split; [|split]]; try apply dv_prod; unfold op32, fop, unit_box; cbn -[Rmax Rmin]; try reflexivity; rewrite ?(Rmax_right 0 2), ?(Rmin_left 0 2) by lra;
          rewrite ?Rmult_1_l, ?Rmult_0_l, ?Rmult_0_r, ?Rplus_0_r; auto using rnd32_0.
    - cbn [lin_of merge_op map r r_nodes float_merge nl_out its]. intros k Hk. replace k with O by lia. cbn. unfold unit_box. cbn. split.
      + exists 3. split; [|reflexivity]. unfold op32, fop. change (3 = rnd32 (2 + 1)). replace (2 + 1) with 3 by ring. auto.
      + exists 0. split; [|reflexivity]. unfold op32, fop. change (0 = rnd32 (0 + 0)). rewrite Rplus_0_r. symmetry. exact rnd32_0. }
  assert (A0 : float_values op32 (one_order op32 left_right) res_net (fun _ => 1) a).
  { intros i q ps E. unfold res_net in E. each_node E; [reflexivity| |].
    - exists (fun _ => 1). split; [reflexivity|]. intros k Hk. cbn in Hk. replace k with O by lia. exists 2. split; [|reflexivity].
      unfold one_order. apply dv_prod. unfold op32, fop. cbn. rewrite Rmult_1_l. auto.
    - intros k Hk. cbn. exists 3. split; [|reflexivity]. unfold op32, fop. change (3 = rnd32 (2 + 1)). replace (2 + 1) with 3 by ring. auto. }
  assert (D0 : in_dom Box 1 unit_box (fun _ => 1)) by (intros k Hk; unfold unit_box; cbn; lra).
  assert (R1 : float_run op32 (any_order op32 2 2) ke 1 cancel_opts res_net 2 unit_box r).
  { apply (float_run_impl op32 op32 (one_order op32 left_right) _ (fun d => d = 1%nat)); [auto| | |exact R0].
    - intros d x w y ->. apply one_order_any; [apply left_right_perm|cbn; lia|cbn; lia].
    - intros i L0 ps F E HF. unfold res_net in E. each_node E; try discriminate HF. injection HF as <-. reflexivity. }
  assert (S0 : run_size 3 res_net r).
  { intros i L0 ps E. unfold res_net in E. each_node E; cbn [lin_of merge_op].
    - intros uc lc Ec j Hj. cbn in Ec, Hj. injection Ec as <- <-. replace j with O by lia. unfold lin_size, unit_box. cbn. rewrite ?Rabs_R0, ?Rabs_R1, (Rabs_right 2), Rmax_left by lra. lra.
    - intros j Hj. cbn. unfold unit_box, U1, L. cbn. rewrite ?Rabs_R0, ?Rabs_R1, (Rabs_right 2), !Rmax_left by lra. lra. }
  destruct (float32_one_sign left_right ke 1 cancel_opts res_net 2 unit_box r (fun _ => 1) a) as (U' & L' & E & B); auto using left_right_perm; try (cbn; lia).
  destruct (float32_bounds 2 2 ke 1 cancel_opts res_net res_value 2 unit_box r 3 ltac:(lra) ltac:(lia) H1 H2 H4 ltac:(cbn; lia) H5 H7 R1 S0) as (U2 & L2 & E2 & B2).
  cbn in E, E2. injection E as <- <-. injection E2 as <- <-.
  exists r, a, U, L. repeat (split; [first [assumption|reflexivity]|]). split; [exact (B 0%nat ltac:(cbn; lia))|]. split; [exact R1|]. split; [exact S0|]. intros y Hy. exact (B2 y 0%nat Hy ltac:(cbn; lia)).
Qed.
