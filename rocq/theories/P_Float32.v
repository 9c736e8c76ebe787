(** Proofs: monotone roundings and binary32 (C74). *)
From Coq Require Import Reals List Arith Bool ZArith Lia Lra Psatz Permutation.
From Flocq Require Import Core Relative.
From Verif Require Import RLib Spec Spec_Layers Spec_Backward Spec_Convert Spec_Near Spec_Rounding Spec_Float M_Core M_Utils M_MergeLayers M_Ops M_Layers M_Backward M_Crown M_Convert M_Network M_Rounding M_Float.
From Verif Require Import P_Core P_Utils P_Layers P_Graph P_Crown P_Convert P_Network P_Backward P_NetworkSpec P_NetworkForward P_NetworkThm P_Near P_Rounding P_Lipschitz P_RoundingThm P_Float.
From Verif Require Import Spec_Network.
Import ListNotations.
Local Open Scope R_scope.

(** ** Deterministic roundings *)

Lemma dot_value_mono : forall rnd, (forall x y, x <= y -> rnd x <= rnd y) -> forall x x' w w' t y y',
  (forall c, In c (leaves t) -> x c * w c <= x' c * w' c) -> dot_value (fop rnd) x w t y -> dot_value (fop rnd) x' w' t y' -> y <= y'.
Proof.
  intros rnd Hm x x' w w' t. induction t as [|i|i t IH|a IHa b IHb]; intros y y' H H1 H2; inversion H1; subst; inversion H2; subst; unfold fop in *; subst; cbn [leaves] in H.
  - lra.
  - apply Hm. apply H. left. reflexivity.
  - apply Hm. apply Rplus_le_compat; [apply H; left; reflexivity|]. eapply IH; eauto. intros c Hc. apply H. right. exact Hc.
  - apply Hm. apply Rplus_le_compat; [eapply IHa; eauto|eapply IHb; eauto]; intros c Hc; apply H; apply in_or_app; auto.
Qed.
Lemma dot_value_zero : forall rnd, rnd 0 = 0 -> forall x w t y, (forall c, In c (leaves t) -> w c = 0) -> dot_value (fop rnd) x w t y -> y = 0.
Proof.
  intros rnd H0 x w t. induction t as [|i|i t IH|a IHa b IHb]; intros y H H1; inversion H1; subst; unfold fop in *; subst; cbn [leaves] in H.
  - reflexivity.
  - rewrite (H i (or_introl eq_refl)), Rmult_0_r. exact H0.
  - rewrite (H i (or_introl eq_refl)), Rmult_0_r. match goal with Hd : dot_value _ _ _ t ?a |- _ => rewrite (IH a ltac:(intros c Hc; apply H; right; exact Hc) Hd) end. rewrite Rplus_0_l. exact H0.
  - repeat match goal with
    | Hd : dot_value _ _ _ a ?p |- _ => rewrite (IHa p ltac:(intros c Hc; apply H; apply in_or_app; auto) Hd); clear Hd
    | Hd : dot_value _ _ _ b ?p |- _ => rewrite (IHb p ltac:(intros c Hc; apply H; apply in_or_app; auto) Hd); clear Hd end.
    rewrite Rplus_0_l. exact H0.
Qed.
Lemma dot_value_fix : forall rnd, rnd 0 = 0 -> (forall x, rnd (rnd x) = rnd x) -> forall x w t y, dot_value (fop rnd) x w t y -> rnd y = y.
Proof. intros rnd H0 Hi x w t y H. inversion H; subst; unfold fop in *; subst; auto. Qed.
Lemma plus_bias_mono : forall rnd, (forall x y, x <= y -> rnd x <= rnd y) -> forall bias j s s' y y', s <= s' ->
  plus_bias (fop rnd) bias j s y -> plus_bias (fop rnd) bias j s' y' -> y <= y'.
Proof. intros rnd Hm bias j s s' y y' H H1 H2. destruct bias as [v|]; cbn in *; unfold fop in *; subst; [apply Hm; lra|exact H]. Qed.

(** entries of the tensors of interval mode around a value *)
Definition between (m : nat) (a : vec) (ts : list tensor) : Prop :=
  match ts with [u; l] => forall j, (j < m)%nat -> l 0%nat j <= a j <= u 0%nat j | _ => False end.
Lemma between_valid : forall n m a ts (S : vec -> Prop), between m a ts -> op_sp (mk_spec false IBP Box n) S m (fun _ => a) ts.
Proof.
  intros n m a ts S H. unfold op_sp, valid. cbn. destruct ts as [|u [|l [|]]]; try contradiction. split; [reflexivity|]. intros z j Hz Hj. exact (H j Hj).
Qed.
Lemma valid_between : forall n m a ts, op_sp (mk_spec false IBP Box n) (fun _ => True) m (fun _ => a) ts -> between m a ts.
Proof.
  intros n m a ts [H1 H2]. cbn in *. destruct ts as [|u [|l [|]]]; try discriminate. intros j Hj. exact (H2 (fun _ => 0) j I Hj).
Qed.

Lemma other_layer : forall ke n o L ps (a : nat -> vec) nodes dim out g, 0 < ke -> (0 < n)%nat -> nl_ok IBP (lo_fast o) L -> ft_ok (nl_out L) (lo_ft o) ->
  map dim ps = nl_in L -> (forall p, In p ps -> between (dim p) (a p) (nodes p)) -> computes L (map a ps) g ->
  decomon_layer ke (mk_spec false IBP Box n) o L (concat (map nodes ps)) = Ok out -> between (nl_out L) g out.
Proof.
  intros ke n o L ps a nodes dim out g Hke Hn Hok Hft Hdim HB HC E.
  destruct (layer_sound ke (mk_spec false IBP Box n) o L Hke Hn I eq_refl Hok Hft (fun _ => True) (map (fun p _ => a p) ps) (map nodes ps) (fun _ => g)) as (out' & E' & V).
  - left. reflexivity.
  - rewrite <- Hdim, combine_map. apply Forall2_map_map. intros p Q. cbn. apply between_valid. apply HB. exact Q.
  - rewrite <- Hdim, !map_length. reflexivity.
  - apply nl_ibp_gaps. reflexivity.
  - intros y. rewrite map_map. exact HC.
  - rewrite E in E'. injection E' as <-. apply (valid_between n). exact V.
Qed.

Lemma lin_index : forall L F j c i, lin_of L = Some F -> (j < ln_out F)%nat -> (c < ln_d F)%nat -> ln_src F j c = Some i -> exists m, nl_in L = [m] /\ (i < m)%nat.
Proof.
  intros L F j c i H Hj Hc Hi. destruct L; try discriminate H; injection H as <-; cbn [ln_out ln_d ln_src nl_in] in *; eexists; (split; [reflexivity|]).
  - injection Hi as <-. assert (Hu : units <> O) by (intros ->; lia). assert (j / units < rows)%nat by (apply Nat.div_lt_upper_bound; [exact Hu|]; lia). nia.
  - assert (0 < cg_cin g)%nat by (destruct (cg_cin g); [rewrite !Nat.mul_0_r in Hc; lia|lia]). apply px_src_lt in Hi; [exact Hi|]. apply Nat.mod_upper_bound. lia.
Qed.
Lemma lin_between : forall L F j c m (l v u : vec), lin_of L = Some F -> (j < ln_out F)%nat -> (c < ln_d F)%nat -> nl_in L = [m] -> (forall i, (i < m)%nat -> l i <= v i <= u i) ->
  px l (ln_src F j c) <= px v (ln_src F j c) <= px u (ln_src F j c).
Proof.
  intros L F j c m l v u H Hj Hc Hm HB. destruct (ln_src F j c) as [i|] eqn:E; cbn [px]; [|lra]. destruct (lin_index L F j c i H Hj Hc E) as (m' & Em & Hi). rewrite Hm in Em. injection Em as <-. exact (HB i Hi).
Qed.
Lemma lin_one : forall L F, lin_of L = Some F -> ln_out F = nl_out L.
Proof. intros L F H. destruct L; try discriminate H; injection H as <-; reflexivity. Qed.
Lemma order_index : forall T d c, Permutation (leaves (T d)) (seq 0 d) -> In c (leaves (T d)) -> (c < d)%nat.
Proof. intros T d c HP H. apply (Permutation_in _ HP) in H. apply in_seq in H. lia. Qed.

Lemma neuron_order : forall rnd T F a b a' b' j y y', (forall x y, x <= y -> rnd x <= rnd y) -> Permutation (leaves (T (ln_d F))) (seq 0 (ln_d F)) ->
  (forall c, (c < ln_d F)%nat -> px a' (ln_src F j c) <= px a (ln_src F j c) /\ px b (ln_src F j c) <= px b' (ln_src F j c)) ->
  float_neuron (fop rnd) (one_order (fop rnd) T) F a b j y ->
  float_neuron (fop rnd) (one_order (fop rnd) T) F a' b' j y' -> y' <= y.
Proof.
  intros rnd T F a b a' b' j y y' Hm HP H (p & q & s & Hp & Hq & Hs & Hy) (p' & q' & s' & Hp' & Hq' & Hs' & Hy').
  unfold one_order in *. assert (p' <= p).
  { eapply dot_value_mono; [exact Hm| |exact Hp'|exact Hp]. intros c Hc. cbn beta. destruct (H c (order_index T _ c HP Hc)) as [H1 _].
    apply Rmult_le_compat_r; [apply Rmax_l|exact H1]. }
  assert (q' <= q).
  { eapply dot_value_mono; [exact Hm| |exact Hq'|exact Hq]. intros c Hc. cbn beta. destruct (H c (order_index T _ c HP Hc)) as [_ H1].
    assert (Rmin 0 (ln_w F j c) <= 0) by apply Rmin_l. nra. }
  eapply plus_bias_mono; [exact Hm| |exact Hy'|exact Hy]. unfold fop in Hs, Hs'. subst s s'. apply Hm. lra.
Qed.

(** the sums of the merges *)
Lemma chain_mono : forall rnd, (forall x y, x <= y -> rnd x <= rnd y) -> forall l l' s s' y y', s <= s' -> Forall2 Rle l l' -> chain (fop rnd) s l y -> chain (fop rnd) s' l' y' -> y <= y'.
Proof.
  intros rnd Hm l l' s s' y y' Hs H. revert s s' y y' Hs. induction H as [|x x' l l' Hx H IH]; intros s s' y y' Hs H1 H2; cbn in *.
  - subst. exact Hs.
  - destruct H1 as (t & E1 & H1). destruct H2 as (t' & E2 & H2). eapply IH; [|exact H1|exact H2]. unfold fop in *. subst. apply Hm. lra.
Qed.
Lemma sum_mono : forall rnd, (forall x y, x <= y -> rnd x <= rnd y) -> forall l l' y y', Forall2 Rle l l' -> float_sum (fop rnd) l y -> float_sum (fop rnd) l' y' -> y <= y'.
Proof. intros rnd Hm l l' y y' H H1 H2. destruct H as [|x x' l l' Hx H]; [contradiction|]. cbn in *. eapply chain_mono; [exact Hm|exact Hx|exact H|exact H1|exact H2]. Qed.
Lemma le_length : forall l l' : list R, Forall2 Rle l l' -> length l = length l'.
Proof. intros l l' H. induction H; cbn; congruence. Qed.
(** the numbers of a merge, in order: the second input of Subtract goes the other way *)
Definition merge_le (L : nlayer) (l l' : list R) : Prop :=
  match L with NSubtract _ => match l, l' with [a; b], [a'; b'] => a <= a' /\ b' <= b | _, _ => False end | _ => Forall2 Rle l l' end.
Lemma merge_mono : forall rnd L M l l' y y', (forall x y, x <= y -> rnd x <= rnd y) -> merge_op (fop rnd) L = Some M -> merge_le L l l' -> M l y -> M l' y' -> y <= y'.
Proof.
  intros rnd L M l l' y y' Hm HM H H1 H2. destruct L; try discriminate HM; injection HM as <-; cbn [merge_le] in H.
  - eapply sum_mono; eauto.
  - destruct H1 as (s & S1 & E1). destruct H2 as (s' & S2 & E2). pose proof (sum_mono rnd Hm _ _ _ _ H S1 S2) as Q. rewrite (le_length _ _ H) in E1. unfold fop in *. subst. apply Hm.
    destruct l' as [|x' l']; [contradiction|]. assert (0 < INR (length (x' :: l'))) by (apply lt_0_INR; cbn; lia). unfold Rdiv. apply Rmult_le_compat_r; [|exact Q]. left. apply Rinv_0_lt_compat. assumption.
  - destruct l as [|a [|b [|]]], l' as [|a' [|b' [|]]]; try contradiction. unfold fop in *. subst. apply Hm. lra.
Qed.
Lemma merge_ends_le : forall op L M (ps : list nat) (a : nat -> vec) (nodes : nat -> list tensor) dim j, merge_op op L = Some M -> map dim ps = nl_in L -> (j < nl_out L)%nat ->
  (forall p, In p ps -> between (dim p) (a p) (nodes p)) ->
  merge_le L (map (fun p => a p j) ps) (merge_ends L (lowers j (map nodes ps)) (uppers j (map nodes ps))) /\
  merge_le L (merge_ends L (uppers j (map nodes ps)) (lowers j (map nodes ps))) (map (fun p => a p j) ps) /\
  merge_le L (merge_ends L (uppers j (map nodes ps)) (lowers j (map nodes ps))) (merge_ends L (lowers j (map nodes ps)) (uppers j (map nodes ps))).
Proof.
  intros op L M ps a nodes dim j HM Hdim Hj HB.
  assert (B : forall p, In p ps -> nth 1 (nodes p) empty_tensor 0%nat j <= a p j <= nth 0 (nodes p) empty_tensor 0%nat j).
  { intros p Hp. specialize (HB p Hp). assert (dim p = nl_out L).
    { assert (I0 : In (dim p) (nl_in L)) by (rewrite <- Hdim; apply in_map; exact Hp). destruct L; try discriminate HM; cbn [nl_in nl_out] in *; try (apply repeat_spec in I0; exact I0). cbn in I0. lia. }
    rewrite H in HB. destruct (nodes p) as [|u [|l [|]]]; try contradiction. exact (HB j Hj). }
  unfold uppers, lowers. rewrite !map_map. clear HB.
  destruct L; try discriminate HM; cbn [merge_le merge_ends nl_in] in *.
  1, 2: clear Hdim; (split; [|split]); induction ps as [|p ps IH]; cbn [map]; constructor; try (specialize (B p (or_introl eq_refl)); lra); apply IH; intros q Hq; apply B; right; exact Hq.
  destruct ps as [|p [|q [|]]]; try discriminate Hdim. cbn [map]. pose proof (B p (or_introl eq_refl)). pose proof (B q (or_intror (or_introl eq_refl))). repeat split; lra.
Qed.

Definition node_low (ts : list tensor) : vec := match ts with [u; l] => l 0%nat | _ => fun _ => 0 end.

Lemma float_ordered : forall rnd T ke n opts net o z r,
  (forall x y, x <= y -> rnd x <= rnd y) -> (forall d, Permutation (leaves (T d)) (seq 0 d)) ->
  0 < ke -> (0 < n)%nat -> net_ok n net -> layers_ok IBP opts net -> (o < length net)%nat ->
  (forall i L ps, nth_error net i = Some (Some L, ps) -> float_layer L) ->
  (forall j, (j < n)%nat -> z 0%nat j <= z 1%nat j) ->
  float_run (fop rnd) (one_order (fop rnd) T) ke n opts net o z r ->
  exists U L, r_out r = [U; L] /\ forall j, (j < net_dim n net o)%nat -> L 0%nat j <= U 0%nat j.
Proof.
  intros rnd T ke n opts net o z r Hm HT Hke Hn Hnet Hlay Ho Hfl Hz (H1 & H2 & H3).
  assert (W : forall i, (i < length net)%nat -> between (net_dim n net i) (node_low (r_nodes r i)) (r_nodes r i)).
  { intros i. induction (lt_wf i) as [i _ IH]. intros Hi. destruct (nth_error net i) as [[q ps]|] eqn:En; [|apply nth_error_None in En; lia].
    specialize (H2 i q ps En). destruct (Hnet i q ps En) as [Hp Hq]. unfold net_dim. rewrite En. destruct q as [L|].
    - destruct Hq as [Hne Hq]. specialize (Hfl i L ps En). destruct (Hlay i L ps En) as [Hok Hft].
      assert (G : decomon_layer ke (mk_spec false IBP Box n) (opts i) L (concat (map (r_nodes r) ps)) = Ok (r_nodes r i) -> between (nl_out L) (node_low (r_nodes r i)) (r_nodes r i)).
      { intros E. assert (B := other_layer ke n (opts i) L ps (fun p => node_low (r_nodes r p)) (r_nodes r) (net_dim n net) (r_nodes r i)
          (layer_fn L (map (fun p => node_low (r_nodes r p)) ps)) Hke Hn Hok Hft Hq ltac:(intros p Q; apply IH; [apply Hp; exact Q|specialize (Hp p Q); lia])
          ltac:(apply (computes_fn IBP (lo_fast (opts i)) L); [exact Hok|]; rewrite map_length; exact (net_in_length n net i L ps Hnet En)) E).
        unfold between, node_low in *. destruct (r_nodes r i) as [|u [|l [|]]]; try contradiction. intros j Hj. specialize (B j Hj). lra. }
      assert (IH' : forall p, In p ps -> between (net_dim n net p) (node_low (r_nodes r p)) (r_nodes r p)) by (intros p Q; apply IH; [apply Hp; exact Q|specialize (Hp p Q); lia]).
      destruct (lin_of L) as [F|] eqn:HF; [|destruct (merge_op (fop rnd) L) as [M|] eqn:HM; [|exact (G H2)]]; clear G.
      + assert (exists m, nl_in L = [m]) as (m & Em) by (destruct L; try discriminate HF; eexists; reflexivity). rewrite Em in Hq. destruct ps as [|p [|]]; try discriminate Hq. injection Hq as Hq.
        cbn [map concat] in H2. rewrite app_nil_r in H2. specialize (IH' p (or_introl eq_refl)). rewrite Hq in IH'. unfold float_linear in H2. destruct (r_nodes r p) as [|uc [|lc [|]]]; try contradiction.
        destruct (r_nodes r i) as [|uc' [|lc' [|]]]; try contradiction. rewrite <- (lin_one L F HF). cbn [between node_low] in *. intros j Hj. split; [lra|]. destruct (H2 j Hj) as [A B].
        eapply neuron_order; [exact Hm|apply HT| |exact A|exact B]. intros c Hc. pose proof (lin_between L F j c m (lc 0%nat) (lc 0%nat) (uc 0%nat) HF Hj Hc Em IH'). lra.
      + unfold float_merge in H2. destruct (r_nodes r i) as [|uc' [|lc' [|]]]; try contradiction. cbn [between node_low] in *. intros j Hj. split; [lra|]. destruct (H2 j Hj) as [A B].
        destruct (merge_ends_le _ L M ps (fun p => node_low (r_nodes r p)) (r_nodes r) (net_dim n net) j HM Hq Hj IH') as (_ & _ & Q). eapply merge_mono; [exact Hm|exact HM|exact Q|exact B|exact A].
    - rewrite H2. clear - H1 Hz. cbn in H1. injection H1 as <-. cbn [between node_low]. intros j Hj. cbn. split; [apply Rle_refl|exact (Hz j Hj)]. }
  specialize (W o Ho). destruct (r_nodes r o) as [|U [|L [|]]]; try contradiction. cbn in H3. injection H3 as <-. exists U, L. split; [reflexivity|].
  intros j Hj. specialize (W j Hj). cbn in W. lra.
Qed.

Lemma neuron_one_sign : forall rnd T F a b j y, rnd 0 = 0 -> (forall x, rnd (rnd x) = rnd x) -> (forall x y, x <= y -> rnd x <= rnd y) ->
  Permutation (leaves (T (ln_d F))) (seq 0 (ln_d F)) ->
  float_neuron (fop rnd) (one_order (fop rnd) T) F a b j y ->
  ((forall c, (c < ln_d F)%nat -> 0 <= ln_w F j c) -> exists p, dot_value (fop rnd) (fun c => px a (ln_src F j c)) (fun c => Rmax 0 (ln_w F j c)) (T (ln_d F)) p /\ plus_bias (fop rnd) (ln_bias F) (ln_unit F j) p y) /\
  ((forall c, (c < ln_d F)%nat -> ln_w F j c <= 0) -> exists p, dot_value (fop rnd) (fun c => px b (ln_src F j c)) (fun c => Rmin 0 (ln_w F j c)) (T (ln_d F)) p /\ plus_bias (fop rnd) (ln_bias F) (ln_unit F j) p y).
Proof.
  intros rnd T F a b j y H0 Hi Hm HP (p & q & s & Hp & Hq & Hs & Hy). unfold one_order in *. unfold fop in Hs. split; intros H.
  - assert (q = 0). { eapply dot_value_zero; [exact H0| |exact Hq]. intros c Hc. apply Rmin_left. apply H. eapply order_index; eauto. }
    subst q. rewrite Rplus_0_r, (dot_value_fix rnd H0 Hi _ _ _ _ Hp) in Hs. subst s. exists p. split; assumption.
  - assert (p = 0). { eapply dot_value_zero; [exact H0| |exact Hp]. intros c Hc. apply Rmax_left. apply H. eapply order_index; eauto. }
    subst p. rewrite Rplus_0_l, (dot_value_fix rnd H0 Hi _ _ _ _ Hq) in Hs. subst s. exists q. split; assumption.
Qed.

Lemma float_one_sign : forall rnd T ke n opts net o z r y a,
  rnd 0 = 0 -> (forall x, rnd (rnd x) = rnd x) -> (forall x y, x <= y -> rnd x <= rnd y) -> (forall d, Permutation (leaves (T d)) (seq 0 d)) ->
  0 < ke -> (0 < n)%nat -> net_ok n net -> layers_ok IBP opts net -> (o < length net)%nat ->
  (forall i L ps, nth_error net i = Some (Some L, ps) -> float_layer L) -> one_sign net ->
  float_run (fop rnd) (one_order (fop rnd) T) ke n opts net o z r -> in_dom Box n z y -> float_values (fop rnd) (one_order (fop rnd) T) net y a ->
  exists U L, r_out r = [U; L] /\ forall j, (j < net_dim n net o)%nat -> L 0%nat j <= a o j <= U 0%nat j.
Proof.
  intros rnd T ke n opts net o z r y a H0 Hi0 Hm HT Hke Hn Hnet Hlay Ho Hfl Hsg (H1 & H2 & H3) Hy Ha.
  assert (W : forall i, (i < length net)%nat -> between (net_dim n net i) (a i) (r_nodes r i)).
  { intros i. induction (lt_wf i) as [i _ IH]. intros Hi. destruct (nth_error net i) as [[q ps]|] eqn:En; [|apply nth_error_None in En; lia].
    specialize (H2 i q ps En). specialize (Ha i q ps En). destruct (Hnet i q ps En) as [Hp Hq]. unfold net_dim. rewrite En. destruct q as [L|].
    - destruct Hq as [Hne Hq]. specialize (Hfl i L ps En). destruct (Hlay i L ps En) as [Hok Hft].
      assert (G : computes L (map a ps) (a i) -> decomon_layer ke (mk_spec false IBP Box n) (opts i) L (concat (map (r_nodes r) ps)) = Ok (r_nodes r i) -> between (nl_out L) (a i) (r_nodes r i)).
      { intros C E. exact (other_layer ke n (opts i) L ps a (r_nodes r) (net_dim n net) (r_nodes r i) (a i) Hke Hn Hok Hft Hq ltac:(intros p Q; apply IH; [apply Hp; exact Q|specialize (Hp p Q); lia]) C E). }
      assert (IH' : forall p, In p ps -> between (net_dim n net p) (a p) (r_nodes r p)) by (intros p Q; apply IH; [apply Hp; exact Q|specialize (Hp p Q); lia]).
      destruct (lin_of L) as [F|] eqn:HF; [|destruct (merge_op (fop rnd) L) as [M|] eqn:HM; [|exact (G Ha H2)]]; clear G.
      + assert (exists m, nl_in L = [m]) as (m & Em) by (destruct L; try discriminate HF; eexists; reflexivity). rewrite Em in Hq. destruct ps as [|p [|]]; try discriminate Hq. injection Hq as Hq.
        cbn [map concat] in H2. rewrite app_nil_r in H2. specialize (IH' p (or_introl eq_refl)). rewrite Hq in IH'. unfold float_linear in H2. destruct (r_nodes r p) as [|uc [|lc [|]]]; try contradiction.
        destruct (r_nodes r i) as [|uc' [|lc' [|]]]; try contradiction. rewrite <- (lin_one L F HF). cbn [between] in *. intros j Hj. destruct (H2 j Hj) as [A B].
        destruct Ha as (x & Ex & Hx). cbn in Ex. injection Ex as <-. destruct (Hx j Hj) as (p0 & Hp0 & Hb). unfold one_order in Hp0.
        destruct (neuron_one_sign rnd T F _ _ j _ H0 Hi0 Hm (HT _) A) as [A1 A2].
        destruct (neuron_one_sign rnd T F _ _ j _ H0 Hi0 Hm (HT _) B) as [B1 B2].
        assert (V : forall c, In c (leaves (T (ln_d F))) -> (c < ln_d F)%nat /\ px (lc 0%nat) (ln_src F j c) <= px (a p) (ln_src F j c) <= px (uc 0%nat) (ln_src F j c)).
        { intros c Hc. apply (order_index T _ c (HT _)) in Hc. split; [exact Hc|]. exact (lin_between L F j c m _ _ _ HF Hj Hc Em IH'). }
        destruct (Hsg i L [p] F En HF j Hj) as [S0|S0].
        * destruct (A1 S0) as (pu & Hpu & Hbu). destruct (B1 S0) as (pl & Hpl & Hbl). split.
          -- eapply plus_bias_mono; [exact Hm| |exact Hbl|exact Hb]. eapply dot_value_mono; [exact Hm| |exact Hpl|exact Hp0]. intros c Hc. cbn beta. destruct (V c Hc) as [Hcd Vc].
             specialize (S0 c Hcd). rewrite Rmax_right by exact S0. apply Rmult_le_compat_r; lra.
          -- eapply plus_bias_mono; [exact Hm| |exact Hb|exact Hbu]. eapply dot_value_mono; [exact Hm| |exact Hp0|exact Hpu]. intros c Hc. cbn beta. destruct (V c Hc) as [Hcd Vc].
             specialize (S0 c Hcd). rewrite Rmax_right by exact S0. apply Rmult_le_compat_r; lra.
        * destruct (A2 S0) as (pu & Hpu & Hbu). destruct (B2 S0) as (pl & Hpl & Hbl). split.
          -- eapply plus_bias_mono; [exact Hm| |exact Hbl|exact Hb]. eapply dot_value_mono; [exact Hm| |exact Hpl|exact Hp0]. intros c Hc. cbn beta. destruct (V c Hc) as [Hcd Vc].
             specialize (S0 c Hcd). rewrite Rmin_right by exact S0. nra.
          -- eapply plus_bias_mono; [exact Hm| |exact Hb|exact Hbu]. eapply dot_value_mono; [exact Hm| |exact Hp0|exact Hpu]. intros c Hc. cbn beta. destruct (V c Hc) as [Hcd Vc].
             specialize (S0 c Hcd). rewrite Rmin_right by exact S0. nra.
      + unfold float_merge in H2. destruct (r_nodes r i) as [|uc' [|lc' [|]]]; try contradiction. cbn [between] in *. intros j Hj. destruct (H2 j Hj) as [A B]. specialize (Ha j Hj).
        destruct (merge_ends_le _ L M ps a (r_nodes r) (net_dim n net) j HM Hq Hj IH') as (Q1 & Q2 & _).
        split; [eapply merge_mono; [exact Hm|exact HM|exact Q2|exact B|exact Ha]|eapply merge_mono; [exact Hm|exact HM|exact Q1|exact Ha|exact A]].
    - rewrite H2. clear - H1 Hy Ha. cbn in H1. injection H1 as <-. cbn [between]. intros j Hj. rewrite Ha. cbn in Hy. exact (Hy j Hj). }
  specialize (W o Ho). destruct (r_nodes r o) as [|U [|L [|]]]; try contradiction. cbn in H3. injection H3 as <-. exists U, L. split; [reflexivity|exact W].
Qed.
