(** Forward conversion of affine networks: in affine and hybrid mode the affine bounds are the network itself. *)
From Coq Require Import Reals Lra Lia Psatz List Arith Bool ZArith Permutation.
From Verif Require Import RLib Spec Spec_Layers Spec_Backward Spec_Convert Spec_Network M_Core M_Utils M_MergeLayers M_Ops M_Layers M_Pool M_Backward M_Crown M_Convert M_Network.
From Verif Require Import P_Core P_Merge P_Utils P_MergeLayers P_Axis P_Ops P_Layers P_Move P_Exact P_Graph P_Convert P_MetricsAdv P_Network P_NetworkSpec P_NetworkExact.
Import ListNotations.
Local Open Scope R_scope.

(** ** one block of tensors *)
Definition kept (sp : spec) (z : tensor) (m : nat) (ts : list tensor) : Prop :=
  exact_weights (sp_mode sp) (sp_n sp) m ts /\ nth 0 ts empty_tensor = z.
Definition fkept (sp : spec) (z : tensor) (m : nat) (r : full tensor) : Prop :=
  ex_full true (sp_n sp) m r /\ f_x r = z.

Lemma kept_out : forall sp z m r dc, sp_mode sp <> IBP -> fkept sp z m r -> kept sp z m (extract (sp_mode sp) dc r).
Proof.
  intros sp z m r dc Hm [H E]. split; [apply exact_out; destruct (sp_mode sp); [contradiction|exact H|exact H]|].
  destruct (sp_mode sp); [contradiction|exact E|exact E].
Qed.

Lemma full_keeps_x : forall sr sp ca ti ts r, sp_mode sp <> IBP -> get_fullinputs_r sr sp ca ti ts = Ok r -> f_x r = nth 0 ts empty_tensor.
Proof.
  intros sr sp ca ti ts r Hm E. unfold get_fullinputs_r in E.
  destruct (unpack empty_tensor (sp_mode sp) (sp_dc sp) ts) as [r0|e] eqn:U; [|discriminate E]. cbn [bind] in E.
  assert (X : f_x r0 = nth 0 ts empty_tensor).
  { destruct (sp_mode sp), (sp_dc sp); try contradiction; do 9 (try (destruct ts as [|? ts]; [discriminate U|])); cbn in U; injection U; intros <-; reflexivity. }
  rewrite <- X. unfold complete_r in E.
  destruct ((ca && mode_eqb (sp_mode sp) AFFINE) || (ti && mode_eqb (sp_mode sp) HYBRID))%bool; [|injection E; intros <-; auto].
  destruct (get_upper _ _ _ _ _ _ _) as [ua|e]; [|discriminate E]. cbn [bind] in E.
  destruct (get_lower _ _ _ _ _ _ _) as [la|e]; [|discriminate E]. cbn [bind] in E.
  destruct (mode_eqb (sp_mode sp) AFFINE); injection E; intros <-; auto.
Qed.

Lemma kept_in_r : forall sr sp ca ti z m ts r, sp_mode sp <> IBP -> kept sp z m ts -> get_fullinputs_r sr sp ca ti ts = Ok r -> fkept sp z m r.
Proof.
  intros sr sp ca ti z m ts r Hm [H Ez] E. split.
  - pose proof (exact_in sr sp ca ti m ts r H E) as Q. destruct (sp_mode sp); [contradiction|exact Q|exact Q].
  - rewrite (full_keeps_x _ _ _ _ _ _ Hm E). exact Ez.
Qed.
Lemma kept_in : forall sp ca ti z m ts r, sp_mode sp <> IBP -> kept sp z m ts -> get_fullinputs sp ca ti ts = Ok r -> fkept sp z m r.
Proof. intros sp ca ti z m ts r Hm H E. rewrite <- get_fullinputs_r_false in E. eapply kept_in_r; eauto. Qed.

Lemma affine_mode : forall sp, sp_mode sp <> IBP -> get_affine (sp_mode sp) = true.
Proof. intros sp H. destruct (sp_mode sp); [contradiction|reflexivity|reflexivity]. Qed.

Lemma lin_kept : forall sp z m mo A Ap An ob r o, sp_mode sp <> IBP ->
  pn_encl m mo A Ap An -> lin_out sp A Ap An ob r o -> fkept sp z m r -> fkept sp z mo o.
Proof.
  intros sp z m mo A Ap An ob r o Hm H Lo [X Ex]. pose proof (affine_mode sp Hm) as Ha. split.
  - pose proof (lin_out_exact sp m mo A Ap An ob r o H Lo) as Q. rewrite Ha in Q. exact (Q X).
  - destruct Lo as [_ Lo]. destruct (Lo Ha) as (E & _). congruence.
Qed.

Lemma dense_kept : forall sp z rows d units kernel bias ts out, sp_mode sp <> IBP -> (0 < units)%nat ->
  kept sp z (rows * d) ts -> decomon_dense sp d units kernel bias false None ts = Ok out -> kept sp z (rows * units) out.
Proof.
  intros sp z rows d units kernel bias ts out Hm Hu H E. unfold decomon_dense in E. apply bind_ok in E as (r & Er & E).
  destruct (dense_full_out sp d units kernel bias r) as (o & Eo & Lo). rewrite Eo in E. cbn [bind] in E. injection E; intros <-.
  apply kept_out; [exact Hm|]. eapply lin_kept; [exact Hm|exact (kdot_encl rows d units kernel Hu)|exact Lo|]. eapply kept_in_r; eauto.
Qed.

Lemma conv_kept : forall sp z g kernel bias ts out, sp_mode sp <> IBP -> dom_ok (sp_dom sp) (sp_mode sp) ->
  kept sp z (im_size (cg_in g)) ts -> decomon_conv2d sp g kernel bias false ts = Ok out -> kept sp z (im_size (cg_out g)) out.
Proof.
  intros sp z g kernel bias ts out Hm Hd H E. unfold decomon_conv2d in E. apply bind_ok in E as (r & Er & E).
  destruct (conv_full_out sp g kernel bias r Hd) as (o & Eo & Lo). rewrite Eo in E. cbn [bind] in E. injection E; intros <-.
  apply kept_out; [exact Hm|]. eapply lin_kept; [exact Hm|exact (conv_encl g kernel)|exact Lo|]. eapply kept_in_r; eauto.
Qed.

Lemma bn_kept : forall sp z s axis gamma beta mean var eps ts out m, sp_mode sp <> IBP ->
  kept sp z m ts -> decomon_bn sp s axis gamma beta mean var eps false ts = Ok out -> kept sp z m out.
Proof.
  intros sp z s axis gamma beta mean var eps ts out m Hm H E. split; [eapply bn_exact; [exact (proj1 H)|exact E]|].
  unfold decomon_bn in E. apply bind_ok in E as (r & Er & E). pose proof (kept_in _ _ _ _ _ _ _ Hm H Er) as [_ X].
  apply bind_ok in E as (a & Ea & E). unfold finish in E. destruct (sp_dc sp); [discriminate E|]. injection E; intros <-.
  destruct (sp_mode sp); [contradiction|exact X|exact X].
Qed.

Lemma move_kept : forall sp z ca ti m mo idx (op opw : tensor -> tensor) ts r dc, sp_mode sp <> IBP ->
  (forall j, (j < mo)%nat -> (idx j < m)%nat) ->
  (forall t j, (j < mo)%nat -> op t 0%nat j = t 0%nat (idx j)) ->
  (forall t i j, (i < sp_n sp)%nat -> (j < mo)%nat -> opw t i j = t i (idx j)) ->
  kept sp z m ts -> get_fullinputs sp ca ti ts = Ok r ->
  kept sp z mo (extract (sp_mode sp) dc (move_full sp op opw r)).
Proof.
  intros sp z ca ti m mo idx op opw ts r dc Hm Hi Hop Hw H Er. split; [eapply move_exact; eauto; exact (proj1 H)|].
  pose proof (kept_in _ _ _ _ _ _ _ Hm H Er) as [_ X]. destruct (sp_mode sp); [contradiction|exact X|exact X].
Qed.

(** ** merges *)
Lemma merge_loop_keeps : forall sp refs is s s', merge_loop sp refs s is = Ok s' ->
  forall o, o <> f_uc refs -> o <> f_lc refs -> sread s' o = sread s o.
Proof.
  intros sp refs is. induction is as [|i is IH]; intros s s' E o H1 H2; [injection E; intros <-; reflexivity|].
  cbn [merge_loop] in E. apply bind_ok in E as (s1 & E1 & E). rewrite (IH _ _ E o H1 H2).
  unfold merge_step in E1. apply bind_ok in E1 as (ua & _ & E1). apply bind_ok in E1 as (la & _ & E1).
  destruct (mode_eqb (sp_mode sp) AFFINE); injection E1; intros <-; rewrite !sread_swrite_other by congruence; reflexivity.
Qed.

Definition position (mode : fmode) : nat * nat * nat * nat := match mode with HYBRID => (2, 3, 5, 6)%nat | _ => (1, 2, 3, 4)%nat end.
Lemma by_type_kept : forall sp ls R, sp_mode sp <> IBP -> sp_dc sp = false ->
  (forall l, In l ls -> length l = nb_tensors (sp_mode sp) false) ->
  get_fullinputs_by_type sp false true (concat ls) = Ok R ->
  let '(a, b, c, d) := position (sp_mode sp) in
  let col k := map (fun l => nth k l empty_tensor) ls in
  f_x R = col 0%nat /\ f_wu R = col a /\ f_bu R = col b /\ f_wl R = col c /\ f_bl R = col d.
Proof.
  intros sp ls R Hm Hdc Hl E. unfold get_fullinputs_by_type in E. rewrite Hdc in E.
  destruct (sp_mode sp) eqn:Em; [contradiction| |]; cbn [mode_eqb andb orb] in E.
  - injection E; intros <-. cbn [position deref f_x f_uc f_wu f_bu f_lc f_wl f_bl merge_refs merge_store sread nth nb_tensors] in *.
    repeat split; apply strided_concat; auto; lia.
  - apply bind_ok in E as (s' & Es & E); injection E; intros <-.
    pose proof (merge_loop_keeps _ _ _ _ _ Es) as K; cbn [position deref f_x f_uc f_wu f_bu f_lc f_wl f_bl merge_refs] in *;
    rewrite !K by discriminate; cbn [merge_store sread nth nb_tensors] in *;
    repeat split; apply strided_concat; auto; lia.
Qed.

Lemma kept_rows : forall sp z ms ls R, sp_mode sp <> IBP -> sp_dc sp = false ->
  (forall l, In l ls -> length l = nb_tensors (sp_mode sp) false) ->
  Forall2 (kept sp z) ms ls -> get_fullinputs_by_type sp false true (concat ls) = Ok R ->
  length (f_x R) = length ls /\ length (f_wu R) = length ls /\ length (f_bu R) = length ls /\ length (f_wl R) = length ls /\ length (f_bl R) = length ls /\
  forall t, (t < length ls)%nat -> fkept sp z (nth t ms O) (rowd R t).
Proof.
  intros sp z ms ls R Hm Hdc Hl HF E. pose proof (by_type_kept sp ls R Hm Hdc Hl E) as H. clear E.
  assert (G : forall t, (t < length ls)%nat -> kept sp z (nth t ms O) (nth t ls []) /\ length (nth t ls []) = nb_tensors (sp_mode sp) false).
  { intros t Ht. split; [|apply Hl; apply nth_In; exact Ht].
    apply (Forall2_nth_error _ _ _ _ _ HF). apply nth_error_nth'. exact Ht. }
  clear HF Hl.
  assert (N : forall k t, (t < length ls)%nat -> nth t (map (fun l => nth k l empty_tensor) ls) empty_tensor = nth k (nth t ls []) empty_tensor).
  { intros k t Ht. rewrite (nth_indep _ empty_tensor (nth k [] empty_tensor)) by (rewrite map_length; exact Ht).
    exact (map_nth (fun l => nth k l empty_tensor) ls [] t). }
  destruct (position (sp_mode sp)) as [[[a b] c] d] eqn:Ep. destruct H as (Hx & Hwu & Hbu & Hwl & Hbl).
  rewrite Hx, Hwu, Hbu, Hwl, Hbl, !map_length. repeat (split; [reflexivity|]). intros t Ht. destruct (G t Ht) as [[K1 K2] KL].
  unfold rowd. rewrite Hx, Hwu, Hbu, Hwl, Hbl. split; cbn [f_x f_wu f_bu f_wl f_bl]; rewrite ?N by exact Ht; [|exact K2].
  intros _ j Hj. cbn [f_wu f_bu f_wl f_bl]. rewrite ?N by exact Ht. clear - Hm Ep K1 KL Hj.
  destruct (sp_mode sp); [contradiction| |]; injection Ep as <- <- <- <-.
  - destruct (nth t ls []) as [|x [|wu [|bu [|wl [|bl q]]]]]; try discriminate KL. exact (K1 j Hj).
  - destruct (nth t ls []) as [|x [|u [|wu [|bu [|l [|wl [|bl q]]]]]]]; try discriminate KL. exact (K1 j Hj).
Qed.

Lemma reduce_kept : forall sp z m (c : R) (op : list tensor -> tensor) ls out, sp_mode sp <> IBP -> sp_dc sp = false ->
  (forall l i j, length l = length ls -> op l i j = c * rsum (length l) (fun k => nth k l empty_tensor i j)) ->
  (forall l, In l ls -> length l = nb_tensors (sp_mode sp) false) -> ls <> [] ->
  Forall2 (kept sp z) (repeat m (length ls)) ls -> merge_reduce sp op op (concat ls) = Ok out -> kept sp z m out.
Proof.
  intros sp z m c op ls out Hm Hdc Hop Hl Hne HF E. unfold merge_reduce in E. apply bind_ok in E as (R & ER & E).
  destruct (kept_rows sp z _ ls R Hm Hdc Hl HF ER) as (Lx & L1 & L2 & L3 & L4 & K).
  destruct ls as [|l0 lq]; [contradiction|]. set (ls := l0 :: lq) in *.
  assert (K' : forall t, (t < length ls)%nat -> fkept sp z m (rowd R t)).
  { intros t Ht. pose proof (K t Ht) as Q. assert (Er : nth t (repeat m (length ls)) O = m) by (apply (repeat_spec (length ls) m); apply nth_In; rewrite repeat_length; exact Ht). rewrite Er in Q. exact Q. }
  destruct (f_x R) as [|x xs] eqn:Ex; [discriminate E|]. rewrite (affine_mode sp Hm), Hdc in E.
  assert (Q : forall uc lc, fkept sp z m (mk_full x uc (op (f_wu R)) (op (f_bu R)) lc (op (f_wl R)) (op (f_bl R)) empty_tensor empty_tensor)).
  { intros uc lc. split.
    - intros _ j Hj. cbn [f_wu f_bu f_wl f_bl]. split.
      + rewrite !Hop by congruence. f_equal. rewrite L2, L4. apply rsum_ext. intros t Ht. destruct (K' t Ht) as [X _]. destruct (X eq_refl j Hj) as [Xb _]. exact Xb.
      + intros i Hi. rewrite !Hop by congruence. f_equal. rewrite L1, L3. apply rsum_ext. intros t Ht. destruct (K' t Ht) as [X _]. destruct (X eq_refl j Hj) as [_ Xw]. exact (Xw i Hi).
    - destruct (K' 0%nat ltac:(cbn; lia)) as [_ X]. unfold rowd in X. cbn [f_x] in X. rewrite Ex in X. exact X. }
  destruct (get_ibp (sp_mode sp)); injection E; intros <-; exact (kept_out sp z m _ false Hm (Q _ _)).
Qed.

Lemma add_kept : forall sp z m ls out, sp_mode sp <> IBP -> sp_dc sp = false ->
  (forall l, In l ls -> length l = nb_tensors (sp_mode sp) false) -> ls <> [] ->
  Forall2 (kept sp z) (repeat m (length ls)) ls -> decomon_add sp (concat ls) = Ok out -> kept sp z m out.
Proof.
  intros sp z m ls out Hm Hdc Hl Hne HF E. apply (reduce_kept sp z m 1 sum_t ls out Hm Hdc); auto. intros l i j _. rewrite sum_t_rsum. lra.
Qed.
Lemma average_kept : forall sp z m ls out, sp_mode sp <> IBP -> sp_dc sp = false ->
  (forall l, In l ls -> length l = nb_tensors (sp_mode sp) false) -> ls <> [] ->
  Forall2 (kept sp z) (repeat m (length ls)) ls -> decomon_average sp (concat ls) = Ok out -> kept sp z m out.
Proof.
  intros sp z m ls out Hm Hdc Hl Hne HF E. apply (reduce_kept sp z m (/ INR (length ls)) avg_t ls out Hm Hdc); auto.
  intros l i j El. unfold avg_t. rewrite sum_t_rsum, El. unfold Rdiv. lra.
Qed.

Lemma subtract_kept : forall sp z m a b out, sp_mode sp <> IBP -> kept sp z m a -> kept sp z m b -> subtract sp a b = Ok out -> kept sp z m out.
Proof.
  intros sp z m a b out Hm Ha Hb E. unfold subtract in E. apply bind_ok in E as (mb & Em & E).
  unfold minus in Em. apply bind_ok in Em as (r & Er & Em). injection Em; intros <-.
  pose proof (kept_in _ _ _ _ _ _ _ Hm Hb Er) as [X Ex].
  assert (Km : kept sp z m (extract (sp_mode sp) (sp_dc sp) (minus_full r))).
  { apply kept_out; [exact Hm|]. split; [|exact Ex]. intros _ j Hj. destruct (X eq_refl j Hj) as [Xb Xw]. cbn [minus_full f_wu f_bu f_wl f_bl].
    split; [rewrite Xb; reflexivity|]. intros i Hi. rewrite Xw by exact Hi. reflexivity. }
  unfold add in E. apply bind_ok in E as (r0 & Er0 & E). apply bind_ok in E as (r1 & Er1 & E). injection E; intros <-.
  pose proof (kept_in _ _ _ _ _ _ _ Hm Ha Er0) as [X0 Ex0]. pose proof (kept_in _ _ _ _ _ _ _ Hm Km Er1) as [X1 Ex1].
  apply kept_out; [exact Hm|]. split; [|exact Ex0]. intros _ j Hj. destruct (X0 eq_refl j Hj) as [Xb Xw]. destruct (X1 eq_refl j Hj) as [Yb Yw].
  cbn [add_full f_wu f_bu f_wl f_bl]. split; [rewrite Xb, Yb; reflexivity|]. intros i Hi. rewrite Xw, Yw by exact Hi. reflexivity.
Qed.

Lemma cat_kept : forall sp z pre post ks axis ls out, sp_mode sp <> IBP -> sp_dc sp = false -> axis_ok (sp_mode sp) pre post axis -> ks <> [] ->
  (forall l, In l ls -> length l = nb_tensors (sp_mode sp) false) ->
  Forall2 (kept sp z) (map (fun k => prodn (pre ++ k :: post)) ks) ls ->
  decomon_concatenate sp (cat_shapes pre post ks) axis (concat ls) = Ok out -> kept sp z (prodn (pre ++ total ks :: post)) out.
Proof.
  intros sp z pre post ks axis ls out Hm Hdc Hax Hne Hl HF E. pose proof (affine_mode sp Hm) as Ha.
  pose proof (Forall2_length' _ _ _ _ _ HF) as HL. rewrite map_length in HL.
  unfold decomon_concatenate in E. apply bind_ok in E as (R & ER & E).
  destruct (kept_rows sp z _ ls R Hm Hdc Hl HF ER) as (Lx & L1 & L2 & L3 & L4 & K).
  destruct ks as [|k0 ks']; [congruence|]. set (ks := k0 :: ks') in *.
  assert (E0 : nth 0 (cat_shapes pre post ks) [] = pre ++ k0 :: post) by reflexivity.
  rewrite E0 in E. rewrite (axis_ok_b _ pre k0 post axis Hax) in E. cbn [bind] in E. rewrite Ha in E.
  rewrite (axis_ok_w _ pre k0 post axis Hax Ha) in E. cbn [bind] in E. rewrite cat_lens_mid, ax_inner_mid in E.
  unfold finish in E. rewrite Hdc in E. injection E; intros <-. clear E. cbn [when].
  assert (Hpos : (0 < length ls)%nat) by (rewrite <- HL; cbn; lia).
  assert (K' : forall t, (t < length ls)%nat -> fkept sp z (prodn (pre ++ nth t ks O :: post)) (rowd R t)).
  { intros t Ht. pose proof (K t Ht) as Q. rewrite (nth_indep _ O ((fun k => prodn (pre ++ k :: post)) O)) in Q by (rewrite map_length, HL; exact Ht).
    rewrite (map_nth (fun k => prodn (pre ++ k :: post)) ks O t) in Q. exact Q. }
  apply kept_out; [exact Hm|]. split; [|destruct (K' 0%nat Hpos) as [_ X]; exact X].
  intros _ j Hj. cbn [f_wu f_bu f_wl f_bl].
  destruct (P_Sort.position_split_mid _ _ _ _ Hj) as (p & c0 & q & Ip & Hc & Iq & ->).
  destruct (locate_split ks c0 Hc) as (t & c & Ht & Hc' & ->).
  destruct (K' t ltac:(rewrite <- HL; exact Ht)) as [X _].
  destruct (X eq_refl _ (position_mid_lt pre (nth t ks O) post p c q Ip Iq Hc')) as [Xb Xw].
  rewrite !(cat_at pre post ks) by auto. split; [exact Xb|]. intros i Hi. rewrite !(cat_at pre post ks) by auto. exact (Xw i Hi).
Qed.

(** ** layers that compute an affine function *)
Definition nl_affine (L : nlayer) : Prop :=
  match L with
  | NDense _ _ _ _ _ | NConv2D _ _ _ | NBatchNorm _ _ _ _ _ _ _ _ _ | NFlatten _ _ _ | NReshape _ | NPermute _ _ | NDropout _
  | NAdd _ _ | NAverage _ _ | NSubtract _ | NConcatenate _ _ _ _ => True
  | NActivation a _ => a = Alinear
  | _ => False
  end.

Lemma nl_affine_free : forall fast L, nl_affine L -> nl_free fast L.
Proof. intros fast L H. destruct L; cbn in *; auto; contradiction. Qed.

Lemma kept_one : forall sp z m tss, Forall2 (kept sp z) [m] tss -> kept sp z m (concat tss).
Proof. intros sp z m tss H. inversion H as [|? ts ? q K H']; subst. inversion H'; subst. cbn. rewrite app_nil_r. exact K. Qed.

Lemma repeat_kept : forall sp z m k tss, (0 < k)%nat -> Forall2 (kept sp z) (repeat m k) tss -> tss <> [] /\ Forall2 (kept sp z) (repeat m (length tss)) tss.
Proof.
  intros sp z m k tss Hk H. pose proof (Forall2_length' _ _ _ _ _ H) as L. rewrite repeat_length in L. subst k. split; [intros ->; cbn in Hk; lia|exact H].
Qed.

Lemma layer_kept : forall ke sp o L z tss out, sp_mode sp <> IBP -> dom_ok (sp_dom sp) (sp_mode sp) -> sp_dc sp = false ->
  nl_ok (sp_mode sp) (lo_fast o) L -> nl_affine L -> Forall2 (kept sp z) (nl_in L) tss ->
  (forall l, In l tss -> length l = nb_tensors (sp_mode sp) false) ->
  decomon_layer ke sp o L (concat tss) = Ok out -> kept sp z (nl_out L) out.
Proof.
  intros ke sp o L z tss out Hm Hd Hdc Hok Haf HF Hl E.
  destruct L; cbn [nl_in nl_out nl_ok nl_affine decomon_layer] in *; try contradiction.
  - eapply dense_kept; eauto using kept_one.
  - eapply conv_kept; eauto using kept_one.
  - eapply bn_kept; eauto using kept_one.
  - destruct Hok as [Q| ->]; [contradiction|]. apply kept_one in HF. unfold decomon_flatten in E. apply bind_ok in E as (r & Er & E). injection E; intros <-.
    eapply (move_kept sp z false true (ch * size) (ch * size) (fun j => j)); eauto.
  - apply kept_one in HF. unfold decomon_reshape in E. apply bind_ok in E as (r & Er & E). injection E; intros <-.
    eapply (move_kept sp z false true m m (fun j => j)); eauto.
  - apply kept_one in HF. unfold decomon_permute in E. apply bind_ok in E as (r & Er & E). injection E; intros <-.
    apply dims_perm in Hok. eapply (move_kept sp z false true (prodn s) _ (transpose_idx s (map pred dims))); eauto.
    intros j Hj. apply transpose_lt; auto.
  - apply kept_one in HF. unfold decomon_dropout in E. cbn in E. injection E; intros <-. exact HF.
  - subst a. apply kept_one in HF. cbn in E. injection E; intros <-. exact HF.
  - destruct (repeat_kept _ _ _ _ _ Hok HF) as [Hne HF']. eapply add_kept; eauto.
  - destruct (repeat_kept _ _ _ _ _ Hok HF) as [Hne HF']. eapply average_kept; eauto.
  - unfold decomon_subtract in E. rewrite Hdc in E. inversion HF as [|? a ? q Ka HF']; subst. inversion HF' as [|? b ? q' Kb HF'']; subst. inversion HF''; subst.
    rewrite split_to_merge_concat in E by (exact Hl || (destruct (sp_mode sp); cbn; lia)). eapply subtract_kept; [exact Hm|exact Ka|exact Kb|exact E].
  - destruct Hok as [Hks Ha]. eapply cat_kept; eauto.
Qed.

(** ** networks *)
Definition exact_on (D : domain) (n m : nat) (z : tensor) (mode : fmode) (f : vec -> vec) (ts : list tensor) : Prop :=
  let extrema (u l : tensor) := forall j, (j < m)%nat ->
    is_max (in_dom D n z) (fun y => f y j) (u 0%nat j) /\ is_min (in_dom D n z) (fun y => f y j) (l 0%nat j) in
  let same (w b : tensor) := forall y j, in_dom D n z y -> (j < m)%nat -> aff n w (b 0%nat) y j = f y j in
  match mode, ts with
  | IBP, [u; l] => extrema u l
  | AFFINE, [x; wu; bu; wl; bl] => x = z /\ same wu bu /\ same wl bl
  | HYBRID, [x; u; wu; bu; l; wl; bl] => x = z /\ same wu bu /\ same wl bl /\ extrema u l
  | _, _ => False
  end.

Lemma aff_same : forall n w w' (b b' : vec) y j, b j = b' j -> (forall i, (i < n)%nat -> w i j = w' i j) -> aff n w b y j = aff n w' b' y j.
Proof. intros n w w' b b' y j Eb Ew. unfold aff. rewrite Eb. f_equal. apply dot_ext; auto. Qed.

(** soundness and equal weights: the affine bounds are the function *)
Lemma sandwich : forall n m (X : vec -> Prop) f (wu bu wl bl : tensor),
  (forall y j, X y -> (j < m)%nat -> aff n wl (bl 0%nat) y j <= f y j <= aff n wu (bu 0%nat) y j) ->
  (forall j, (j < m)%nat -> bu 0%nat j = bl 0%nat j /\ forall i, (i < n)%nat -> wu i j = wl i j) ->
  forall y j, X y -> (j < m)%nat -> aff n wu (bu 0%nat) y j = f y j /\ aff n wl (bl 0%nat) y j = f y j.
Proof.
  intros n m X f wu bu wl bl H E y j Hy Hj. destruct (E j Hj) as [Eb Ew]. specialize (H y j Hy Hj).
  pose proof (aff_same n wu wl (bu 0%nat) (bl 0%nat) y j Eb Ew). lra.
Qed.

Lemma max_on : forall (X : vec -> Prop) (g f : vec -> R) M, (forall y, X y -> g y = f y) -> is_max X g M -> is_max X f M.
Proof. intros X g f M E [H1 (y & Hy & H2)]. split; [intros y' Hy'; rewrite <- E by exact Hy'; auto|]. exists y. split; [exact Hy|]. rewrite <- E by exact Hy. exact H2. Qed.
Lemma min_on : forall (X : vec -> Prop) (g f : vec -> R) M, (forall y, X y -> g y = f y) -> is_min X g M -> is_min X f M.
Proof. intros X g f M E [H1 (y & Hy & H2)]. split; [intros y' Hy'; rewrite <- E by exact Hy'; auto|]. exists y. split; [exact Hy|]. rewrite <- E by exact Hy. exact H2. Qed.

Lemma kept_convert : forall D n m z mode final f ts out, (0 < n)%nat -> norm_ok D -> dom_nonempty D n z -> mode <> IBP ->
  valid D mode false (in_dom D n z) n m f ts -> kept (mk_spec false mode D n) z m ts -> convert2mode D n mode final ts = Ok out ->
  exact_on D n m z final f out.
Proof.
  intros D n m z mode final f ts out Hn HD Hne Hm [HL V] [Kw Kx] E. cbn [sp_mode sp_n] in Kw. destruct mode; [contradiction| |].
  - destruct ts as [|x [|wu [|bu [|wl [|bl [|]]]]]]; try discriminate HL. cbn in Kx. subst x. destruct V as [_ V].
    pose proof (sandwich n m (in_dom D n z) f wu bu wl bl V Kw) as Q.
    destruct (convert2mode_affine D n final z wu bu wl bl [] Hn HD Hne) as (u' & l' & Hu & Hl & Ec). rewrite Ec in E.
    assert (HX : forall j, (j < m)%nat -> is_max (in_dom D n z) (fun y => f y j) (u' 0%nat j) /\ is_min (in_dom D n z) (fun y => f y j) (l' 0%nat j)).
    { intros j Hj. destruct (Hu j) as (M & H1 & E1). destruct (Hl j) as (M' & H2 & E2). cbn in E1, E2. rewrite E1, E2.
      split; [eapply max_on; [|exact H1]|eapply min_on; [|exact H2]]; intros y Hy; apply (Q y j Hy Hj). }
    destruct final; injection E as <-; cbn [exact_on]; repeat split; try (apply HX; assumption); intros; apply Q; assumption.
  - destruct ts as [|x [|u [|wu [|bu [|l [|wl [|bl [|]]]]]]]]; try discriminate HL. cbn in Kx. subst x. destruct V as (_ & C & V).
    pose proof (sandwich n m (in_dom D n z) f wu bu wl bl V Kw) as Q.
    destruct (convert2mode_hybrid D n final z u wu bu l wl bl [] Hn HD Hne) as (u' & l' & Hu & Hl & Ec). rewrite Ec in E.
    assert (HX : forall j, (j < m)%nat -> is_max (in_dom D n z) (fun y => f y j) (u' 0%nat j) /\ is_min (in_dom D n z) (fun y => f y j) (l' 0%nat j)).
    { intros j Hj. destruct (Hu j) as (M & H1 & E1). destruct (Hl j) as (M' & H2 & E2). cbn in E1, E2.
      assert (Q1 : is_max (in_dom D n z) (fun y => f y j) M) by (eapply max_on; [|exact H1]; intros y Hy; apply (Q y j Hy Hj)).
      assert (Q2 : is_min (in_dom D n z) (fun y => f y j) M') by (eapply min_on; [|exact H2]; intros y Hy; apply (Q y j Hy Hj)).
      rewrite E1, E2. destruct Q1 as [Q1 (y1 & Hy1 & F1)]. destruct Q2 as [Q2 (y2 & Hy2 & F2)].
      pose proof (C y1 j Hy1 Hj). pose proof (C y2 j Hy2 Hj).
      rewrite Rmin_right, Rmax_right by lra. split; (split; [assumption|eauto]). }
    destruct final; injection E as <-; cbn [exact_on]; repeat split; try (apply HX; assumption); intros; apply Q; assumption.
Qed.

Lemma evaluates_kept : forall ke sp opts net its vs z, (0 < sp_n sp)%nat -> sp_mode sp <> IBP -> dom_ok (sp_dom sp) (sp_mode sp) -> sp_dc sp = false -> net_ok (sp_n sp) net ->
  (forall i L ps, nth_error net i = Some (Some L, ps) -> nl_ok (sp_mode sp) (lo_fast (opts i)) L /\ nl_affine L) ->
  kept sp z (sp_n sp) its -> evaluates (decomon_net ke sp opts net) no_map its vs ->
  (forall i, (i < length net)%nat -> length (vs i) = nb_tensors (sp_mode sp) false) ->
  forall i, (i < length net)%nat -> kept sp z (net_dim (sp_n sp) net i) (vs i).
Proof.
  intros ke sp opts net its vs z Hn Hm Hd Hdc Hnet Hlay Hits He Hlen i. induction i as [i IH] using (well_founded_induction lt_wf). intros Hi.
  destruct (nth_error net i) as [[o ps]|] eqn:En; [|apply nth_error_None in En; lia]. destruct (Hnet i o ps En) as [Hp Ho].
  pose proof (He i _ (net_node ke sp opts net Hn i o ps En)) as E. unfold no_map, node_out in E. cbn [fn_kind fn_parents] in E.
  unfold net_dim at 1. rewrite En. destruct o as [L|].
  - destruct Ho as [Hps Hdim]. destruct (Hlay i L ps En) as [Hok Haf].
    assert (E' : decomon_layer ke sp (opts i) L (concat (map vs ps)) = Ok (vs i)) by (destruct ps; [contradiction|exact E]).
    refine (layer_kept ke sp (opts i) L z (map vs ps) (vs i) Hm Hd Hdc Hok Haf _ _ E').
    + rewrite <- Hdim. apply Forall2_map_map. intros p Q. apply IH; [apply Hp; exact Q|]. specialize (Hp p Q). lia.
    + intros l Hl. apply in_map_iff in Hl as (p & <- & Q). apply Hlen. specialize (Hp p Q). lia.
  - subst ps. injection E as <-. exact Hits.
Qed.

Lemma single_eval : forall ke sp opts net its vs o, (0 < sp_n sp)%nat -> net_ok (sp_n sp) net -> single_output net o -> evaluates (decomon_net ke sp opts net) no_map its vs ->
  convert_forward (decomon_net ke sp opts net) [o] no_map its = Ok (vs o).
Proof.
  intros ke sp opts net its vs o Hn Hnet [Ho Hall] He. set (g := decomon_net ke sp opts net) in *.
  pose proof (net_acyclic sp net Hnet) as Hna. destruct (longest_path_exists _ Hna) as [lv Hlv].
  assert (Hpar : parents_of g = map snd net) by (apply net_parents; exact Hn).
  assert (Hacy : acyclic (parents_of g)) by (rewrite Hpar; exact Hna).
  assert (Hlv' : longest_path (parents_of g) lv) by (rewrite Hpar; exact Hlv).
  assert (Hdp : deepest (parents_of g) lv o).
  { rewrite Hpar. apply ancestors_deepest; [exact Hlv|rewrite map_length; exact Ho|]. rewrite map_length. exact Hall. }
  assert (Ho' : (o < length g)%nat) by (unfold g; rewrite net_length by exact Hn; exact Ho).
  assert (Hg : g <> []) by (intros Q; rewrite Q in Ho'; cbn in Ho'; lia).
  pose proof (topo_acyclic _ g Hacy) as Ht.
  assert (Hsrc : forall i nod, nth_error g i = Some nod -> fn_parents nod = [] -> fn_kind nod = KInput).
  { intros i nod En Ep. destruct (net_node_inv ke sp opts net Hn i nod En) as (q & ps & Ei & ->). destruct q as [L|]; [|reflexivity]. destruct (Hnet i (Some L) ps Ei) as [_ [Q _]]. contradiction. }
  assert (Hf : filter (deepestb g lv) [o] = [o]) by (cbn; rewrite (deepest_b _ g lv o Hdp); reflexivity).
  assert (Eo : output_nodes g [o] = Ok [o]).
  { rewrite <- Hf at 2. apply output_nodes_ok; auto; [apply net_unshared; exact Hn|]. intros o' [<-|[]]. exact Ho'. }
  replace (vs o) with (concat (map vs [o])) by (cbn [map concat]; apply app_nil_r).
  apply (convert_forward_eval tensor g no_map its vs [o] [o]); auto; [intros i Q; exfalso; apply Q; reflexivity|].
  intros o' [<-|[]]. exact Ho'.
Qed.

Lemma dom_inhabited : forall D n z, (0 < n)%nat -> norm_ok D -> dom_nonempty D n z -> exists y, in_dom D n z y.
Proof.
  intros D n z Hn HD Hne. destruct (get_upper_ok D n z (fun _ _ => 0) (fun _ => 0) HD) as [r Er].
  destruct (get_upper_max D n z _ _ r 0%nat Hn Hne Er) as [_ (y & Hy & _)]. eauto.
Qed.

Lemma net_forward_exact : forall ke D n mode final z opts net v o,
  0 < ke -> (0 < n)%nat -> norm_ok D -> mode <> IBP -> dom_nonempty D n z ->
  net_ok n net -> net_value net v -> layers_ok mode opts net -> single_output net o ->
  (forall i L ps, nth_error net i = Some (Some L, ps) -> nl_affine L) ->
  exists ts, clone_forward D n mode final (decomon_net ke (mk_spec false mode D n) opts net) [o] z = Ok ts /\
    exact_on D n (net_dim n net o) z final (v o) ts.
Proof.
  intros ke D n mode final z opts net v o Hke Hn HD Hm Hne Hnet Hval Hlay Ho Haf. set (sp := mk_spec false mode D n).
  assert (Hdok : dom_ok D mode) by (destruct mode; cbn; auto).
  destruct (input_tensors_ok D mode n z Hn (fun _ => HD)) as (its & Ei & Vi).
  assert (Hex : exists y, in_dom D n z y) by (apply dom_inhabited; assumption).
  destruct (net_eval ke sp opts net v Hke Hn Hdok eq_refl Hnet Hval Hlay (in_dom D n z) its Vi (or_intror Hex)) as (vs & He & Hs).
  { intros i L ps vs En _. apply nl_free_gaps, nl_affine_free. exact (Haf i L ps En). }
  assert (Hs' : forall i, (i < length net)%nat -> op_sp sp (in_dom D n z) (net_dim n net i) (v i) (vs i)) by (intros i Hi; apply Hs; rewrite net_length by exact Hn; exact Hi).
  assert (Kits : kept sp z n its).
  { pose proof (its_form D mode n z its Ei) as Q. unfold sp. destruct mode; [contradiction|subst its|destruct Q as (u & l & ->)]; (split; [|reflexivity]); cbn; auto. }
  pose proof (evaluates_kept ke sp opts net its vs z Hn Hm Hdok eq_refl Hnet (fun i L ps En => conj (proj1 (Hlay i L ps En)) (Haf i L ps En)) Kits He
    (fun i Hi => eq_trans (proj1 (Hs' i Hi)) (eq_sym (nb_tensors_spec mode false))) o (proj1 Ho)) as Ko.
  unfold clone_forward. rewrite Ei. cbn [bind]. change (fun _ : nat => None) with (@no_map tensor).
  rewrite (single_eval ke sp opts net its vs o Hn Hnet Ho He). cbn [bind].
  destruct (convert2mode_sound D n mode final (in_dom D n z) (net_dim n net o) (v o) (vs o) Hn Hdok ltac:(intros; contradiction) (Hs' o (proj1 Ho))) as (out & Eo & _).
  exists out. split; [exact Eo|]. exact (kept_convert D n _ z mode final (v o) (vs o) out Hn HD Hne Hm (Hs' o (proj1 Ho)) Ko Eo).
Qed.
