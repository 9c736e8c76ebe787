(** Soundness of the backward pass up to an error. *)
From Coq Require Import Reals Lra Lia Psatz List Arith Bool ZArith Permutation.
From Verif Require Import RLib Spec Spec_Layers Spec_Backward Spec_Convert Spec_Near M_Core M_Utils M_MergeLayers M_Ops M_Layers M_Pool M_Backward M_Crown M_Convert M_Network.
From Verif Require Import P_Core P_CoreThm P_Merge P_Utils P_MergeLayers P_Axis P_Ops P_Sort P_Layers P_Move P_Pool P_Backward P_BackwardOps P_BackwardMore P_Crown P_BackwardThm
  P_Graph P_Convert P_ConvertThm P_Network P_NetworkSpec P_NetworkCrown P_NetworkForward P_Near.
From Verif Require Import Spec_Network.
Import ListNotations.
Local Open Scope R_scope.

Definition relaxes_e (Y : vec -> Prop) (n m : nat) (e : R) (f : vec -> vec) (B : bb) : Prop :=
  affine_near Y n m e f (bb_wu B) (bb_bu B) (bb_wl B) (bb_bl B).
(** sums of the absolute values of the columns *)
Definition cols (n m : nat) (N : R) (B : bb) : Prop :=
  forall j, (j < m)%nat -> rsum n (fun i => Rabs (bb_wu B i j)) <= N /\ rsum n (fun i => Rabs (bb_wl B i j)) <= N.

Lemma relaxes_e_weaken : forall (Y : vec -> Prop) n m e e' f f' B, e <= e' -> (forall y j, Y y -> (j < m)%nat -> f y j = f' y j) ->
  relaxes_e Y n m e f B -> relaxes_e Y n m e' f' B.
Proof. intros Y n m e e' f f' B He Ef H y j Hy Hj. specialize (H y j Hy Hj). rewrite <- (Ef y j Hy Hj). lra. Qed.

Lemma term_upper : forall w v u l e, 0 <= e -> l - e <= v <= u + e -> w * v <= Rmax w 0 * u + Rmin w 0 * l + Rabs w * e.
Proof.
  intros w v u l e He H. destruct (Rle_dec 0 w).
  - rewrite Rmax_left, Rmin_right, Rabs_pos_eq by lra. nra.
  - rewrite Rmax_right, Rmin_left, Rabs_left by lra. nra.
Qed.
Lemma term_lower : forall w v u l e, 0 <= e -> l - e <= v <= u + e -> Rmax w 0 * l + Rmin w 0 * u - Rabs w * e <= w * v.
Proof.
  intros w v u l e He H. destruct (Rle_dec 0 w).
  - rewrite Rmax_left, Rmin_right, Rabs_pos_eq by lra. nra.
  - rewrite Rmax_right, Rmin_left, Rabs_left by lra. nra.
Qed.

Lemma merge_near : forall (S T : vec -> Prop) n h k e d N f g B C, 0 <= e ->
  relaxes_e S n h e f B -> relaxes_e T h k d g C -> cols h k N C -> (forall z, S z -> T (f z)) ->
  relaxes_e S n k (d + N * e) (fun z => g (f z)) (merge_bb h B C).
Proof.
  intros S T n h k e d N f g B C He HB HC HN HT z j Hz Hj. unfold merge_bb, merge_with_previous. cbn [bb_wu bb_bu bb_wl bb_bl full_w]. rewrite !comp_aff.
  destruct (HC (f z) j (HT z Hz) Hj) as [C1 C2]. unfold aff at 1 in C1. unfold aff at 1 in C2. unfold dot in C1, C2. destruct (HN j Hj) as [N1 N2].
  assert (E1 : rsum h (fun i => Rabs (bb_wu C i j)) * e <= N * e) by (apply Rmult_le_compat_r; assumption).
  assert (E2 : rsum h (fun i => Rabs (bb_wl C i j)) * e <= N * e) by (apply Rmult_le_compat_r; assumption).
  split.
  - assert (Q : rsum h (fun k0 => mpos (bb_wl C) k0 j * aff n (bb_wl B) (bb_bl B) z k0 + mneg (bb_wl C) k0 j * aff n (bb_wu B) (bb_bu B) z k0) -
      rsum h (fun i => Rabs (bb_wl C i j) * e) <= rsum h (fun i => bb_wl C i j * f z i)).
    { apply rsum_sub_le. intros i Hi. unfold mpos, mneg. apply (term_lower (bb_wl C i j) (f z i)); [exact He|exact (HB z i Hz Hi)]. }
    rewrite rsum_scal_r in Q. lra.
  - assert (Q : rsum h (fun i => bb_wu C i j * f z i) <= rsum h (fun k0 => mpos (bb_wu C) k0 j * aff n (bb_wu B) (bb_bu B) z k0 + mneg (bb_wu C) k0 j * aff n (bb_wl B) (bb_bl B) z k0) +
      rsum h (fun i => Rabs (bb_wu C i j) * e)).
    { apply rsum_le_add. intros i Hi. unfold mpos, mneg. apply (term_upper (bb_wu C i j) (f z i)); [exact He|exact (HB z i Hz Hi)]. }
    rewrite rsum_scal_r in Q. lra.
Qed.

Lemma rsum_abs_le : forall n f, Rabs (rsum n f) <= rsum n (fun i => Rabs (f i)).
Proof. intros n f. induction n; cbn; [rewrite Rabs_R0; lra|]. eapply Rle_trans; [apply Rabs_triang|]. lra. Qed.

Lemma pn_abs : forall w, Rabs (Rmax w 0) + Rabs (Rmin w 0) = Rabs w.
Proof.
  intros w. destruct (Rle_dec 0 w).
  - rewrite Rmax_left, Rmin_right, Rabs_R0 by lra. lra.
  - rewrite Rmax_right, Rmin_left, Rabs_R0 by lra. lra.
Qed.

Lemma comp_cols : forall n h (a c p : mat) G N j, 0 <= G ->
  (forall k, (k < h)%nat -> rsum n (fun i => Rabs (a i k)) <= G /\ rsum n (fun i => Rabs (c i k)) <= G) ->
  rsum h (fun k => Rabs (p k j)) <= N ->
  rsum n (fun i => Rabs (mm h a (mpos p) i j + mm h c (mneg p) i j)) <= N * G.
Proof.
  intros n h a c p G N j HG Hc HN.
  apply Rle_trans with (rsum n (fun i => rsum h (fun k => Rabs (a i k) * Rabs (Rmax (p k j) 0) + Rabs (c i k) * Rabs (Rmin (p k j) 0)))).
  - apply rsum_le. intros i _. unfold mm, mpos, mneg. rewrite <- rsum_plus. eapply Rle_trans; [apply rsum_abs_le|]. apply rsum_le. intros k _.
    eapply Rle_trans; [apply Rabs_triang|]. rewrite !Rabs_mult. lra.
  - rewrite rsum_swap. apply Rle_trans with (rsum h (fun k => Rabs (p k j) * G)).
    + apply rsum_le. intros k Hk. rewrite rsum_plus, !rsum_scal_r. destruct (Hc k Hk) as [H1 H2]. rewrite <- (pn_abs (p k j)).
      pose proof (Rabs_pos (Rmax (p k j) 0)). pose proof (Rabs_pos (Rmin (p k j) 0)). nra.
    + rewrite rsum_scal_r. apply Rmult_le_compat_r; assumption.
Qed.

Lemma merge_cols : forall n h k G N B C, 0 <= G -> cols n h G B -> cols h k N C -> cols n k (N * G) (merge_bb h B C).
Proof.
  intros n h k G N B C HG HB HC j Hj. destruct (HC j Hj) as [C1 C2]. unfold merge_bb, merge_with_previous. cbn [bb_wu bb_bu bb_wl bb_bl full_w].
  split; apply comp_cols; auto; intros i Hi; destruct (HB i Hi); auto.
Qed.

(** ** from exact maps *)
Definition lip (m k : nat) (G : R) (f : vec -> vec) : Prop :=
  forall y y' e, 0 <= e -> (forall i, (i < m)%nat -> Rabs (y i - y' i) <= e) -> forall j, (j < k)%nat -> Rabs (f y j - f y' j) <= G * e.

Definition sgn1 (x : R) : R := if Rle_dec 0 x then 1 else -1.
Lemma map_cols : forall m k f G B, is_map m k f B -> lip m k G f -> cols m k G B.
Proof.
  intros m k f G B HB HL j Hj.
  assert (Q : forall w b, (forall y, aff m w b y j = f y j) -> rsum m (fun i => Rabs (w i j)) <= G).
  { intros w b H. set (y := fun i => sgn1 (w i j)).
    assert (L : Rabs (f y j - f (fun _ => 0) j) <= G * 1).
    { apply HL; [lra| |exact Hj]. intros i _. unfold y, sgn1. destruct (Rle_dec 0 (w i j)); rewrite Rminus_0_r; [rewrite Rabs_pos_eq by lra|rewrite Rabs_left by lra]; lra. }
    rewrite <- !H in L. unfold aff, dot in L.
    rewrite (rsum_ext m (fun i => w i j * 0) (fun _ => 0)) in L by (intros; ring). rewrite (rsum_eq0 m (fun _ => 0)) in L by auto.
    rewrite (rsum_ext m (fun i => w i j * y i) (fun i => Rabs (w i j))) in L.
    - replace (rsum m (fun i => Rabs (w i j)) + b j - (0 + b j)) with (rsum m (fun i => Rabs (w i j))) in L by ring.
      pose proof (Rle_abs (rsum m (fun i => Rabs (w i j)))). lra.
    - intros i _. unfold y, sgn1. destruct (Rle_dec 0 (w i j)); [rewrite Rabs_pos_eq by lra|rewrite Rabs_left by lra]; ring. }
  split; [apply (Q (bb_wu B) (bb_bu B))|apply (Q (bb_wl B) (bb_bl B))]; intros y; apply (HB y j Hj).
Qed.

Lemma rsum_abs_diff : forall n f g h, (forall i, (i < n)%nat -> Rabs (f i - g i) <= h i) -> Rabs (rsum n f - rsum n g) <= rsum n h.
Proof.
  intros n f g h H. induction n; cbn; [rewrite Rminus_0_r, Rabs_R0; lra|].
  replace (rsum n f + f n - (rsum n g + g n)) with ((rsum n f - rsum n g) + (f n - g n)) by ring. eapply Rle_trans; [apply Rabs_triang|].
  assert (Rabs (f n - g n) <= h n) by (apply H; lia). assert (Rabs (rsum n f - rsum n g) <= rsum n h) by (apply IHn; intros; apply H; lia). lra.
Qed.

Lemma lip_dense : forall rows d units kernel bias, (0 < units)%nat ->
  lip (rows * d) (rows * units) (rsum d (fun c => rsum units (fun u => Rabs (kernel c u)))) (keras_dense d units kernel bias).
Proof.
  intros rows d units kernel bias Hu y y' e He H j Hj. unfold keras_dense.
  match goal with |- Rabs (?a + ?b - (?c + ?b)) <= _ => replace (a + b - (c + b)) with (a - c) by ring end.
  rewrite <- rsum_scal_r. apply rsum_abs_diff. intros c Hc.
  assert (Hm : (j mod units < units)%nat) by (apply Nat.mod_upper_bound; lia).
  assert (Hp : (j / units < rows)%nat) by (apply Nat.div_lt_upper_bound; lia).
  rewrite <- Rmult_minus_distr_r, Rabs_mult. specialize (H (j / units * d + c)%nat ltac:(nia)).
  pose proof (rsum_ge_term units (fun u => Rabs (kernel c u)) (j mod units) ltac:(intros; apply Rabs_pos) Hm) as T. cbn beta in T.
  pose proof (Rabs_pos (kernel c (j mod units)%nat)). pose proof (Rabs_pos (y (j / units * d + c)%nat - y' (j / units * d + c)%nat)). nra.
Qed.

Lemma lip_conv : forall g kernel bias, lip (im_size (cg_in g)) (im_size (cg_out g)) (conv_gain g kernel) (keras_conv2d g kernel bias).
Proof.
  intros g kernel bias y y' e He H j Hj. unfold keras_conv2d.
  match goal with |- Rabs (?a + ?b - (?c + ?b)) <= _ => replace (a + b - (c + b)) with (a - c) by ring end.
  unfold conv2d, conv_gain. cbv zeta. pose proof (im_ch_lt _ _ Hj) as Hch. cbn [cg_out im_c] in Hch.
  rewrite <- rsum_scal_r. apply rsum_abs_diff. intros ky _. rewrite <- rsum_scal_r. apply rsum_abs_diff. intros kx _.
  rewrite <- rsum_scal_r. apply rsum_abs_diff. intros c Hc.
  pose proof (rsum_ge_term (cg_cout g) (fun f => Rabs (kernel ky kx c f)) (im_ch (cg_out g) j) ltac:(intros; apply Rabs_pos) Hch) as T. cbn beta in T.
  set (s := px_src _ _ _ _ _ _ _ _ _).
  assert (P : Rabs (px y s - px y' s) <= e).
  { destruct s as [i|] eqn:Es; cbn [px]; [|rewrite Rminus_0_r, Rabs_R0; exact He]. apply H. apply (px_src_lt _ _ _ _ _ _ _ _ _ _ Hc Es). }
  rewrite <- Rmult_minus_distr_l, Rabs_mult. pose proof (Rabs_pos (kernel ky kx c (im_ch (cg_out g) j))). pose proof (Rabs_pos (px y s - px y' s)). nra.
Qed.

Lemma lip_move : forall m k idx, (forall j, (j < k)%nat -> (idx j < m)%nat) -> lip m k 1 (fun y j => y (idx j)).
Proof. intros m k idx H y y' e He Hy j Hj. specialize (Hy (idx j) (H j Hj)). lra. Qed.

Lemma lip_bn : forall pre k post gamma beta mean var eps, (forall c, (c < k)%nat -> 0 < var c + eps) ->
  lip (prodn (pre ++ k :: post)) (prodn (pre ++ k :: post)) (rsum k (fun c => Rabs (opt_vec 1 gamma c) / sqrt (var c + eps)))
    (fun y j => let c := nth (length pre) (unravel (pre ++ k :: post) j) O in opt_vec 1 gamma c * (y j - mean c) / sqrt (var c + eps) + opt_vec 0 beta c).
Proof.
  intros pre k post gamma beta mean var eps Hv y y' e He H j Hj. cbv zeta.
  destruct (position_split pre (k :: post) j Hj) as (p & q & Ip & Iq & Ej). destruct q as [|c q]; [inversion Iq|]. inversion Iq as [|? ? ? ? Hc Iq']; subst.
  assert (I : in_shape (pre ++ k :: post) (p ++ c :: q)) by (apply in_shape_app; auto; constructor; auto).
  rewrite (unravel_ravel _ _ I). rewrite (nth_len p q c (length pre)) by (symmetry; apply in_shape_length; exact Ip).
  assert (Hs : 0 < sqrt (var c + eps)) by (apply sqrt_lt_R0; auto).
  set (jj := ravel (pre ++ k :: post) (p ++ c :: q)) in *.
  replace (opt_vec 1 gamma c * (y jj - mean c) / sqrt (var c + eps) + opt_vec 0 beta c - (opt_vec 1 gamma c * (y' jj - mean c) / sqrt (var c + eps) + opt_vec 0 beta c))
    with (opt_vec 1 gamma c / sqrt (var c + eps) * (y jj - y' jj)) by (field; lra).
  rewrite Rabs_mult. unfold Rdiv at 1. rewrite Rabs_mult, (Rabs_pos_eq (/ sqrt (var c + eps))) by (left; apply Rinv_0_lt_compat; exact Hs).
  pose proof (rsum_ge_term k (fun c => Rabs (opt_vec 1 gamma c) / sqrt (var c + eps)) c) as T. cbn beta in T.
  assert (P : forall c, (c < k)%nat -> 0 <= Rabs (opt_vec 1 gamma c) / sqrt (var c + eps)).
  { intros c' Hc'. apply Rmult_le_pos; [apply Rabs_pos|]. left. apply Rinv_0_lt_compat. apply sqrt_lt_R0. auto. }
  specialize (T P Hc). specialize (P c Hc). specialize (H jj Hj). unfold Rdiv in *. pose proof (Rabs_pos (y jj - y' jj)). nra.
Qed.

(** ** local relaxations *)
Definition bwd_near (sp : spec) (L : layer) (e le G : R) (f : vec -> vec) : Prop :=
  forall (S : vec -> Prop) g ts, near_sp sp S (ly_in L) e g ts ->
    exists B, ly_bwd L ts = Ok B /\ relaxes_e (image S g) (ly_in L) (ly_out L) le f B /\ cols (ly_in L) (ly_out L) G B.

Lemma hull_relu_slopes : forall ke sl ft u l, 0 < ke -> (match ft with Some g => 0 <= g <= 1 | None => True end) ->
  let h := hull_relu ke sl ft u l in 0 <= h_wu h <= 1 /\ 0 <= h_wl h <= 1.
Proof.
  intros ke sl ft u l Hke Hft h. destruct (Rle_dec 0 l) as [Hl|Hl]; [unfold h; rewrite hull_relu_linear by auto; cbn; lra|].
  destruct (Rle_dec u 0) as [Hu|Hu]; [unfold h; rewrite hull_relu_dead by lra; cbn; lra|].
  destruct (hull_relu_near ke Hke sl ft u l 0 0 ltac:(lra) ltac:(lra) Hft) as (A & B & _). split; assumption.
Qed.

Lemma cols_diag : forall m a b c d N, (forall j, (j < m)%nat -> Rabs (a j) <= N /\ Rabs (c j) <= N) -> cols m m N (mk_bb (diag a) b (diag c) d).
Proof.
  intros m a b c d N H j Hj. cbn [bb_wu bb_wl]. unfold diag.
  assert (Q : forall v : vec, rsum m (fun i => Rabs (if Nat.eqb i j then v j else 0)) = Rabs (v j)).
  { intros v. rewrite (rsum_ext m _ (fun k => if Nat.eqb k j then (fun _ => Rabs (v j)) k else 0)).
    - apply (rsum_delta m j (fun _ => Rabs (v j)) Hj).
    - intros k _. destruct (Nat.eqb k j); [reflexivity|apply Rabs_R0]. }
  rewrite !Q. apply H. exact Hj.
Qed.

Lemma brelu_near : forall ke sp sl ft m e, 0 < ke -> (0 < sp_n sp)%nat -> dom_ok (sp_dom sp) (sp_mode sp) -> sp_dc sp = false ->
  ft_ok m (option_map snd ft) -> 0 <= e ->
  bwd_near sp (mk_layer m m (backward_activation ke sp ActRelu sl ft m) false) e (e + ke) 1 (fun y j => Rrelu (y j)).
Proof.
  intros ke sp sl ft m e Hke Hn Hd Hdc Hft He S f ts H. cbn [ly_in ly_out ly_bwd] in *.
  destruct (get_full_near sp true true S m e f ts Hn Hd Hdc H) as (r & E & C & _).
  unfold backward_activation, backward_relu. rewrite Hdc.
  destruct (Req_EM_T 0 0) as [_|N]; [|congruence]. rewrite E. cbn [bind]. eexists. split; [reflexivity|].
  rewrite orb_true_r in C. specialize (C eq_refl). split.
  - intros y j (z & Hz & ->) Hj. specialize (C z j Hz Hj). pose proof (ft_ok_at m _ j Hft Hj) as Fj.
    unfold hull_bb. cbn [bb_wu bb_bu bb_wl bb_bl]. rewrite !aff_diag by auto.
    match goal with |- context[hull_relu ke ?a ?b ?c ?d] => destruct (hull_relu_near ke Hke a b c d (f z j) e He C Fj) as (_ & _ & K1 & K2) end. lra.
  - unfold hull_bb. apply cols_diag. intros j Hj. pose proof (ft_ok_at m _ j Hft Hj) as Fj.
    match goal with |- context[hull_relu ke ?a ?b ?c ?d] => destruct (hull_relu_slopes ke a b c d Hke Fj) as (K1 & K2) end.
    rewrite !Rabs_pos_eq by (cbv zeta in *; lra). lra.
Qed.

Lemma exact_near : forall sp m k f (c : list tensor -> result bb) B e G, (forall ts, c ts = Ok B) -> is_map m k f B -> lip m k G f ->
  bwd_near sp (mk_layer m k c false) e 0 G f.
Proof.
  intros sp m k f c B e G E H HL S g ts _. exists B. cbn. split; [apply E|]. split; [|apply (map_cols m k f G B H HL)].
  intros y j _ Hj. destruct (H y j Hj) as [E1 E2]. unfold relaxes_e. rewrite E1, E2. lra.
Qed.

Lemma lip_id : forall m, lip m m 1 (fun y => y).
Proof. intros m. apply (lip_move m m (fun j => j)). auto. Qed.

Lemma bwd_layer_near : forall ke sp o L e, 0 < ke -> (0 < sp_n sp)%nat -> dom_ok (sp_dom sp) (sp_mode sp) -> sp_dc sp = false ->
  bl_ok L -> nl_piecewise L -> ft_ok (nl_out L) (option_map snd (bo_ft o)) -> 0 <= e ->
  exists le G, 0 <= le /\ 0 <= G /\ le + G * e <= Rmax 1 (nl_gain L) * (e + ke) /\ bwd_near sp (backward_layer ke sp o L) e le G (fun y => layer_fn L [y]).
Proof.
  intros ke sp o L e Hke Hn Hd Hdc Hok Hpw Hft He. unfold backward_layer.
  assert (LE : forall G, 0 <= G -> G <= Rmax 1 (nl_gain L) -> 0 + G * e <= Rmax 1 (nl_gain L) * (e + ke)).
  { intros G HG H. pose proof (Rmax_l 1 (nl_gain L)). nra. }
  pose proof (Rmax_l 1 (nl_gain L)) as M1. pose proof (Rmax_r 1 (nl_gain L)) as M2.
  destruct L; cbn [bl_ok] in Hok; try contradiction; cbn [nl_in nl_out nth backward_call].
  - exists 0, (rsum d (fun c => rsum units (fun u => Rabs (kernel c u)))).
    assert (P : 0 <= rsum d (fun c => rsum units (fun u => Rabs (kernel c u)))) by (apply rsum_ge0; intros; apply rsum_ge0; intros; apply Rabs_pos).
    split; [lra|]. split; [exact P|]. split; [apply LE; [exact P|exact M2]|]. eapply exact_near; [reflexivity| |].
    + intros y j Hj. pose proof (dense_map rows d units kernel bias Hok y j Hj) as [E1 E2]. unfold layer_fn, arg. cbn [nth]. rewrite E1, E2. destruct bias; split; reflexivity.
    + apply lip_dense. exact Hok.
  - destruct Hok as [Hk Hl]. exists 0, (conv_gain g kernel).
    assert (P : 0 <= conv_gain g kernel) by (unfold conv_gain; repeat (apply rsum_ge0; intros); apply Rabs_pos).
    split; [lra|]. split; [exact P|]. split; [apply LE; [exact P|exact M2]|]. destruct (conv_last_map g kernel bias Hl Hk) as (B & EB & HB).
    apply (exact_near _ _ _ _ _ B); [intros; exact EB| |].
    + intros y j Hj. pose proof (HB y j Hj) as [E1 E2]. unfold layer_fn, arg. cbn [nth]. rewrite E1, E2. destruct bias; split; reflexivity.
    + apply lip_conv.
  - destruct Hok as [Hv Ha]. exists 0, (rsum k (fun c => Rabs (opt_vec 1 gamma c) / sqrt (var c + eps))).
    assert (P : 0 <= rsum k (fun c => Rabs (opt_vec 1 gamma c) / sqrt (var c + eps))).
    { apply rsum_ge0. intros c Hc. apply Rmult_le_pos; [apply Rabs_pos|]. left. apply Rinv_0_lt_compat. apply sqrt_lt_R0. auto. }
    split; [lra|]. split; [exact P|]. split; [apply LE; [exact P|exact M2]|]. eapply exact_near; [reflexivity| |].
    + apply bn_map; [exact Hv|]. intros y p c q Ip Iq Hc.
      assert (K : nl_ok AFFINE true (NBatchNorm pre k post axis gamma beta mean var eps)) by (cbn; auto).
      pose proof (computes_fn AFFINE true _ [y] K eq_refl) as HC. unfold computes in HC. etransitivity; [exact (HC p c q Ip Iq Hc)|].
      unfold keras_bn. destruct gamma, beta; reflexivity.
    + apply (lip_bn pre k post gamma beta mean var eps Hv).
  - subst channels_first. exists 0, 1. split; [lra|]. split; [lra|]. split; [apply LE; lra|]. eapply exact_near; [reflexivity|exact (identity_map (ch * size))|apply lip_id].
  - exists 0, 1. split; [lra|]. split; [lra|]. split; [apply LE; lra|]. eapply exact_near; [reflexivity|exact (identity_map m)|apply lip_id].
  - destruct Hok as [HP Hs]. exists 0, 1. split; [lra|]. split; [lra|]. split; [apply LE; lra|]. eapply exact_near; [reflexivity| |].
    + rewrite Hs. apply permute_map; auto. intros y p Ip. unfold layer_fn, arg. cbn [nth]. rewrite transpose_at; auto. apply dims_perm. exact HP.
    + apply (lip_move _ _ (transpose_idx s (map pred dims))). intros j Hj. apply transpose_lt; [apply dims_perm; exact HP|]. exact Hj.
  - exists 0, 1. split; [lra|]. split; [lra|]. split; [apply LE; lra|]. eapply exact_near; [reflexivity|exact (identity_map m)|apply lip_id].
  - cbn in Hpw. destruct Hpw as [-> | ->]; cbn [backward_act].
    + exists 0, 1. split; [lra|]. split; [lra|]. split; [apply LE; lra|]. eapply exact_near; [reflexivity|exact (identity_map m)|apply lip_id].
    + exists (e + ke), 1. split; [lra|]. split; [lra|]. split; [cbn [nl_gain]; rewrite Rmax_right by lra; lra|].
      exact (brelu_near ke sp (bo_slope o) (bo_ft o) m e Hke Hn Hd Hdc Hft He).
Qed.

(** ** Fuse and Convert2BackwardMode *)
Lemma merge_exact : forall (S T : vec -> Prop) n h k d f g B C,
  relaxes S n h f B -> relaxes_e T h k d g C -> (forall z, S z -> T (f z)) ->
  relaxes_e S n k d (fun z => g (f z)) (merge_bb h B C).
Proof.
  intros S T n h k d f g B C HB HC HT.
  set (N := rsum k (fun j => rsum h (fun i => Rabs (bb_wu C i j)) + rsum h (fun i => Rabs (bb_wl C i j)))).
  assert (HN : cols h k N C).
  { intros j Hj. unfold N.
    assert (P : forall w : mat, forall j, 0 <= rsum h (fun i => Rabs (w i j))) by (intros; apply rsum_ge0; intros; apply Rabs_pos).
    pose proof (rsum_ge_term k (fun j => rsum h (fun i => Rabs (bb_wu C i j)) + rsum h (fun i => Rabs (bb_wl C i j))) j) as T1. cbn beta in T1.
    assert (P1 := P (bb_wu C) j). assert (P2 := P (bb_wl C) j).
    assert (T2 : rsum h (fun i => Rabs (bb_wu C i j)) + rsum h (fun i => Rabs (bb_wl C i j)) <= rsum k (fun j => rsum h (fun i => Rabs (bb_wu C i j)) + rsum h (fun i => Rabs (bb_wl C i j)))).
    { apply T1; [|exact Hj]. intros i _. pose proof (P (bb_wu C) i). pose proof (P (bb_wl C) i). lra. }
    lra. }
  assert (HB' : relaxes_e S n h 0 f B) by (intros z j Hz Hj; specialize (HB z j Hz Hj); lra).
  pose proof (merge_near S T n h k 0 d N f g B C ltac:(lra) HB' HC HN HT) as Q. replace (d + N * 0) with d in Q by ring. exact Q.
Qed.

Lemma convert_near : forall D mode (S : vec -> Prop) n m e f ts B, (0 < n)%nat -> norm_ok D -> (mode = IBP -> D = Box) ->
  valid D mode false S n n (fun y => y) ts -> relaxes_e S n m e f B ->
  exists out, convert2backward mode D n ts B = Ok out /\ near D mode S n m e f out.
Proof.
  intros D mode S n m e f ts [wu bu wl bl] Hn Hd Hi Hv HB. unfold relaxes_e in HB. cbn [bb_wu bb_bu bb_wl bb_bl] in HB.
  destruct mode.
  - rewrite (Hi eq_refl) in *. destruct Hv as [Hl Hv].
    destruct ts as [|u ts]; [contradiction Hv|]. destruct ts as [|l ts]; [contradiction Hv|].
    destruct ts; [|discriminate Hl]. cbn in Hv.
    unfold convert2backward. cbn [bind mode_eqb andb]. rewrite get_upper_no_kw, get_lower_no_kw. cbn [bind bb_wu bb_bu bb_wl bb_bl].
    eexists. split; [reflexivity|]. cbn [near Nat.eqb].
    intros z j Hz Hj. unfold vt. specialize (HB z j Hz Hj).
    assert (Hb : in_box n (l 0%nat) (u 0%nat) z) by (intros i Hi'; specialize (Hv z i Hz Hi'); lra).
    pose proof (get_upper_box_sound n _ _ wu bu z j Hb). pose proof (get_lower_box_sound n _ _ wl bl z j Hb). lra.
  - destruct (valid_affine _ _ _ _ _ _ _ Hv ltac:(discriminate)) as (x & wu' & bu' & wl' & bl' & X & A & [[-> _]|(u & l & -> & K)]); [|discriminate K].
    eexists. split; [reflexivity|]. split; [exact X|]. exact HB.
  - destruct (valid_affine _ _ _ _ _ _ _ Hv ltac:(discriminate)) as (x & wu' & bu' & wl' & bl' & X & A & [[_ K]|(u & l & -> & _)]); [discriminate K|].
    unfold convert2backward. cbn [bind mode_eqb andb bb_wu bb_bu bb_wl bb_bl].
    destruct (get_upper_ok D n x wu bu Hd) as [ru Eu]. destruct (get_lower_ok D n x wl bl Hd) as [rl El].
    rewrite Eu, El. cbn [bind]. eexists. split; [reflexivity|]. split; [exact X|]. split; [|exact HB].
    intros z j Hz Hj. unfold vt. specialize (HB z j Hz Hj).
    pose proof (get_upper_sound D n x wu bu ru z j Hn Eu (X z Hz)). pose proof (get_lower_sound D n x wl bl rl z j Hn El (X z Hz)). lra.
Qed.

Section CrownNear.
Variable sp : spec.
Variable S : vec -> Prop.
Variable its : list tensor.
Variable fmap : nat -> option (list tensor).
Variable g : graph.
Variable v : nat -> vec -> vec.
Variable fs : nat -> vec -> vec.
(** error of each node *)
Variable E : nat -> R.

Local Notation n := (sp_n sp).
Local Notation mode := (sp_mode sp).
Local Notation D := (sp_dom sp).

Hypothesis Hn : (0 < n)%nat.
Hypothesis HD : norm_ok D.
Hypothesis Hdc : sp_dc sp = false.
Hypothesis Hibp : mode = IBP -> D = Box.
Hypothesis Hits : op_sp sp S n (fun y => y) its.
Hypothesis Hwf : well_formed n g.
Hypothesis Hnm : no_merge g.
Hypothesis Hml : models_last g.
Hypothesis Hv : forall y i L ps, nth_error g i = Some (L, ps) -> v i y = fs i (prev v ps y).

Definition ein (ps : list nat) : R := match ps with [p] => E p | _ => 0 end.
Hypothesis Hlay : forall i L ps, nth_error g i = Some (L, ps) ->
  exists le G, 0 <= le /\ 0 <= G /\ le + G * ein ps <= E i /\ bwd_near sp L (ein ps) le G (fs i).

Definition imap_near (imap : list (list tensor)) : Prop :=
  forall i L ps ts, nth_error g i = Some (L, ps) -> nth_error imap i = Some ts -> near_sp sp S (ly_in L) (ein ps) (prev v ps) ts.

Lemma fuse_near : forall k d ts B (F : vec -> vec), near_sp sp S n 0 (fun y => y) ts -> relaxes_e (image S (fun y => y)) n k d F B ->
  exists R, fuse mode n ts B = Ok R /\ relaxes_e S n k d F R.
Proof.
  intros k d ts B F Hts HB. unfold near_sp in Hts.
  assert (HI : forall z, S z -> image S (fun y => y) z) by (intros z Hz; exists z; auto).
  destruct mode eqn:Em; cbn [near] in Hts.
  - exists B. split; [reflexivity|]. intros z j Hz Hj. apply HB; auto.
  - destruct ts as [|x [|wu [|bu [|wl [|bl [|]]]]]]; try contradiction. destruct Hts as [X A].
    eexists. split; [reflexivity|]. apply (merge_exact S (image S (fun y => y)) n n k d (fun y => y) F); auto.
    intros z j Hz Hj. cbn [bb_wu bb_bu bb_wl bb_bl]. specialize (A z j Hz Hj). lra.
  - destruct ts as [|x [|u [|wu [|bu [|l [|wl [|bl [|]]]]]]]]; try contradiction. destruct Hts as (X & _ & A).
    eexists. split; [reflexivity|]. apply (merge_exact S (image S (fun y => y)) n n k d (fun y => y) F); auto.
    intros z j Hz Hj. cbn [bb_wu bb_bu bb_wl bb_bl]. specialize (A z j Hz Hj). lra.
Qed.

Lemma pcases : forall i L ps, nth_error g i = Some (L, ps) -> ps = [] \/ exists p, ps = [p] /\ (p < i)%nat.
Proof.
  intros i L ps H. pose proof (Hnm i L ps H) as Hl. destruct (Hwf i L ps H) as (_ & Hp & _).
  destruct ps as [|p [|]]; [left; auto|right; exists p; split; auto; apply Hp; left; auto|cbn in Hl; lia].
Qed.

Lemma crown_some_near : forall imap, imap_near imap -> forall fuel i L ps C k d N F,
  (i < fuel)%nat -> nth_error g i = Some (L, ps) -> (i < length imap)%nat -> ly_model L = false -> 0 <= N ->
  relaxes_e (image S (v i)) (ly_out L) k d F C -> cols (ly_out L) k N C ->
  exists R, crown mode g imap true fuel i (Some C) = Ok R /\ relaxes_e S n k (d + N * E i) (fun y => F (v i y)) R.
Proof.
  intros imap HI. induction fuel as [|fuel IH]; intros i L ps C k d N F Hi Hg Hl Hm HN HC HcC; [lia|].
  cbn [crown]. rewrite Hg.
  destruct (nth_error imap i) as [ts|] eqn:Ht; [|apply nth_error_None in Ht; lia].
  pose proof (HI i L ps ts Hg Ht) as V.
  destruct (Hlay i L ps Hg) as (le & G & Hle & HG & HE & HL). destruct (HL S (prev v ps) ts V) as (B & EB & HB & HcB). rewrite EB. cbn [bind]. rewrite Hm.
  assert (HB' : relaxes_e (image S (prev v ps)) (ly_in L) k (d + N * le) (fun y => F (fs i y)) (merge_bb (ly_out L) B C)).
  { apply (merge_near _ (image S (v i)) _ _ _ le d N (fs i) F B C Hle HB HC HcC).
    intros y (z & Hz & ->). exists z. split; auto. rewrite (Hv z i L ps Hg). reflexivity. }
  pose proof (merge_cols _ _ _ _ _ _ _ HG HcB HcC) as Hcm.
  destruct (Hwf i L ps Hg) as (W1 & W2 & W3).
  destruct (pcases i L ps Hg) as [->|(p & -> & Hp)].
  - rewrite (W1 eq_refl) in *. cbn [ein] in *.
    destruct (fuse_near k (d + N * le) ts (merge_bb (ly_out L) B C) (fun y => F (fs i y)) V HB') as (R & ER & HR).
    exists R. split; [exact ER|]. eapply relaxes_e_weaken; [| |exact HR]; [nra|]. intros y j _ _. rewrite (Hv _ i L [] Hg). reflexivity.
  - destruct (nth_error g p) as [[L' ps']|] eqn:Hgp; [|apply nth_error_None in Hgp].
    2:{ assert (i < length g)%nat by (apply nth_error_Some; congruence). lia. }
    pose proof (W3 p L' ps' eq_refl Hgp) as Hd. pose proof (Hml i L [p] p L' ps' Hg (or_introl eq_refl) Hgp) as Hm'.
    destruct (IH p L' ps' (merge_bb (ly_out L) B C) k (d + N * le) (N * G) (fun y => F (fs i y)) ltac:(lia) Hgp ltac:(lia) Hm') as (R & ER & HR).
    + apply Rmult_le_pos; assumption.
    + rewrite Hd. exact HB'.
    + rewrite Hd. exact Hcm.
    + exists R. split; auto. eapply relaxes_e_weaken; [| |exact HR].
      * cbn [ein] in HE. assert (N * (le + G * E p) <= N * E i) by (apply Rmult_le_compat_l; assumption). lra.
      * intros y j _ _. rewrite (Hv _ i L [p] Hg). reflexivity.
Qed.

Lemma crown_none_near : forall imap, imap_near imap -> forall fuel i L ps,
  (i < fuel)%nat -> nth_error g i = Some (L, ps) -> (i < length imap)%nat ->
  exists R, crown mode g imap true fuel i None = Ok R /\ relaxes_e S n (ly_out L) (E i) (v i) R.
Proof.
  intros imap HI fuel i L ps Hi Hg Hl. destruct fuel as [|fuel]; [lia|].
  cbn [crown]. rewrite Hg.
  destruct (nth_error imap i) as [ts|] eqn:Ht; [|apply nth_error_None in Ht; lia].
  pose proof (HI i L ps ts Hg Ht) as V.
  destruct (Hlay i L ps Hg) as (le & G & Hle & HG & HE & HL). destruct (HL S (prev v ps) ts V) as (B & EB & HB & HcB). rewrite EB. cbn [bind].
  assert (Eb : (if ly_model L then B else B) = B) by (destruct (ly_model L); auto). rewrite Eb.
  destruct (Hwf i L ps Hg) as (W1 & W2 & W3).
  destruct (pcases i L ps Hg) as [->|(p & -> & Hp)].
  - rewrite (W1 eq_refl) in *. cbn [ein] in *.
    destruct (fuse_near (ly_out L) le ts B (fs i) V HB) as (R & ER & HR).
    exists R. split; [exact ER|]. eapply relaxes_e_weaken; [| |exact HR]; [nra|]. intros y j _ _. rewrite (Hv _ i L [] Hg). reflexivity.
  - destruct (nth_error g p) as [[L' ps']|] eqn:Hgp; [|apply nth_error_None in Hgp].
    2:{ assert (i < length g)%nat by (apply nth_error_Some; congruence). lia. }
    pose proof (W3 p L' ps' eq_refl Hgp) as Hd. pose proof (Hml i L [p] p L' ps' Hg (or_introl eq_refl) Hgp) as Hm'.
    destruct (crown_some_near imap HI fuel p L' ps' B (ly_out L) le G (fs i) ltac:(lia) Hgp ltac:(lia) Hm' HG) as (R & ER & HR).
    + rewrite Hd. exact HB.
    + rewrite Hd. exact HcB.
    + exists R. split; auto. eapply relaxes_e_weaken; [| |exact HR]; [exact HE|]. intros y j _ _. rewrite (Hv _ i L [p] Hg). reflexivity.
Qed.

Hypothesis Hfmap : forall i L ps ts, nth_error g i = Some (L, ps) -> fmap i = Some ts -> near_sp sp S (ly_out L) (E i) (v i) ts.

Lemma convert_final_near : forall k e F B, relaxes_e S n k e F B ->
  exists out, convert2backward mode D n its B = Ok out /\ near_sp sp S k e F out.
Proof.
  intros k e F B HB. unfold op_sp in Hits. rewrite Hdc in Hits. exact (convert_near D mode S n k e F its B Hn HD Hibp Hits HB).
Qed.

Lemma node_inputs_near : forall imap i L ps, imap_near imap -> length imap = i -> nth_error g i = Some (L, ps) ->
  exists ts, node_inputs mode D n its fmap g imap ps = Ok ts /\ near_sp sp S (ly_in L) (ein ps) (prev v ps) ts.
Proof.
  intros imap i L ps HI Hl Hg. destruct (Hwf i L ps Hg) as (W1 & W2 & W3).
  destruct (pcases i L ps Hg) as [->|(p & -> & Hp)].
  - exists its. split; [reflexivity|]. rewrite (W1 eq_refl). unfold op_sp in Hits. rewrite Hdc in Hits. exact (valid_near _ _ _ _ _ _ _ Hits).
  - destruct (nth_error g p) as [[L' ps']|] eqn:Hgp; [|apply nth_error_None in Hgp].
    2:{ assert (i < length g)%nat by (apply nth_error_Some; congruence). lia. }
    rewrite <- (W3 p L' ps' eq_refl Hgp). unfold node_inputs. cbn [mapR ein prev].
    destruct (fmap p) as [ts|] eqn:Ef.
    + exists ts. cbn. rewrite app_nil_r. split; auto. apply (Hfmap p L' ps' ts Hgp Ef).
    + destruct (crown_none_near imap HI (Datatypes.S p) p L' ps' ltac:(lia) Hgp ltac:(lia)) as (B & EB & HB). rewrite EB. cbn [bind].
      destruct (convert_final_near _ _ _ _ HB) as (o & Eo & Vo). rewrite Eo. cbn [bind concat]. exists o. rewrite app_nil_r. auto.
Qed.

Lemma input_nodes_near : forall i, (i <= length g)%nat ->
  exists imap, get_input_nodes mode D n its fmap g (firstn i g) [] = Ok imap /\ length imap = i /\ imap_near imap.
Proof.
  induction i as [|i IH]; intros Hi.
  - exists []. split; [reflexivity|]. split; auto. intros j L ps ts _ H. destruct j; discriminate H.
  - destruct (IH ltac:(lia)) as (imap & Ei & Hl & HI).
    destruct (nth_error g i) as [[L ps]|] eqn:Hg; [|apply nth_error_None in Hg; lia].
    rewrite (firstn_S _ g i (L, ps) Hg). rewrite (input_nodes_app sp its fmap g), Ei. cbn [bind get_input_nodes].
    destruct (node_inputs_near imap i L ps HI Hl Hg) as (ts & Ets & Vts). rewrite Ets. cbn [bind].
    exists (imap ++ [ts]). split; [reflexivity|]. split; [rewrite app_length; cbn; lia|].
    intros j L' ps' ts' Hj Ht. destruct (Nat.lt_ge_cases j i) as [Hlt|Hge].
    + rewrite nth_error_app1 in Ht by lia. apply (HI j L' ps' ts' Hj Ht).
    + rewrite nth_error_app2 in Ht by lia. destruct (j - length imap)%nat as [|q] eqn:Ed; [|destruct q; discriminate Ht].
      assert (j = i) by lia. subst j. rewrite Hg in Hj. injection Hj; intros <- <-. injection Ht; intros <-. exact Vts.
Qed.

Lemma crown_model_near : forall o L ps, nth_error g o = Some (L, ps) ->
  exists ts, crown_model mode D n g [o] None fmap its = Ok [ts] /\ near_sp sp S (ly_out L) (E o) (v o) ts.
Proof.
  intros o L ps Hg. unfold crown_model. cbn [andb].
  destruct (input_nodes_near (length g) ltac:(lia)) as (imap & Ei & Hl & HI). rewrite firstn_all in Ei. rewrite Ei. cbn [bind mapR].
  assert (Hlt : (o < length g)%nat) by (apply nth_error_Some; congruence).
  destruct (crown_none_near imap HI (Datatypes.S o) o L ps ltac:(lia) Hg ltac:(lia)) as (B & EB & HB). rewrite EB. cbn [bind].
  destruct (convert_final_near _ _ _ _ HB) as (t & Et & Vt). rewrite Et. cbn [bind]. exists t. auto.
Qed.
End CrownNear.

Lemma convert_backward_near : forall D n mode final (S : vec -> Prop) its fmap ids g v fs E lv o,
  (0 < n)%nat -> norm_ok D -> (mode = IBP -> D = Box) ->
  valid D mode false S n n (fun y => y) its ->
  well_formed n g -> no_merge g -> models_last g ->
  (forall y i L ps, nth_error g i = Some (L, ps) -> v i y = fs i (prev v ps y)) ->
  (forall i L ps, nth_error g i = Some (L, ps) ->
     exists le G, 0 <= le /\ 0 <= G /\ le + G * ein E ps <= E i /\ bwd_near (mk_spec false mode D n) L (ein E ps) le G (fs i)) ->
  (forall i L ps ts, nth_error g i = Some (L, ps) -> fmap i = Some ts -> near D mode S n (ly_out L) (E i) (v i) ts) ->
  length ids = length g -> NoDup ids -> longest_path (map snd g) lv -> deepest (map snd g) lv o ->
  exists L ps ts, nth_error g o = Some (L, ps) /\ convert_backward D n mode final ids g [o] None fmap its = Ok ts /\
    near D final S n (ly_out L) (E o) (v o) ts.
Proof.
  intros D n mode final S its fmap ids g v fs E lv o Hn HD HB Vi Hwf Hnm Hml Hv Hlay Hfm Hids Hnd Hlv Hd.
  assert (Hol : (o < length g)%nat) by (destruct Hd as [Hd _]; rewrite map_length in Hd; exact Hd).
  destruct (nth_error g o) as [[L ps]|] eqn:Eg; [|apply nth_error_None in Eg; lia].
  destruct (crown_model_near (mk_spec false mode D n) S its fmap g v fs E Hn HD eq_refl HB Vi Hwf Hnm Hml Hv Hlay Hfm o L ps Eg) as (ts & Ec & V).
  unfold convert_backward. cbn [andb length].
  assert (Eo : output_nodes (bshape ids g) [o] = Ok [o]).
  { rewrite (output_nodes_ok (bshape ids g)) with (lv := lv).
    - cbn [filter]. rewrite deepest_b; [reflexivity|]. rewrite bshape_parents by exact Hids. exact Hd.
    - apply topo_acyclic. rewrite bshape_parents by exact Hids. apply (well_formed_acyclic n). exact Hwf.
    - rewrite bshape_parents by exact Hids. exact Hlv.
    - unfold unshared. rewrite bshape_ids by exact Hids. exact Hnd.
    - intros Q. apply (f_equal (@length _)) in Q. rewrite bshape_length in Q by exact Hids. cbn in Q. lia.
    - intros o' [<-|[]]. rewrite bshape_length by exact Hids. exact Hol. }
  rewrite Eo. cbn [bind sp_mode sp_dom sp_n] in *. rewrite Ec. cbn [bind concat]. rewrite app_nil_r.
  exists L, ps. assert (Hdok : dom_ok D mode) by (destruct mode; cbn; auto). unfold near_sp in V. cbn [sp_dom sp_mode sp_n] in V.
  assert (Hgen : (mode = IBP -> final = IBP) -> exists c, convert2mode D n mode final ts = Ok c /\ near D final S n (ly_out L) (E o) (v o) c).
  { intros Hmf. apply (convert2mode_near D n mode final S _ _ _ ts Hn Hdok Hmf V). }
  destruct (mode_eqb mode IBP) eqn:Em.
  - assert (mode = IBP) by (destruct mode; try discriminate Em; reflexivity). subst mode. rewrite (HB eq_refl) in *.
    destruct (mode_eqb final IBP) eqn:Ef.
    + destruct final; try discriminate Ef. destruct (Hgen (fun _ => eq_refl)) as (c & Ec' & Vc). rewrite Ec'. cbn. eauto.
    + destruct Vi as [Hl Vi]. destruct its as [|iu [|il [|]]]; try discriminate Hl. destruct ts as [|u [|l [|]]]; try contradiction V. cbn in V.
      assert (Ha : affine_near S n (ly_out L) (E o) (v o) (fun _ _ => 0) (u 0%nat) (fun _ _ => 0) (l 0%nat)).
      { intros z j Hz Hj. unfold aff. rewrite dot_0_l. specialize (V z j Hz Hj). lra. }
      destruct final; [discriminate Ef| |].
      * eexists. split; [reflexivity|]. split; [reflexivity|]. cbn. split; [|exact Ha]. intros y Hy i Hi. cbn. exact (Vi y i Hy Hi).
      * eexists. split; [reflexivity|]. split; [reflexivity|]. cbn. split; [|split; [exact V|exact Ha]]. intros y Hy i Hi. cbn. exact (Vi y i Hy Hi).
  - destruct Hgen as (c & Ec' & Vc); [intros ->; discriminate Em|]. rewrite Ec'. rewrite andb_false_r. cbn [bind]. eauto.
Qed.

(** ** Networks *)
Definition node_err (ke : R) (net : network) (i : nat) : R := net_slack (firstn (Datatypes.S i) net) * ke.

Section BNetNear.
Variables (ke : R) (sp : spec) (bo : nat -> bopts) (net : network).
Local Notation n := (sp_n sp).
Hypothesis Hke : 0 < ke.
Hypothesis Hn : (0 < n)%nat.
Hypothesis Hd : dom_ok (sp_dom sp) (sp_mode sp).
Hypothesis Hdc : sp_dc sp = false.
Hypothesis Hnet : net_ok n net.
Hypothesis Hlay : blayers_ok bo net.
Hypothesis Hpw : forall i L ps, nth_error net i = Some (Some L, ps) -> nl_piecewise L.

Definition bfs (i : nat) (y : vec) : vec := match nth_error net i with Some (Some L, _) => layer_fn L [y] | _ => y end.

Lemma bfs_value : forall y i L ps, nth_error (backward_net ke sp bo n net) i = Some (L, ps) -> net_fn net i y = bfs i (prev (net_fn net) ps y).
Proof.
  intros y i L ps E. destruct (bnet_node_inv ke sp bo net i L ps E) as (o & En & _). rewrite (net_fn_step n net y i o ps Hnet En). unfold bfs. rewrite En.
  destruct o as [L'|].
  - destruct (bnet_unary sp bo net Hnet Hlay i L' ps En) as (p & -> & _). reflexivity.
  - destruct (Hnet i None ps En) as [_ ->]. reflexivity.
Qed.

Lemma bfs_near : forall i L ps, nth_error (backward_net ke sp bo n net) i = Some (L, ps) ->
  exists le G, 0 <= le /\ 0 <= G /\ le + G * ein (node_err ke net) ps <= node_err ke net i /\ bwd_near sp L (ein (node_err ke net) ps) le G (bfs i).
Proof.
  intros i L ps E. destruct (bnet_node_inv ke sp bo net i L ps E) as (o & En & ->). unfold bfs. rewrite En.
  pose proof (slack_pos (firstn i net)) as Hpos. unfold node_err at 2. rewrite (firstn_S _ _ _ _ En), slack_step. cbn [fst]. destruct o as [L|].
  - destruct (bnet_unary sp bo net Hnet Hlay i L ps En) as (p & -> & _). destruct (Hnet i (Some L) [p] En) as [Hp _]. specialize (Hp p (or_introl eq_refl)).
    destruct (Hlay i L [p] En) as [Hok Hft]. cbn [ein blayer_of].
    assert (He : 0 <= node_err ke net p) by (unfold node_err; pose proof (slack_pos (firstn (Datatypes.S p) net)); nra).
    assert (Hm : node_err ke net p <= net_slack (firstn i net) * ke) by (unfold node_err; apply Rmult_le_compat_r; [lra|]; apply slack_firstn; lia).
    destruct (bwd_layer_near ke sp (bo i) L (node_err ke net p) Hke Hn Hd Hdc Hok (Hpw i L [p] En) Hft He) as (le & G & H1 & H2 & H3 & H4).
    exists le, G. split; [exact H1|]. split; [exact H2|]. split; [|exact H4]. pose proof (Rmax_l 1 (nl_gain L)). nra.
  - destruct (Hnet i None ps En) as [_ ->]. cbn [ein blayer_of]. exists 0, 1. split; [lra|]. split; [lra|]. split; [nra|].
    eapply exact_near; [reflexivity|exact (identity_map n)|apply lip_id].
Qed.
End BNetNear.

(** the clone built with crown encloses a piecewise affine network up to a multiple of epsilon, without conditions *)
Lemma net_clone_crown_near : forall ke D n mode final z ids bo net v o,
  0 < ke -> (0 < n)%nat -> norm_ok D -> (mode = IBP -> D = Box) ->
  net_ok n net -> net_value net v -> blayers_ok bo net -> single_output net o ->
  length ids = length net -> NoDup ids ->
  (forall i L ps, nth_error net i = Some (Some L, ps) -> nl_piecewise L) ->
  exists ts, clone_backward D n mode final None ids (backward_net ke (mk_spec false mode D n) bo n net) [o] None z = Ok ts /\
    near D final (in_dom D n z) n (net_dim n net o) (net_slack net * ke) (v o) ts.
Proof.
  intros ke D n mode final z ids bo net v o Hke Hn HD HB Hnet Hval Hlay [Ho Hall] Hids Hnd Hpw. set (sp := mk_spec false mode D n) in *.
  assert (Hdok : dom_ok D mode) by (destruct mode; cbn; auto).
  assert (Hacy : acyclic (map snd net)) by (apply (net_acyclic sp net Hnet)).
  destruct (longest_path_exists _ Hacy) as [lv Hlv]. pose proof (bnet_parents ke sp bo net) as Hpar. cbn [sp_n sp] in Hpar.
  destruct (input_tensors_ok D mode n z Hn (fun _ => HD)) as (its & Ei & Vi). unfold clone_backward. rewrite Ei. cbn [bind].
  change (fun _ : nat => None) with (@no_map tensor).
  destruct (convert_backward_near D n mode final (in_dom D n z) its no_map ids (backward_net ke sp bo n net) (net_fn net) (bfs net) (node_err ke net) lv o) as (L & ps & ts & E & Et & V); auto.
  - apply (bnet_wf ke sp bo net Hnet Hlay).
  - apply (bnet_no_merge ke sp bo net Hnet Hlay).
  - apply (bnet_models ke sp bo net).
  - apply (bfs_value ke sp bo net Hnet Hlay).
  - apply (bfs_near ke sp bo net Hke Hn Hdok eq_refl Hnet Hlay Hpw).
  - intros; discriminate.
  - pose proof (bnet_length ke sp bo net) as Hl. cbn [sp_n sp] in Hl. rewrite Hl. exact Hids.
  - rewrite Hpar. exact Hlv.
  - rewrite Hpar. apply ancestors_deepest; [exact Hlv|rewrite map_length; exact Ho|]. rewrite map_length. exact Hall.
  - exists ts. split; [exact Et|]. destruct (bnet_node_inv ke sp bo net o L ps E) as (q & En & ->).
    pose proof (blayer_out ke sp bo net o q ps En) as Q. cbn [sp_n sp] in Q. rewrite Q in V.
    eapply near_weaken; [| |exact V].
    + unfold node_err. apply Rmult_le_compat_r; [lra|]. rewrite <- (firstn_all net) at 2. apply slack_firstn. lia.
    + intros y j _ Hj. apply (bnet_agree sp bo net v Hnet Hlay Hval y o Ho j Hj).
Qed.

Lemma net_clone_crown_forward_near : forall ke D n mode final z ids opts bo net v o,
  0 < ke -> (0 < n)%nat -> norm_ok D -> (mode = IBP -> D = Box) ->
  net_ok n net -> net_value net v -> layers_ok mode opts net -> blayers_ok bo net -> single_output net o ->
  length ids = length net -> NoDup ids ->
  (forall i L ps, nth_error net i = Some (Some L, ps) -> nl_piecewise L) ->
  exists ts, clone_backward D n mode final (Some (decomon_net ke (mk_spec false mode D n) opts net)) ids (backward_net ke (mk_spec false mode D n) bo n net) [o] None z = Ok ts /\
    near D final (in_dom D n z) n (net_dim n net o) (net_slack net * ke) (v o) ts.
Proof.
  intros ke D n mode final z ids opts bo net v o Hke Hn HD HB Hnet Hval Hflay Hlay [Ho Hall] Hids Hnd Hpw. set (sp := mk_spec false mode D n) in *.
  assert (Hdok : dom_ok D mode) by (destruct mode; cbn; auto).
  assert (Hacy : acyclic (map snd net)) by (apply (net_acyclic sp net Hnet)).
  destruct (longest_path_exists _ Hacy) as [lv Hlv]. pose proof (bnet_parents ke sp bo net) as Hpar. cbn [sp_n sp] in Hpar.
  assert (Hdp : deepest (map snd net) lv o).
  { apply ancestors_deepest; [exact Hlv|rewrite map_length; exact Ho|]. rewrite map_length. exact Hall. }
  destruct (input_tensors_ok D mode n z Hn (fun _ => HD)) as (its & Ei & Vi). unfold clone_backward. rewrite Ei. cbn [bind].
  set (h := decomon_net ke sp opts net) in *.
  destruct (net_eval_near ke sp opts net v (in_dom D n z) its Hke Hn Hdok eq_refl Hnet Hval Hflay Hpw (valid_near _ _ _ _ _ _ _ Vi)) as (vs & He & Hs).
  assert (Hph : parents_of h = map snd net) by (apply (net_parents ke sp opts net Hn)).
  assert (Hlen : length h = length net) by (apply (net_length ke sp opts net Hn)).
  assert (Hah : acyclic (parents_of h)) by (rewrite Hph; exact Hacy).
  assert (Hsrc : forall i nod, nth_error h i = Some nod -> fn_parents nod = [] -> fn_kind nod = KInput).
  { intros i nod En Ep. destruct (net_node_inv ke sp opts net Hn i nod En) as (q & ps & E & ->). destruct q as [L|]; [|reflexivity]. destruct (Hnet i (Some L) ps E) as [_ [Q _]]. contradiction. }
  destruct (convert_nodes_eval tensor h no_map its vs) as (om & Eom & Hom); [apply topo_acyclic; exact Hah|exact Hsrc|intros i Q; exfalso; apply Q; reflexivity|exact He|].
  change (fun _ : nat => None) with (@no_map tensor). rewrite Eom. cbn [bind].
  assert (Eo : output_nodes h [o] = Ok [o]).
  { assert (Hdp' : deepest (parents_of h) lv o) by (rewrite Hph; exact Hdp).
    assert (Hf : filter (deepestb h lv) [o] = [o]) by (cbn; rewrite (deepest_b _ h lv o Hdp'); reflexivity). rewrite <- Hf at 2.
    apply output_nodes_ok; auto.
    - apply topo_acyclic. exact Hah.
    - rewrite Hph. exact Hlv.
    - apply (net_unshared ke sp opts net Hn).
    - intros Q. rewrite Q in Hlen. cbn in Hlen. lia.
    - intros o' [<-|[]]. rewrite Hlen. exact Ho. }
  rewrite Eo. cbn [bind].
  destruct (convert_backward_near D n mode final (in_dom D n z) its om ids (backward_net ke sp bo n net) (net_fn net) (bfs net) (node_err ke net) lv o) as (L & ps & ts & E & Et & V); auto.
  - apply (bnet_wf ke sp bo net Hnet Hlay).
  - apply (bnet_no_merge ke sp bo net Hnet Hlay).
  - apply (bnet_models ke sp bo net).
  - apply (bfs_value ke sp bo net Hnet Hlay).
  - apply (bfs_near ke sp bo net Hke Hn Hdok eq_refl Hnet Hlay Hpw).
  - intros i L ps ts E Ets. destruct (bnet_node_inv ke sp bo net i L ps E) as (q & En & ->).
    assert (Hi : (i < length net)%nat) by (apply nth_error_Some; rewrite En; discriminate).
    rewrite Hom in Ets by (rewrite Hlen; exact Hi). injection Ets as <-.
    pose proof (blayer_out ke sp bo net i q ps En) as Q. cbn [sp_n sp] in Q. rewrite Q.
    eapply near_weaken; [| |exact (Hs i Hi)]; [apply Rle_refl|].
    intros y j _ Hj. symmetry. apply (bnet_agree sp bo net v Hnet Hlay Hval y i Hi j Hj).
  - pose proof (bnet_length ke sp bo net) as Hl. cbn [sp_n sp] in Hl. rewrite Hl. exact Hids.
  - rewrite Hpar. exact Hlv.
  - rewrite Hpar. exact Hdp.
  - exists ts. split; [exact Et|]. destruct (bnet_node_inv ke sp bo net o L ps E) as (q & En & ->).
    pose proof (blayer_out ke sp bo net o q ps En) as Q. cbn [sp_n sp] in Q. rewrite Q in V.
    eapply near_weaken; [| |exact V].
    + unfold node_err. apply Rmult_le_compat_r; [lra|]. rewrite <- (firstn_all net) at 2. apply slack_firstn. lia.
    + intros y j _ Hj. apply (bnet_agree sp bo net v Hnet Hlay Hval y o Ho j Hj).
Qed.
