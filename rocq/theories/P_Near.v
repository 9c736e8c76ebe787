(** Soundness up to an error: what each layer does to bounds that are off by e. *)
From Coq Require Import Reals Lra Lia Psatz List Arith Bool ZArith Permutation.
From Verif Require Import RLib Spec Spec_Layers Spec_Backward Spec_Convert Spec_Network Spec_Near M_Core M_Utils M_MergeLayers M_Ops M_Layers M_Pool M_Crown M_Convert M_Network.
From Verif Require Import P_Core P_Merge P_Utils P_MergeLayers P_Axis P_Ops P_Sort P_Layers P_Move P_Graph P_Convert P_ConvertThm P_Pool P_Network P_NetworkForward.
From Verif Require Import Spec_Network.
Import ListNotations.
Local Open Scope R_scope.

(** ** completed records *)
Definition nfull (D : domain) (ibp affine : bool) (S : vec -> Prop) (n m : nat) (e : R) (f : vec -> vec) (r : full tensor) : Prop :=
  (ibp = true -> const_near S m e f (f_uc r 0%nat) (f_lc r 0%nat)) /\
  (affine = true -> (forall z, S z -> in_dom D n (f_x r) z) /\ affine_near S n m e f (f_wu r) (f_bu r 0%nat) (f_wl r) (f_bl r 0%nat)).

Definition near_sp (sp : spec) (S : vec -> Prop) (m : nat) (e : R) (f : vec -> vec) (ts : list tensor) : Prop :=
  near (sp_dom sp) (sp_mode sp) S (sp_n sp) m e f ts.
Definition nfull_sp (sp : spec) (S : vec -> Prop) (m : nat) (e : R) (f : vec -> vec) (r : full tensor) : Prop :=
  nfull (sp_dom sp) (get_ibp (sp_mode sp)) (get_affine (sp_mode sp)) S (sp_n sp) m e f r.

Lemma valid_near : forall D mode S n m f ts, valid D mode false S n m f ts -> near D mode S n m 0 f ts.
Proof.
  intros D mode S n m f ts [HL V]. destruct mode; cbn in HL.
  - destruct ts as [|u [|l [|]]]; try discriminate HL. intros z j Hz Hj. specialize (V z j Hz Hj). lra.
  - destruct ts as [|x [|wu [|bu [|wl [|bl [|]]]]]]; try discriminate HL. destruct V as [X V]. split; [exact X|].
    intros z j Hz Hj. specialize (V z j Hz Hj). lra.
  - destruct ts as [|x [|u [|wu [|bu [|l [|wl [|bl [|]]]]]]]]; try discriminate HL. destruct V as (X & C & V). split; [exact X|]. split.
    + intros z j Hz Hj. specialize (C z j Hz Hj). lra.
    + intros z j Hz Hj. specialize (V z j Hz Hj). lra.
Qed.

Lemma near_length : forall D mode S n m e f ts, near D mode S n m e f ts -> length ts = spec_nb mode false.
Proof.
  intros D mode S n m e f ts H. destruct mode; cbn in H.
  - destruct ts as [|u [|l [|]]]; try contradiction. reflexivity.
  - destruct ts as [|x [|wu [|bu [|wl [|bl [|]]]]]]; try contradiction. reflexivity.
  - destruct ts as [|x [|u [|wu [|bu [|l [|wl [|bl [|]]]]]]]]; try contradiction. reflexivity.
Qed.

Lemma near_unpack : forall D mode S n m e f ts, near D mode S n m e f ts ->
  exists r, unpack empty_tensor mode false ts = Ok r /\ nfull D (get_ibp mode) (get_affine mode) S n m e f r /\ extract mode false r = ts.
Proof.
  intros D mode S n m e f ts H.
  destruct (extract_unpack tensor empty_tensor mode false ts (near_length _ _ _ _ _ _ _ _ H)) as (r & Hr & E).
  exists r. split; [exact Hr|]. split; [|exact E]. rewrite <- E in H. unfold nfull.
  destruct mode; cbn [extract app get_ibp get_affine near] in *; (split; intros; try discriminate; tauto).
Qed.

Lemma nfull_near : forall D mode S n m e f r, nfull D (get_ibp mode) (get_affine mode) S n m e f r -> near D mode S n m e f (extract mode false r).
Proof.
  intros D mode S n m e f r [H1 H2]. destruct mode; cbn [extract app get_ibp get_affine near] in *;
    try specialize (H1 eq_refl); try specialize (H2 eq_refl); tauto.
Qed.

Lemma nfull_out : forall sp S m e f r, sp_dc sp = false -> nfull_sp sp S m e f r -> near_sp sp S m e f (extract (sp_mode sp) (sp_dc sp) r).
Proof. intros sp S m e f r -> H. apply nfull_near. exact H. Qed.

(** a larger error, an equal function *)
Lemma nfull_weaken : forall D ibp aff0 (S : vec -> Prop) n m e e' f f' r, e <= e' -> (forall z j, S z -> (j < m)%nat -> f z j = f' z j) ->
  nfull D ibp aff0 S n m e f r -> nfull D ibp aff0 S n m e' f' r.
Proof.
  intros D ibp aff0 S n m e e' f f' r He Ef [C A]. split.
  - intros H z j Hz Hj. specialize (C H z j Hz Hj). rewrite <- Ef by assumption. lra.
  - intros H. destruct (A H) as [X B]. split; [exact X|]. intros z j Hz Hj. specialize (B z j Hz Hj). rewrite <- Ef by assumption. lra.
Qed.
Lemma near_weaken : forall D mode (S : vec -> Prop) n m e e' f f' ts, e <= e' -> (forall z j, S z -> (j < m)%nat -> f z j = f' z j) ->
  near D mode S n m e f ts -> near D mode S n m e' f' ts.
Proof.
  intros D mode S n m e e' f f' ts He Ef H. destruct (near_unpack _ _ _ _ _ _ _ _ H) as (r & _ & V & <-). apply nfull_near.
  exact (nfull_weaken _ _ _ _ _ _ _ _ _ _ _ He Ef V).
Qed.
Lemma near_sp_weaken : forall sp (S : vec -> Prop) m e e' f f' ts, e <= e' -> (forall z j, S z -> (j < m)%nat -> f z j = f' z j) ->
  near_sp sp S m e f ts -> near_sp sp S m e' f' ts.
Proof. intros sp S m e e' f f' ts. apply near_weaken. Qed.

(** ** completion *)
Lemma complete_near : forall sp ca ti S m e f r, (0 < sp_n sp)%nat -> dom_ok (sp_dom sp) (sp_mode sp) ->
  nfull_sp sp S m e f r ->
  exists r', complete sp ca ti r = Ok r' /\ nfull (sp_dom sp) (get_ibp (sp_mode sp) || ca) (get_affine (sp_mode sp)) S (sp_n sp) m e f r'.
Proof.
  intros sp ca ti S m e f r Hn Hd [H1 H2]. unfold complete. destruct sp as [dc mode D n]; cbn [sp_dc sp_mode sp_dom sp_n] in *. destruct mode.
  - replace ((ca && mode_eqb IBP AFFINE || ti && mode_eqb IBP HYBRID)%bool) with false by (destruct ca, ti; reflexivity).
    exists r. split; [reflexivity|]. split; cbn; intros; [auto|discriminate].
  - destruct ca; cbn [mode_eqb andb orb].
    + destruct (get_upper_ok D n (f_x r) (f_wu r) (f_bu r 0%nat) Hd) as [ua Eu]. destruct (get_lower_ok D n (f_x r) (f_wl r) (f_bl r 0%nat) Hd) as [la El].
      rewrite Eu, El. cbn. eexists. split; [reflexivity|]. destruct (H2 eq_refl) as [Hx Ha]. split; cbn.
      * intros _ z j Hz Hj. unfold vt. pose proof (get_upper_sound D n _ _ _ ua z j Hn Eu (Hx z Hz)). pose proof (get_lower_sound D n _ _ _ la z j Hn El (Hx z Hz)).
        specialize (Ha z j Hz Hj). lra.
      * intros _. split; assumption.
    + replace (ti && false)%bool with false by (destruct ti; auto). exists r. split; [reflexivity|]. split; cbn; intros; [discriminate|auto].
  - destruct ti; cbn [mode_eqb andb orb]; rewrite ?andb_false_r, ?orb_true_r, ?orb_false_r.
    + destruct (get_upper_ok D n (f_x r) (f_wu r) (f_bu r 0%nat) Hd) as [ua Eu]. destruct (get_lower_ok D n (f_x r) (f_wl r) (f_bl r 0%nat) Hd) as [la El].
      cbn [orb]. rewrite Eu, El. cbn. eexists. split; [reflexivity|]. destruct (H2 eq_refl) as [Hx Ha]. split; cbn.
      * intros _ z j Hz Hj. unfold vt. pose proof (get_upper_sound D n _ _ _ ua z j Hn Eu (Hx z Hz)). pose proof (get_lower_sound D n _ _ _ la z j Hn El (Hx z Hz)).
        specialize (Ha z j Hz Hj). specialize (H1 eq_refl z j Hz Hj). pose proof (Rmax_case_lra (f_lc r 0%nat j) (la j)). pose proof (Rmin_case_lra (f_uc r 0%nat j) (ua j)). lra.
      * intros _. split; assumption.
    + exists r. split; [reflexivity|]. split; cbn; intros; auto.
Qed.

Lemma get_full_near : forall sp ca ti S m e f ts, (0 < sp_n sp)%nat -> dom_ok (sp_dom sp) (sp_mode sp) -> sp_dc sp = false ->
  near_sp sp S m e f ts ->
  exists r, get_fullinputs sp ca ti ts = Ok r /\ nfull (sp_dom sp) (get_ibp (sp_mode sp) || ca) (get_affine (sp_mode sp)) S (sp_n sp) m e f r.
Proof.
  intros sp ca ti S m e f ts Hn Hd Hdc H. destruct (near_unpack _ _ _ _ _ _ _ _ H) as (r & Er & V & _).
  unfold get_fullinputs. rewrite Hdc, Er. cbn [bind]. exact (complete_near sp ca ti S m e f r Hn Hd V).
Qed.

Lemma get_full_near_f : forall sp ti S m e f ts, (0 < sp_n sp)%nat -> dom_ok (sp_dom sp) (sp_mode sp) -> sp_dc sp = false ->
  near_sp sp S m e f ts -> exists r, get_fullinputs sp false ti ts = Ok r /\ nfull_sp sp S m e f r.
Proof.
  intros sp ti S m e f ts Hn Hd Hdc H. destruct (get_full_near sp false ti S m e f ts Hn Hd Hdc H) as (r & E & V). exists r. split; [exact E|].
  rewrite orb_false_r in V. exact V.
Qed.

(** ** linear layers *)
Definition pn_gain (mo : nat) (Ap An : vec -> vec) (K : R) : Prop :=
  forall (u l : vec) e j, 0 <= e -> (j < mo)%nat ->
    Ap (fun i => u i + e) j + An (fun i => l i - e) j <= Ap u j + An l j + K * e /\
    Ap l j + An u j - K * e <= Ap (fun i => l i - e) j + An (fun i => u i + e) j.

Lemma aff_shift : forall n w (b : vec) e z j, aff n w (fun k => b k + e) z j = aff n w b z j + e.
Proof. intros. unfold aff. lra. Qed.

Lemma lin_near : forall sp (S : vec -> Prop) m mo A Ap An ob K e f r o,
  pn_encl m mo A Ap An -> aff_op Ap -> aff_op An -> pn_gain mo Ap An K -> 0 <= e ->
  nfull_sp sp S m e f r -> lin_out sp A Ap An ob r o ->
  nfull_sp sp S mo (K * e) (fun z j => A (f z) j + bias_of ob j) o.
Proof.
  intros sp S m mo A Ap An ob K e f r o HE Lp Ln HK He [C V] [O1 O2].
  assert (Q : forall (v u l : vec), (forall i, (i < m)%nat -> l i - e <= v i <= u i + e) -> forall j, (j < mo)%nat ->
    Ap l j + An u j - K * e <= A v j <= Ap u j + An l j + K * e).
  { intros v u l H j Hj. pose proof (HE v (fun i => u i + e) (fun i => l i - e) H j Hj) as Q. destruct (HK u l e j He Hj). lra. }
  split.
  - intros Hi. destruct (O1 Hi) as [-> ->]. intros z j Hz Hj. specialize (Q (f z) (f_uc r 0%nat) (f_lc r 0%nat) (fun i Hi' => C Hi z i Hz Hi') j Hj).
    destruct ob as [b|]; cbn [add_bias bias_of]; lra.
  - intros Ha. destruct (O2 Ha) as (-> & -> & -> & -> & ->). destruct (V Ha) as [X B]. split; [exact X|]. intros z j Hz Hj.
    specialize (Q (f z) (fun k => aff (sp_n sp) (f_wu r) (f_bu r 0%nat) z k) (fun k => aff (sp_n sp) (f_wl r) (f_bl r 0%nat) z k) (fun i Hi' => B z i Hz Hi') j Hj).
    rewrite !Lp, !Ln in Q.
    assert (E : forall w1 w2 b1 b2, aff (sp_n sp) (fun i j => Ap (w1 i) j + An (w2 i) j) (add_bias ob (fun j => Ap b1 j + An b2 j)) z j =
      aff (sp_n sp) (fun i => Ap (w1 i)) (Ap b1) z j + aff (sp_n sp) (fun i => An (w2 i)) (An b2) z j + bias_of ob j).
    { intros w1 w2 b1 b2. rewrite <- aff_plus. destruct ob as [b|]; cbn [add_bias bias_of]; [apply aff_bias|lra]. }
    rewrite !E. lra.
Qed.

Lemma term_gain : forall k u u' l l' e, 0 <= e -> u' <= u + e -> l - e <= l' ->
  Rmax 0 k * u' + Rmin 0 k * l' <= Rmax 0 k * u + Rmin 0 k * l + Rabs k * e /\
  Rmax 0 k * l + Rmin 0 k * u - Rabs k * e <= Rmax 0 k * l' + Rmin 0 k * u'.
Proof.
  intros k u u' l l' e He Hu Hl. destruct (Rle_dec 0 k).
  - rewrite Rmax_right, Rmin_left, Rabs_pos_eq by lra. nra.
  - rewrite Rmax_left, Rmin_right, Rabs_left by lra. nra.
Qed.

Lemma kdot_gain : forall rows d units k, (0 < units)%nat ->
  pn_gain (rows * units) (kdotv d units (kpos k)) (kdotv d units (kneg k)) (rsum d (fun c => rsum units (fun u => Rabs (k c u)))).
Proof.
  intros rows d units k Hu u l e j He Hj. unfold kdotv, kpos, kneg. rewrite <- !rsum_plus.
  assert (Hm : (j mod units < units)%nat) by (apply Nat.mod_upper_bound; lia).
  assert (T : forall c, Rabs (k c (j mod units)%nat) * e <= rsum units (fun u => Rabs (k c u)) * e).
  { intros c. apply Rmult_le_compat_r; [exact He|]. apply (rsum_ge_term units (fun u => Rabs (k c u)) (j mod units)); [intros; apply Rabs_pos|exact Hm]. }
  rewrite <- rsum_scal_r. split.
  - rewrite <- rsum_plus. apply rsum_le. intros c _. specialize (T c).
    pose proof (term_gain (k c (j mod units)%nat) (u (j / units * d + c)%nat) (u (j / units * d + c)%nat + e) (l (j / units * d + c)%nat) (l (j / units * d + c)%nat - e) e He ltac:(lra) ltac:(lra)). lra.
  - apply Rplus_le_reg_r with (rsum d (fun c => rsum units (fun u => Rabs (k c u)) * e)). unfold Rminus at 1. rewrite Rplus_assoc, Rplus_opp_l, Rplus_0_r.
    rewrite <- rsum_plus. apply rsum_le. intros c _. specialize (T c).
    pose proof (term_gain (k c (j mod units)%nat) (u (j / units * d + c)%nat) (u (j / units * d + c)%nat + e) (l (j / units * d + c)%nat) (l (j / units * d + c)%nat - e) e He ltac:(lra) ltac:(lra)). lra.
Qed.

Lemma px_up : forall (v : vec) e o, 0 <= e -> px (fun i => v i + e) o <= px v o + e.
Proof. intros v e [i|] He; cbn; lra. Qed.
Lemma px_down : forall (v : vec) e o, 0 <= e -> px v o - e <= px (fun i => v i - e) o.
Proof. intros v e [i|] He; cbn; lra. Qed.

Definition conv_gain (g : conv_geo) (k : kernel4) : R :=
  rsum (wn_k (cg_y g)) (fun ky => rsum (wn_k (cg_x g)) (fun kx => rsum (cg_cin g) (fun c => rsum (cg_cout g) (fun f => Rabs (k ky kx c f))))).

Lemma rsum_sub_le : forall n f g h, (forall i, (i < n)%nat -> f i - h i <= g i) -> rsum n f - rsum n h <= rsum n g.
Proof.
  intros n f g h H. induction n; cbn; [lra|]. assert (f n - h n <= g n) by (apply H; lia). assert (rsum n f - rsum n h <= rsum n g) by (apply IHn; intros; apply H; lia). lra.
Qed.
Lemma rsum_le_add : forall n f g h, (forall i, (i < n)%nat -> g i <= f i + h i) -> rsum n g <= rsum n f + rsum n h.
Proof.
  intros n f g h H. induction n; cbn; [lra|]. assert (g n <= f n + h n) by (apply H; lia). assert (rsum n g <= rsum n f + rsum n h) by (apply IHn; intros; apply H; lia). lra.
Qed.

Lemma conv_pn_gain : forall g k, pn_gain (im_size (cg_out g)) (conv2d g (k4pos k)) (conv2d g (k4neg k)) (conv_gain g k).
Proof.
  intros g k u l e j He Hj. unfold conv2d, k4pos, k4neg, conv_gain. cbv zeta. rewrite <- !rsum_plus, <- rsum_scal_r.
  pose proof (im_ch_lt _ _ Hj) as Hc. cbn [cg_out im_c] in Hc.
  assert (T : forall ky kx c, Rabs (k ky kx c (im_ch (cg_out g) j)) * e <= rsum (cg_cout g) (fun f => Rabs (k ky kx c f)) * e).
  { intros. apply Rmult_le_compat_r; [exact He|]. apply (rsum_ge_term (cg_cout g) (fun f => Rabs (k ky kx c f)) (im_ch (cg_out g) j)); [intros; apply Rabs_pos|exact Hc]. }
  split.
  - apply rsum_le_add; intros ky _. rewrite <- !rsum_plus, <- rsum_scal_r. apply rsum_le_add; intros kx _. rewrite <- !rsum_plus, <- rsum_scal_r. apply rsum_le_add; intros c _.
    specialize (T ky kx c). set (s := px_src _ _ _ _ _ _ _ _ _).
    pose proof (term_gain (k ky kx c (im_ch (cg_out g) j)) (px u s) (px (fun i => u i + e) s) (px l s) (px (fun i => l i - e) s) e He (px_up u e s He) (px_down l e s He)). lra.
  - apply rsum_sub_le; intros ky _. rewrite <- !rsum_plus, <- rsum_scal_r. apply rsum_sub_le; intros kx _. rewrite <- !rsum_plus, <- rsum_scal_r. apply rsum_sub_le; intros c _.
    specialize (T ky kx c). set (s := px_src _ _ _ _ _ _ _ _ _).
    pose proof (term_gain (k ky kx c (im_ch (cg_out g) j)) (px u s) (px (fun i => u i + e) s) (px l s) (px (fun i => l i - e) s) e He (px_up u e s He) (px_down l e s He)). lra.
Qed.

Section Ops.
Variables (ke : R) (sp : spec) (S : vec -> Prop).
Hypothesis Hke : 0 < ke.
Hypothesis Hn : (0 < sp_n sp)%nat.
Hypothesis Hd : dom_ok (sp_dom sp) (sp_mode sp).
Hypothesis Hdc : sp_dc sp = false.

Lemma dense_near : forall rows d units kernel bias e f ts, (0 < units)%nat -> 0 <= e -> near_sp sp S (rows * d) e f ts ->
  exists out, decomon_dense sp d units kernel bias false None ts = Ok out /\
    near_sp sp S (rows * units) (rsum d (fun c => rsum units (fun u => Rabs (kernel c u))) * e) (fun z => keras_dense d units kernel (bias_of bias) (f z)) out.
Proof.
  intros rows d units kernel bias e f ts Hu He H. destruct (get_full_near_f sp true S _ e f ts Hn Hd Hdc H) as (r & Er & V).
  unfold decomon_dense. rewrite get_fullinputs_r_false, Er. cbn [bind].
  destruct (dense_full_out sp d units kernel bias r) as (o & Eo & Lo). rewrite Eo. cbn [bind]. eexists. split; [reflexivity|].
  apply nfull_out; [exact Hdc|].
  pose proof (lin_near sp S _ _ _ _ _ _ _ e f r o (kdot_encl rows d units kernel Hu) (kdot_aff _ _ _) (kdot_aff _ _ _) (kdot_gain rows d units kernel Hu) He V Lo) as N.
  eapply nfull_weaken; [|intros z j _ _|exact N]; [lra|]. cbn beta. rewrite tile_bias. reflexivity.
Qed.

Lemma conv_near : forall g kernel bias e f ts, 0 <= e -> near_sp sp S (im_size (cg_in g)) e f ts ->
  exists out, decomon_conv2d sp g kernel bias false ts = Ok out /\
    near_sp sp S (im_size (cg_out g)) (conv_gain g kernel * e) (fun z => keras_conv2d g kernel (bias_of bias) (f z)) out.
Proof.
  intros g kernel bias e f ts He H. destruct (get_full_near_f sp true S _ e f ts Hn Hd Hdc H) as (r & Er & V).
  unfold decomon_conv2d. rewrite get_fullinputs_r_false, Er. cbn [bind].
  destruct (conv_full_out sp g kernel bias r Hd) as (o & Eo & Lo). rewrite Eo. cbn [bind]. eexists. split; [reflexivity|].
  apply nfull_out; [exact Hdc|].
  pose proof (lin_near sp S _ _ _ _ _ _ _ e f r o (conv_encl g kernel) (conv_aff _ _) (conv_aff _ _) (conv_pn_gain g kernel) He V Lo) as N.
  eapply nfull_weaken; [|intros z j _ _|exact N]; [lra|]. cbn beta. rewrite conv_bias_of. reflexivity.
Qed.

Lemma finish_near : forall m e g r, nfull_sp sp S m e g r -> exists out, finish sp r = Ok out /\ near_sp sp S m e g out.
Proof.
  intros m e g r H. unfold finish. rewrite Hdc. eexists. split; [reflexivity|]. apply nfull_near. exact H.
Qed.

Lemma bn_gain_term : forall g m s u l e, 0 < s -> 0 <= e ->
  Rmax 0 g * ((u + e - m) / s) + Rmin 0 g * ((l - e - m) / s) <= Rmax 0 g * ((u - m) / s) + Rmin 0 g * ((l - m) / s) + Rabs g / s * e /\
  Rmax 0 g * ((l - m) / s) + Rmin 0 g * ((u - m) / s) - Rabs g / s * e <= Rmax 0 g * ((l - e - m) / s) + Rmin 0 g * ((u + e - m) / s).
Proof.
  intros g m s u l e Hs He. assert (E1 : (u + e - m) / s = (u - m) / s + e / s) by (field; lra). assert (E2 : (l - e - m) / s = (l - m) / s - e / s) by (field; lra).
  assert (E3 : Rabs g / s * e = Rabs g * (e / s)) by (field; lra). rewrite E1, E2, E3.
  assert (0 <= e / s) by (apply Rmult_le_pos; [exact He|left; apply Rinv_0_lt_compat; exact Hs]).
  apply term_gain; lra.
Qed.

Lemma bn_near : forall pre k post axis gamma beta mean var eps e f g ts,
  bn_axis pre post axis -> (forall c, (c < k)%nat -> 0 < var c + eps) -> 0 <= e ->
  (forall z p c q, in_shape pre p -> in_shape post q -> (c < k)%nat ->
     g z (ravel (pre ++ k :: post) (p ++ c :: q)) =
     keras_bn (match gamma with Some v => v | None => fun _ => 1 end) (match beta with Some v => v | None => fun _ => 0 end)
       mean var eps c (f z (ravel (pre ++ k :: post) (p ++ c :: q)))) ->
  near_sp sp S (prodn (pre ++ k :: post)) e f ts ->
  exists out, decomon_bn sp (pre ++ k :: post) axis gamma beta mean var eps false ts = Ok out /\
    near_sp sp S (prodn (pre ++ k :: post)) (rsum k (fun c => Rabs (match gamma with Some v => v | None => fun _ => 1 end c) / sqrt (var c + eps)) * e) g out.
Proof.
  intros pre k post axis gamma beta mean var eps e f g ts Hax Hv He Hg Hop.
  destruct (get_full_near_f sp true S _ e f ts Hn Hd Hdc Hop) as (r & Er & C & A).
  unfold decomon_bn. rewrite Er. cbn [bind].
  assert (Eax : b_axis (pre ++ k :: post) axis = Ok (length pre)).
  { destruct Hax as [-> | ->]; [apply b_axis_pos | apply b_axis_neg]. }
  rewrite Eax. cbn [bind]. apply finish_near.
  set (ga := match gamma with Some v => v | None => fun _ => 1 end) in *.
  set (be := match beta with Some v => v | None => fun _ => 0 end) in *.
  set (G := rsum k (fun c => Rabs (ga c) / sqrt (var c + eps))).
  assert (Split : forall j, (j < prodn (pre ++ k :: post))%nat -> exists c, (c < k)%nat /\
     bn_chan (pre ++ k :: post) (length pre) j = c /\ 0 < sqrt (var c + eps) /\ Rabs (ga c) / sqrt (var c + eps) * e <= G * e /\
     forall z, g z j = ga c * (f z j - mean c) / sqrt (var c + eps) + be c).
  { intros j Hj. destruct (unravel_spec _ _ Hj) as [I E].
    apply Forall2_app_inv_l in I. destruct I as (p & q & Ip & Iq & E').
    inversion Iq as [|? c ? q' Hc Iq' E1 E2]; subst.
    exists c. repeat split; auto.
    - rewrite <- E, E'. apply bn_chan_at; auto.
    - apply sqrt_lt_R0. auto.
    - apply Rmult_le_compat_r; [exact He|]. apply (rsum_ge_term k (fun c => Rabs (ga c) / sqrt (var c + eps)) c); [|exact Hc]. intros i Hi.
      apply Rmult_le_pos; [apply Rabs_pos|]. left. apply Rinv_0_lt_compat, sqrt_lt_R0. auto.
    - intros z. rewrite <- E, E'. rewrite Hg by auto. reflexivity. }
  split.
  - intros Hi. rewrite Hi. cbn [when f_uc f_lc]. intros z j Hz Hj.
    destruct (Split j Hj) as (c & Hc & Ec & Hs & HG & Eg). rewrite Eg, Ec.
    pose proof (bn_term (ga c) (mean c) _ _ _ _ Hs (C Hi z j Hz Hj)). pose proof (bn_gain_term (ga c) (mean c) _ (f_uc r 0%nat j) (f_lc r 0%nat j) e Hs He). lra.
  - intros Ha. rewrite Ha. cbn [when f_x f_wu f_bu f_wl f_bl]. destruct (A Ha) as [X B]. split; auto.
    intros z j Hz Hj. destruct (Split j Hj) as (c & Hc & Ec & Hs & HG & Eg). rewrite Eg.
    specialize (B z j Hz Hj).
    pose proof (bn_term (ga c) (mean c) _ _ _ _ Hs B) as T.
    pose proof (bn_gain_term (ga c) (mean c) _ (aff (sp_n sp) (f_wu r) (f_bu r 0%nat) z j) (aff (sp_n sp) (f_wl r) (f_bl r 0%nat) z j) e Hs He) as T'.
    assert (Hs' : sqrt (var c + eps) <> 0) by lra.
    pose proof (aff_bn (sp_n sp) (Rmax 0 (ga c)) (sqrt (var c + eps)) (mean c) (f_wl r) (f_wu r) (f_bl r 0%nat) (f_bu r 0%nat) (Rmin 0 (ga c)) (be c) z j Hs') as L.
    pose proof (aff_bn (sp_n sp) (Rmax 0 (ga c)) (sqrt (var c + eps)) (mean c) (f_wu r) (f_wl r) (f_bu r 0%nat) (f_bl r 0%nat) (Rmin 0 (ga c)) (be c) z j Hs') as U.
    unfold aff in L, U |- *. rewrite Ec. unfold aff in T, T'. lra.
Qed.

(** ** layers that move entries *)
Lemma move_near : forall m mo e f idx (op opw : tensor -> tensor) ts,
  (forall j, (j < mo)%nat -> (idx j < m)%nat) ->
  (forall t j, (j < mo)%nat -> op t 0%nat j = t 0%nat (idx j)) ->
  (forall t i j, (i < sp_n sp)%nat -> (j < mo)%nat -> opw t i j = t i (idx j)) ->
  near_sp sp S m e f ts ->
  exists r, get_fullinputs sp false true ts = Ok r /\
    near_sp sp S mo e (fun z j => f z (idx j)) (extract (sp_mode sp) (sp_dc sp) (move_full sp op opw r)).
Proof.
  intros m mo e f idx op opw ts Hi Hop Hw Hv.
  destruct (get_full_near_f sp true S m e f ts Hn Hd Hdc Hv) as (r & E & C & A). exists r. split; [exact E|]. apply nfull_out; [exact Hdc|]. split.
  - intros H. unfold move_full. rewrite H. cbn [when f_uc f_lc]. intros z j Hz Hj. rewrite !Hop by auto. apply C; auto.
  - intros H. destruct (A H) as [X B]. unfold move_full. rewrite H. cbn [when f_x f_wu f_bu f_wl f_bl]. split; auto.
    intros z j Hz Hj.
    assert (Q : forall (w b : tensor), aff (sp_n sp) (opw w) (op b 0%nat) z j = aff (sp_n sp) w (b 0%nat) z (idx j)).
    { intros w b. unfold aff. rewrite Hop by auto. f_equal. apply dot_ext; auto. }
    rewrite !Q. apply B; auto.
Qed.

Lemma flatten_near : forall (cf : bool) ch size e f ts, (sp_mode sp = IBP \/ cf = false) ->
  near_sp sp S (ch * size) e f ts ->
  exists out, decomon_flatten sp cf ch size ts = Ok out /\ near_sp sp S (ch * size) e (fun z j => f z (flatten_idx cf ch size j)) out.
Proof.
  intros cf ch size e f ts Hm Hv. unfold decomon_flatten.
  assert (Hi : forall j, (j < ch * size)%nat -> (flatten_idx cf ch size j < ch * size)%nat).
  { intros j Hj. unfold flatten_idx. destruct cf; auto.
    assert (ch <> 0%nat) by (intro K; rewrite K in Hj; lia).
    assert (j mod ch < ch)%nat by (apply Nat.mod_upper_bound; auto).
    assert (j / ch < size)%nat by (apply Nat.div_lt_upper_bound; auto). nia. }
  destruct Hm as [Hm|Hm].
  - destruct (get_full_near_f sp true S _ e f ts Hn Hd Hdc Hv) as (r & E & C & A).
    rewrite E. cbn [bind]. eexists. split; [reflexivity|]. apply nfull_out; [exact Hdc|]. split.
    + intros Hb. unfold move_full. rewrite Hb. cbn [when f_uc f_lc]. intros z j Hz Hj. unfold gather. apply C; auto.
    + rewrite Hm. intros K; discriminate K.
  - subst cf.
    destruct (move_near _ _ e f (flatten_idx false ch size) (gather (flatten_idx false ch size)) (fun t => t) ts Hi) as (r & E & V); auto.
    rewrite E. cbn [bind]. eexists. split; [reflexivity|]. exact V.
Qed.

Lemma reshape_near : forall m e f ts, near_sp sp S m e f ts -> exists out, decomon_reshape sp ts = Ok out /\ near_sp sp S m e f out.
Proof.
  intros m e f ts Hv. unfold decomon_reshape.
  destruct (move_near m m e f (fun j => j) (fun t => t) (fun t => t) ts) as (r & E & V); auto.
  rewrite E. cbn [bind]. eexists. split; [reflexivity|]. exact V.
Qed.

Lemma permute_near : forall s dims e f g ts,
  Permutation dims (seq 1 (length s)) -> permutes (map pred dims) s f g -> near_sp sp S (prodn s) e f ts ->
  exists out, decomon_permute sp s dims ts = Ok out /\ near_sp sp S (prodn (permuted (map pred dims) s)) e g out.
Proof.
  intros s dims e f g ts HP Hg Hv.
  assert (HP' : Permutation (map pred dims) (seq 0 (length s))).
  { apply (Permutation_map pred) in HP. rewrite <- seq_shift, map_map in HP. cbn in HP. rewrite map_id in HP. auto. }
  unfold decomon_permute.
  destruct (move_near (prodn s) (prodn (permuted (map pred dims) s)) e f (transpose_idx s (map pred dims))
    (gather (transpose_idx s (map pred dims))) (gather (transpose_idx s (map pred dims))) ts) as (r & E & V); auto.
  { intros j Hj. apply transpose_lt; auto. }
  rewrite E. cbn [bind]. eexists. split; [reflexivity|].
  eapply near_sp_weaken; [apply Rle_refl| |exact V]. intros z j _ Hj. cbv beta.
  destruct (transpose_split _ s j HP' Hj) as (p & I & ->). rewrite transpose_at by auto. symmetry. apply Hg; auto.
Qed.

(** ** operators *)
Lemma add_near : forall m e0 e1 f0 f1 in0 in1, near_sp sp S m e0 f0 in0 -> near_sp sp S m e1 f1 in1 ->
  exists out, add sp in0 in1 = Ok out /\ near_sp sp S m (e0 + e1) (fun z j => f0 z j + f1 z j) out.
Proof.
  intros m e0 e1 f0 f1 in0 in1 H0 H1.
  destruct (get_full_near sp true true S m e0 f0 in0 Hn Hd Hdc H0) as (r0 & E0 & C0 & A0).
  destruct (get_full_near sp true true S m e1 f1 in1 Hn Hd Hdc H1) as (r1 & E1 & C1 & A1).
  unfold add. rewrite E0, E1. cbn [bind]. eexists. split; [reflexivity|].
  apply nfull_out; [exact Hdc|]. rewrite orb_true_r in *. split.
  - intros _ z j Hz Hj. cbn. specialize (C0 eq_refl z j Hz Hj). specialize (C1 eq_refl z j Hz Hj). lra.
  - intros Ha. destruct (A0 Ha) as [X0 B0]. destruct (A1 Ha) as [X1 B1]. split; [exact X0|].
    intros z j Hz Hj. cbn [add_full f_wu f_bu f_wl f_bl].
    specialize (B0 z j Hz Hj). specialize (B1 z j Hz Hj).
    rewrite (aff_plus _ (f_wl r0) (f_wl r1) (f_bl r0 0%nat) (f_bl r1 0%nat)).
    rewrite (aff_plus _ (f_wu r0) (f_wu r1) (f_bu r0 0%nat) (f_bu r1 0%nat)). lra.
Qed.

Lemma minus_near : forall m e f ts, near_sp sp S m e f ts -> exists out, minus sp ts = Ok out /\ near_sp sp S m e (fun z j => - f z j) out.
Proof.
  intros m e f ts H.
  destruct (get_full_near_f sp false S m e f ts Hn Hd Hdc H) as (r & E & C & A).
  unfold minus. rewrite E. cbn [bind]. eexists. split; [reflexivity|]. apply nfull_out; [exact Hdc|]. split.
  - intros Hi z j Hz Hj. cbn. specialize (C Hi z j Hz Hj). lra.
  - intros Ha. destruct (A Ha) as [X B]. split; [exact X|].
    intros z j Hz Hj. cbn [minus_full f_wu f_bu f_wl f_bl].
    specialize (B z j Hz Hj).
    rewrite (aff_opp _ (f_wl r) (f_bl r 0%nat)). rewrite (aff_opp _ (f_wu r) (f_bu r 0%nat)). lra.
Qed.

Lemma subtract_near : forall m e0 e1 f0 f1 in0 in1, near_sp sp S m e0 f0 in0 -> near_sp sp S m e1 f1 in1 ->
  exists out, subtract sp in0 in1 = Ok out /\ near_sp sp S m (e0 + e1) (fun z j => f0 z j - f1 z j) out.
Proof.
  intros m e0 e1 f0 f1 in0 in1 H0 H1. unfold subtract.
  destruct (minus_near m e1 f1 in1 H1) as (m1 & E1 & V1). rewrite E1. cbn [bind].
  exact (add_near m e0 e1 f0 _ in0 m1 H0 V1).
Qed.

Lemma hull_relu_near : forall sl ft u l z e, 0 <= e -> l - e <= z <= u + e ->
  (match ft with Some g => 0 <= g <= 1 | None => True end) ->
  let h := hull_relu ke sl ft u l in
  0 <= h_wu h <= 1 /\ 0 <= h_wl h <= 1 /\ h_wl h * z + h_bl h <= Rrelu z <= h_wu h * z + h_bu h + e + ke.
Proof.
  intros sl ft u l z e He Hz Hft h.
  destruct (Rle_dec 0 l) as [Hl|Hl].
  { unfold h. rewrite hull_relu_linear by auto. cbn. unfold Rrelu; repeat split; rcases. }
  destruct (Rle_dec u 0) as [Hu|Hu].
  { unfold h. rewrite hull_relu_dead by lra. cbn. unfold Rrelu; repeat split; rcases. }
  destruct (hull_relu_cross ke sl ft u l) as (A & B & C & D); try lra; auto.
  fold h in A, B, C, D. rewrite A, B, D.
  set (d := Rmax ke (u - l)) in *. assert (Hdk : ke <= d) by apply Rmax_l. assert (Hdu : u - l <= d) by apply Rmax_r.
  set (a := u / d) in *. assert (Ha : a * d = u) by (unfold a; field; lra).
  assert (Ha1 : 0 <= a <= 1) by (split; nra).
  split; [exact Ha1|]. split; [exact C|]. split; [unfold Rrelu, Rmax; destruct Rle_dec; nra|].
  assert (H0 : 0 <= a * z + - a * l + e + ke) by nra.
  unfold Rrelu. apply Rmax_lub; [|exact H0].
  destruct (Rmax_case_lra ke (u - l)) as [[_ E]|[K E]]; fold d in E.
  - assert (a * (u - l) = u) by (rewrite <- E; exact Ha). nra.
  - assert (z <= ke + e) by lra. destruct (Rle_dec 0 z) as [Hz0|Hz0]; [|lra]. assert (0 <= a * z) by nra. assert (0 <= a * - l) by nra. lra.
Qed.

Lemma relu_near : forall sl ft m e f ts, ft_ok m ft -> 0 <= e -> near_sp sp S m e f ts ->
  exists out, relu_ ke sp sl ft ts = Ok out /\ near_sp sp S m (2 * e + ke) (fun z j => Rrelu (f z j)) out.
Proof.
  intros sl ft m e f ts Hft He H.
  destruct (get_full_near sp true true S m e f ts Hn Hd Hdc H) as (r & E & C & A).
  unfold relu_. rewrite E. cbn [bind]. eexists. split; [reflexivity|].
  rewrite orb_true_r in C. specialize (C eq_refl).
  apply nfull_out; [exact Hdc|]. unfold relu_full. split.
  - intros Hi. rewrite Hi, Hdc. destruct (get_affine (sp_mode sp)); cbn;
    intros z j Hz Hj; specialize (C z j Hz Hj); unfold Rrelu; split; rcases.
  - intros Ha. rewrite Ha. destruct (A Ha) as [X B].
    set (hl := fun j => hull_relu ke sl (option_map (fun v : vec => v j) ft) (f_uc r 0%nat j) (f_lc r 0%nat j)).
    assert (G : affine_near S (sp_n sp) m (2 * e + ke) (fun z j => Rrelu (f z j))
      (fun i j => h_wu (hl j) * f_wu r i j) (fun j => h_wu (hl j) * f_bu r 0%nat j + h_bu (hl j))
      (fun i j => h_wl (hl j) * f_wl r i j) (fun j => h_wl (hl j) * f_bl r 0%nat j + h_bl (hl j))).
    { intros z j Hz Hj. specialize (C z j Hz Hj). specialize (B z j Hz Hj).
      destruct (hull_relu_near sl _ _ _ (f z j) e He C (ft_ok_at m ft j Hft Hj)) as (W1 & W2 & L & U). fold (hl j) in W1, W2, L, U.
      rewrite (aff_scal (sp_n sp) (fun j => h_wu (hl j)) (f_wu r) (f_bu r 0%nat) (fun j => h_bu (hl j)) z j).
      rewrite (aff_scal (sp_n sp) (fun j => h_wl (hl j)) (f_wl r) (f_bl r 0%nat) (fun j => h_bl (hl j)) z j).
      split; nra. }
    rewrite Hdc. destruct (get_ibp (sp_mode sp)); cbn; split; auto.
Qed.

Lemma maximum_near : forall ft m e0 e1 f0 f1 in0 in1, ft_ok m ft -> 0 <= e0 -> 0 <= e1 ->
  near_sp sp S m e0 f0 in0 -> near_sp sp S m e1 f1 in1 ->
  exists out, maximum ke sp ft in0 in1 = Ok out /\ near_sp sp S m (3 * e0 + 2 * e1 + ke) (fun z j => Rmax (f0 z j) (f1 z j)) out.
Proof.
  intros ft m e0 e1 f0 f1 in0 in1 Hft He0 He1 H0 H1. unfold maximum.
  destruct (subtract_near m e1 e0 f1 f0 in1 in0 H1 H0) as (d & Ed & Vd). rewrite Ed. cbn [bind].
  destruct (relu_near V_SLOPE ft m (e1 + e0) _ d Hft ltac:(lra) Vd) as (rl & Er & Vr).
  rewrite Er. cbn [bind].
  destruct (add_near m _ _ _ f0 rl in0 Vr H0) as (o & Eo & Vo).
  exists o. split; auto. eapply near_sp_weaken; [| |exact Vo]; [lra|].
  intros z j _ _. cbn. unfold Rrelu. rcases.
Qed.

(** ** merge layers *)
Lemma by_type_near : forall (ms : nat -> nat) e (fs : nat -> vec -> vec) ls,
  (forall i l, nth_error ls i = Some l -> near_sp sp S (ms i) e (fs i) l) ->
  exists R, get_fullinputs_by_type sp false true (concat ls) = Ok R /\
    length (f_x R) = length ls /\
    (get_ibp (sp_mode sp) = true -> length (f_uc R) = length ls /\ length (f_lc R) = length ls) /\
    (get_affine (sp_mode sp) = true -> length (f_wu R) = length ls /\ length (f_bu R) = length ls /\
       length (f_wl R) = length ls /\ length (f_bl R) = length ls) /\
    forall i, (i < length ls)%nat -> nfull_sp sp S (ms i) e (fs i) (rowd R i).
Proof.
  intros ms e fs ls Hv.
  assert (Hlen : forall l, In l ls -> length l = spec_nb (sp_mode sp) (sp_dc sp)).
  { intros l Hl. apply In_nth_error in Hl. destruct Hl as [i Hi]. rewrite Hdc. exact (near_length _ _ _ _ _ _ _ _ (Hv i l Hi)). }
  destruct (merge_slices _ _ ls Hlen) as [HL HR].
  assert (Hbase : forall i l r, nth_error ls i = Some l -> unpack empty_tensor (sp_mode sp) (sp_dc sp) l = Ok r -> nfull_sp sp S (ms i) e (fs i) r).
  { intros i l r Hi Er. destruct (near_unpack _ _ _ _ _ _ _ _ (Hv i l Hi)) as (r' & Er' & V & _). rewrite Hdc in Er. assert (r' = r) by congruence. subst r'. exact V. }
  unfold nfull_sp in *. destruct (sp_mode sp) eqn:Em.
  - (* IBP *)
    exists (deref (merge_store empty_tensor IBP (sp_dc sp) (concat ls)) (merge_refs IBP (sp_dc sp))).
    unfold get_fullinputs_by_type. rewrite Em. cbn [mode_eqb andb orb].
    destruct HL as (L1 & L2 & L3 & L4 & L5 & L6 & L7 & _).
    split; [reflexivity|]. split; auto. split; [auto|]. split; [auto|].
    intros i Hi. destruct (nth_error ls i) as [l|] eqn:El; [|apply nth_error_None in El; lia].
    destruct (HR i l El) as (r & Er & Q). rewrite (row_is_rowd _ _ _ Q). eapply Hbase; eauto.
  - (* AFFINE *)
    exists (deref (merge_store empty_tensor AFFINE (sp_dc sp) (concat ls)) (merge_refs AFFINE (sp_dc sp))).
    unfold get_fullinputs_by_type. rewrite Em. cbn [mode_eqb andb orb].
    destruct HL as (L1 & L2 & L3 & L4 & L5 & L6 & L7 & _).
    split; [reflexivity|]. split; auto. split; [discriminate|]. split; [auto|].
    intros i Hi. destruct (nth_error ls i) as [l|] eqn:El; [|apply nth_error_None in El; lia].
    destruct (HR i l El) as (r & Er & Q). rewrite (row_is_rowd _ _ _ Q). eapply Hbase; eauto.
  - (* HYBRID *)
    destruct (merge_by_type_ok sp false true ls) as (R & ER & AL & Hrow); auto; try (rewrite Em; discriminate).
    { intros l Hl. rewrite Em. auto. }
    exists R. split; auto. destruct AL as (L1 & L2 & L3 & L4 & L5 & L6 & L7 & _).
    split; [auto|]. split; [auto|]. split; [auto|].
    intros i Hi. destruct (nth_error ls i) as [l|] eqn:El; [|apply nth_error_None in El; lia].
    destruct (Hrow i l El) as (r & Er & Q). rewrite (row_is_rowd _ _ _ Q).
    destruct (get_full_near sp false true S (ms i) e (fs i) l Hn ltac:(rewrite Em; exact Hd) Hdc (Hv i l El)) as (r' & Er' & V).
    assert (r = r') by congruence. subst r'. rewrite Em in V. exact V.
Qed.

Lemma rsum_const : forall k (c : R), rsum k (fun _ => c) = INR k * c.
Proof. induction k as [|k IH]; intros c; [cbn; lra|]. cbn [rsum]. rewrite IH, S_INR. lra. Qed.

Lemma merge_reduce_near : forall m e (c : R) (op : list tensor -> tensor) fs ls, 0 <= c ->
  (forall l i j, length l = length ls -> op l i j = c * rsum (length l) (fun k => nth k l empty_tensor i j)) ->
  Forall2 (near_sp sp S m e) fs ls -> ls <> [] ->
  exists out, merge_reduce sp op op (concat ls) = Ok out /\
    near_sp sp S m (c * INR (length ls) * e) (fun z j => c * sum_list (vals fs z j)) out.
Proof.
  intros m e c op fs ls Hc Hop HF Hne.
  pose proof (Forall2_length' _ _ _ _ _ HF) as HFl.
  destruct (by_type_near (fun _ => m) e (fun i => nth i fs f_dflt) ls) as (R & ER & Lx & Li & La & Hrow).
  { intros i l Hi. apply (Forall2_nth_error _ _ _ _ _ HF i l f_dflt Hi). }
  unfold merge_reduce. rewrite ER. cbn [bind].
  destruct (f_x R) as [|x xs] eqn:Ex.
  { destruct ls; [congruence | discriminate Lx]. }
  rewrite Hdc.
  assert (Hpos : (0 < length ls)%nat) by (destruct ls; [congruence | cbn; lia]).
  assert (Sum : forall (lo v up : vec), (forall i, (i < length ls)%nat -> lo i - e <= v i <= up i + e) ->
    c * rsum (length ls) lo - c * INR (length ls) * e <= c * rsum (length ls) v <= c * rsum (length ls) up + c * INR (length ls) * e).
  { intros lo v up H. pose proof (rsum_const (length ls) e) as K.
    assert (H1 : rsum (length ls) lo - rsum (length ls) (fun _ => e) <= rsum (length ls) v) by (apply rsum_sub_le; intros; apply H; assumption).
    assert (H2 : rsum (length ls) v <= rsum (length ls) up + rsum (length ls) (fun _ => e)) by (apply rsum_le_add; intros; apply H; assumption).
    rewrite K in H1, H2. rewrite Rmult_assoc. split.
    - rewrite <- Rmult_minus_distr_l. apply Rmult_le_compat_l; assumption.
    - rewrite <- Rmult_plus_distr_l. apply Rmult_le_compat_l; assumption. }
  assert (G : nfull_sp sp S m (c * INR (length ls) * e)
     (fun z j => c * sum_list (vals fs z j))
     (mk_full x (op (f_uc R)) (op (f_wu R)) (op (f_bu R)) (op (f_lc R)) (op (f_wl R)) (op (f_bl R)) empty_tensor empty_tensor)).
  { split.
    - intros Hi. destruct (Li Hi) as [L1 L2]. intros z j Hz Hj. cbn [f_uc f_lc].
      rewrite !Hop by auto. rewrite sum_vals, L1, L2, HFl. apply Sum.
      intros i Hik. destruct (Hrow i Hik) as [V _]. exact (V Hi z j Hz Hj).
    - intros Ha. destruct (La Ha) as (L1 & L2 & L3 & L4). split.
      + intros z Hz. destruct (Hrow 0%nat Hpos) as [_ V]. destruct (V Ha) as [V1 _].
        unfold rowd in V1. cbn [f_x] in V1. rewrite Ex in V1. exact (V1 z Hz).
      + intros z j Hz Hj. cbn [f_wu f_bu f_wl f_bl].
        assert (E : forall W B, length W = length ls -> length B = length ls ->
          aff (sp_n sp) (op W) (op B 0%nat) z j =
          c * rsum (length ls) (fun k => aff (sp_n sp) (nth k W empty_tensor) (nth k B empty_tensor 0%nat) z j)).
        { intros W B LW LB. unfold aff. rewrite Hop by auto.
          rewrite (dot_ext _ _ (fun i => c * rsum (length W) (fun k => nth k W empty_tensor i j)) z z) by (intros; auto).
          rewrite dot_scal_l, (dot_sum_l (sp_n sp) (length W) (fun i k => nth k W empty_tensor i j)).
          rewrite rsum_plus, LW, LB. lra. }
        rewrite !E by auto. rewrite sum_vals, HFl. apply Sum.
        intros i Hik. destruct (Hrow i Hik) as [_ V]. destruct (V Ha) as [_ V2]. exact (V2 z j Hz Hj). }
  unfold nfull_sp in G. destruct G as [G1 G2].
  destruct (get_ibp (sp_mode sp)) eqn:Ei, (get_affine (sp_mode sp)) eqn:Ea;
    (eexists; split; [reflexivity|]); apply nfull_near; rewrite Ei, Ea; split; auto; discriminate.
Qed.

Lemma decomon_add_near : forall m e fs ls, Forall2 (near_sp sp S m e) fs ls -> ls <> [] ->
  exists out, decomon_add sp (concat ls) = Ok out /\ near_sp sp S m (INR (length ls) * e) (fun z j => sum_list (vals fs z j)) out.
Proof.
  intros m e fs ls HF Hne.
  destruct (merge_reduce_near m e 1 sum_t fs ls) as (o & E & V); auto; try lra.
  { intros. rewrite sum_t_rsum. lra. }
  exists o. split; auto. eapply near_sp_weaken; [| |exact V]; [lra|]. intros. cbn. lra.
Qed.

Lemma decomon_average_near : forall m e fs ls, Forall2 (near_sp sp S m e) fs ls -> ls <> [] ->
  exists out, decomon_average sp (concat ls) = Ok out /\ near_sp sp S m e (fun z j => sum_list (vals fs z j) / INR (length fs)) out.
Proof.
  intros m e fs ls HF Hne.
  pose proof (Forall2_length' _ _ _ _ _ HF) as HFl.
  assert (0 < INR (length ls)) by (apply lt_0_INR; destruct ls; [congruence | cbn; lia]).
  destruct (merge_reduce_near m e (/ INR (length ls)) avg_t fs ls) as (o & E & V); auto.
  { left. apply Rinv_0_lt_compat. auto. }
  { intros l i j Hl. unfold avg_t. rewrite sum_t_rsum, Hl. unfold Rdiv. lra. }
  exists o. split; auto. eapply near_sp_weaken; [| |exact V].
  - rewrite Rinv_l by lra. lra.
  - intros. cbn. rewrite HFl. unfold Rdiv. lra.
Qed.

Lemma split_near : forall m e fs ls, Forall2 (near_sp sp S m e) fs ls ->
  split_to_merge (nb_tensors (sp_mode sp) (sp_dc sp)) (concat ls) = ls.
Proof.
  intros m e fs ls H. rewrite nb_tensors_spec. apply split_to_merge_concat.
  - destruct (sp_mode sp), (sp_dc sp); cbn; lia.
  - intros l Hl. induction H; [contradiction|]. destruct Hl as [<-|Hl]; [|auto]. rewrite Hdc. exact (near_length _ _ _ _ _ _ _ _ H).
Qed.

Lemma decomon_subtract_near : forall m e f0 f1 in0 in1, near_sp sp S m e f0 in0 -> near_sp sp S m e f1 in1 ->
  exists out, decomon_subtract sp (in0 ++ in1) = Ok out /\ near_sp sp S m (2 * e) (fun z j => f0 z j - f1 z j) out.
Proof.
  intros m e f0 f1 in0 in1 H0 H1. unfold decomon_subtract. rewrite Hdc, <- Hdc.
  replace (in0 ++ in1) with (concat [in0; in1]) by (cbn; rewrite app_nil_r; auto).
  rewrite (split_near m e [f0; f1]) by (do 2 (apply Forall2_cons; [assumption|]); apply Forall2_nil).
  destruct (subtract_near m e e f0 f1 in0 in1 H0 H1) as (o & E & V). exists o. split; [exact E|]. eapply near_sp_weaken; [| |exact V]; [lra|reflexivity].
Qed.

Lemma max_fold_near : forall m e fs ls, 0 <= e -> Forall2 (near_sp sp S m e) fs ls -> forall e0 f0 o, e <= e0 ->
  near_sp sp S m e0 f0 o ->
  exists out, foldR (maximum ke sp None) ls o = Ok out /\
    near_sp sp S m (6 ^ length ls * (e0 + ke)) (fun z j => max_list (f0 z j) (vals fs z j)) out.
Proof.
  intros m e fs ls He HF. induction HF as [|f l fs ls Hf HF IH]; intros e0 f0 o He0 Ho.
  - exists o. split; auto. eapply near_sp_weaken; [| |exact Ho]; [cbn; lra|reflexivity].
  - destruct (maximum_near None m e0 e f0 f o l I ltac:(lra) He Ho Hf) as (o' & E' & V').
    cbn [foldR]. rewrite E'. cbn [bind].
    destruct (IH (5 * e0 + ke) (fun z j => Rmax (f0 z j) (f z j)) o' ltac:(lra)) as (out & E & V).
    { eapply near_sp_weaken; [| |exact V']; [lra|reflexivity]. }
    exists out. split; auto. eapply near_sp_weaken; [| |exact V]; [|reflexivity].
    cbn [length pow]. assert (0 <= 6 ^ length ls) by (apply pow_le; lra). nra.
Qed.

Lemma decomon_maximum_near : forall m e f0 fs ls, 0 <= e -> Forall2 (near_sp sp S m e) (f0 :: fs) ls ->
  exists out, decomon_maximum ke sp (concat ls) = Ok out /\
    near_sp sp S m (6 ^ length ls * (e + ke)) (fun z j => max_list (f0 z j) (vals fs z j)) out.
Proof.
  intros m e f0 fs ls He HF. unfold decomon_maximum. rewrite Hdc, <- Hdc.
  rewrite (split_near m e _ ls HF). inversion HF as [|? a ? q Ha HF']; subst.
  destruct q as [|b q].
  - inversion HF'; subst. cbn [concat]. rewrite app_nil_r. exists a. split; auto. eapply near_sp_weaken; [| |exact Ha]; [cbn; lra|reflexivity].
  - destruct (max_fold_near m e fs (b :: q) He HF' e f0 a ltac:(lra) Ha) as (o & E & V). exists o. split; [exact E|].
    eapply near_sp_weaken; [| |exact V]; [|reflexivity]. cbn [length pow]. assert (0 <= 6 ^ length q) by (apply pow_le; lra). nra.
Qed.

Lemma mapR_minus_near : forall m e fs ls, Forall2 (near_sp sp S m e) fs ls ->
  exists ls', mapR (minus sp) ls = Ok ls' /\ Forall2 (near_sp sp S m e) (map (fun (f : vec -> vec) z j => - f z j) fs) ls'.
Proof.
  intros m e fs ls HF. induction HF as [|f l fs ls Hf HF IH].
  - exists []. split; [reflexivity|constructor].
  - destruct (minus_near m e f l Hf) as (o & E & V). destruct IH as (ls' & E' & V').
    exists (o :: ls'). cbn [mapR]. rewrite E. cbn [bind]. rewrite E'. cbn [bind]. split; auto.
    cbn [map]. constructor; auto.
Qed.

Lemma decomon_minimum_near : forall m e f0 fs ls, 0 <= e -> Forall2 (near_sp sp S m e) (f0 :: fs) ls ->
  exists out, decomon_minimum ke sp (concat ls) = Ok out /\
    near_sp sp S m (6 ^ length ls * (e + ke)) (fun z j => min_list (f0 z j) (vals fs z j)) out.
Proof.
  intros m e f0 fs ls He HF. unfold decomon_minimum. rewrite Hdc, <- Hdc.
  rewrite (split_near m e _ ls HF).
  destruct (mapR_minus_near m e _ ls HF) as (ls' & El & HF'). rewrite El. cbn [bind].
  assert (Hl : length ls' = length ls) by (rewrite <- (Forall2_length' _ _ _ _ _ HF'), map_length; apply (Forall2_length' _ _ _ _ _ HF)).
  cbn [map] in HF'. inversion HF' as [|? a ? q Ha HF'']; subst.
  destruct q as [|b q].
  - assert (fs = []) by (inversion HF''; destruct fs; [auto|discriminate]). subst fs.
    inversion HF as [|? c ? q Hc HF3]; subst. inversion HF3; subst. cbn [concat]. rewrite app_nil_r.
    exists c. split; auto. eapply near_sp_weaken; [| |exact Hc]; [cbn; lra|reflexivity].
  - change (o <- maximum ke sp None a b; (o' <- foldR (maximum ke sp None) q o; minus sp o'))
      with (o <- maximum ke sp None a b; (fun o => o' <- foldR (maximum ke sp None) q o; minus sp o') o).
    destruct (max_fold_near m e _ (b :: q) He HF'' e (fun z j => - f0 z j) a ltac:(lra) Ha) as (o & Eo & Vo).
    cbn [foldR] in Eo. destruct (maximum ke sp None a b) as [o1|]; [|discriminate]. cbn [bind] in *.
    rewrite Eo. cbn [bind].
    destruct (minus_near m _ _ o Vo) as (o' & E' & V'). exists o'. split; auto.
    eapply near_sp_weaken; [| |exact V'].
    + rewrite <- Hl. cbn [length pow]. assert (0 <= 6 ^ length q) by (apply pow_le; lra). nra.
    + intros z j _ _. cbn. unfold vals. rewrite map_map.
      rewrite <- (max_list_opp (map (fun f => f z j) fs)). rewrite map_map. reflexivity.
Qed.

Lemma concatenate_near : forall pre post ks axis e fs g ls,
  axis_ok (sp_mode sp) pre post axis -> ks <> [] -> length ks = length fs -> length ls = length fs ->
  (forall t f l, nth_error fs t = Some f -> nth_error ls t = Some l -> near_sp sp S (prodn (pre ++ nth t ks O :: post)) e f l) ->
  concatenated pre post ks fs g ->
  exists out, decomon_concatenate sp (cat_shapes pre post ks) axis (concat ls) = Ok out /\
    near_sp sp S (prodn (pre ++ total ks :: post)) e g out.
Proof.
  intros pre post ks axis e fs g ls Hax Hne Hk Hl Hv Hg.
  destruct (by_type_near (fun t => prodn (pre ++ nth t ks O :: post)) e (fun t => nth t fs f_dflt) ls) as (R & ER & L1 & L2 & L3 & V).
  { intros t l El. assert (Ht : (t < length fs)%nat) by (rewrite <- Hl; apply nth_error_Some; congruence).
    apply (Hv t); auto. apply nth_error_nth'. auto. }
  unfold decomon_concatenate. rewrite ER. cbn [bind].
  destruct ks as [|k0 ks']; [congruence|]. set (ks := k0 :: ks') in *.
  assert (E0 : nth 0 (cat_shapes pre post ks) [] = pre ++ k0 :: post) by reflexivity.
  rewrite E0. rewrite (axis_ok_b _ pre k0 post axis Hax). cbn [bind].
  assert (Lls : (0 < length ls)%nat) by (rewrite Hl, <- Hk; cbn; lia).
  assert (D : sp_mode sp = IBP \/ get_affine (sp_mode sp) = true) by (destruct (sp_mode sp); auto).
  assert (Eaw : exists aw, (if get_affine (sp_mode sp) then w_axis (pre ++ k0 :: post) (shift_axis axis) else Ok 0%nat) = Ok aw /\
     (get_affine (sp_mode sp) = true -> aw = length pre)).
  { destruct D as [D|D].
    - rewrite D. exists O. split; auto. intros K; discriminate K.
    - rewrite D. rewrite (axis_ok_w _ pre k0 post axis Hax D). eauto. }
  destruct Eaw as (aw & Eaw & Haw). rewrite Eaw. cbn [bind].
  apply finish_near.
  rewrite cat_lens_mid, ax_inner_mid.
  assert (Split : forall j, (j < prodn (pre ++ total ks :: post))%nat -> exists t p c q f,
    nth_error fs t = Some f /\ (t < length ls)%nat /\ (t < length ks)%nat /\ nth t fs f_dflt = f /\ in_shape pre p /\ in_shape post q /\ (c < nth t ks O)%nat /\
    j = ravel (pre ++ total ks :: post) (p ++ (offset ks t + c)%nat :: q) /\
    (ravel (pre ++ nth t ks O :: post) (p ++ c :: q) < prodn (pre ++ nth t ks O :: post))%nat).
  { intros j Hj. destruct (position_split_mid _ _ _ _ Hj) as (p & c0 & q & Ip & Hc & Iq & ->).
    destruct (locate_split ks c0 Hc) as (t & c & Ht & Hc' & ->).
    exists t, p, c, q, (nth t fs f_dflt). repeat split; auto; try lia.
    - apply nth_error_nth'. lia.
    - apply position_mid_lt; auto. }
  split.
  - intros Hi. rewrite Hi. cbn [when f_uc f_lc]. destruct (L2 Hi) as [Lu Ll].
    intros z j Hz Hj. destruct (Split j Hj) as (t & p & c & q & f & Ef & Ht & Htk & Enf & Ip & Iq & Hc & -> & Hlt).
    rewrite (cat_at pre post ks (f_uc R)), (cat_at pre post ks (f_lc R)) by auto. rewrite (Hg z t p c q f) by auto.
    destruct (V t Ht) as [C _]. rewrite Enf in C. apply (C Hi z _ Hz Hlt).
  - intros Ha. rewrite Ha. cbn [when f_x f_wu f_bu f_wl f_bl]. rewrite (Haw Ha). rewrite cat_lens_mid, ax_inner_mid.
    destruct (V 0%nat Lls) as [_ A0]. destruct (A0 Ha) as [X0 _]. split; [exact X0|].
    intros z j Hz Hj. destruct (Split j Hj) as (t & p & c & q & f & Ef & Ht & Htk & Enf & Ip & Iq & Hc & -> & Hlt).
    rewrite (Hg z t p c q f) by auto.
    destruct (V t Ht) as [_ A]. rewrite Enf in A. destruct (A Ha) as [_ B]. specialize (B z _ Hz Hlt).
    unfold aff in B |- *. rewrite !(cat_at pre post ks) by auto.
    rewrite (dot_ext _ (fun i => cat_t ks (prodn post) (f_wl R) i (ravel (pre ++ total ks :: post) (p ++ (offset ks t + c)%nat :: q)))
      (fun i => nth t (f_wl R) empty_tensor i (ravel (pre ++ nth t ks O :: post) (p ++ c :: q))) z z)
      by (intros; auto; apply cat_at; auto).
    rewrite (dot_ext _ (fun i => cat_t ks (prodn post) (f_wu R) i (ravel (pre ++ total ks :: post) (p ++ (offset ks t + c)%nat :: q)))
      (fun i => nth t (f_wu R) empty_tensor i (ravel (pre ++ nth t ks O :: post) (p ++ c :: q))) z z)
      by (intros; auto; apply cat_at; auto).
    exact B.
Qed.

(** ** max pooling *)
Lemma max_pool_shift : forall g (v w : vec) j e, 0 <= e -> (forall i, In i (pool_px g j) -> v i <= w i + e) -> max_pool g v j <= max_pool g w j + e.
Proof.
  intros g v w j e He H. unfold max_pool. destruct (pool_px g j) as [|a l]; [cbn; lra|]. cbn [map].
  assert (Q : forall l b c, b <= c + e -> (forall i, In i l -> v i <= w i + e) -> max_list b (map v l) <= max_list c (map w l) + e).
  { clear. intros l. unfold max_list. induction l as [|x l IH]; intros b c Hb H; [cbn; lra|]. cbn [map fold_left]. apply IH; [|intros i Hi; apply H; right; exact Hi].
    specialize (H x (or_introl eq_refl)). rcases. }
  apply Q; [apply H; left; reflexivity|]. intros i Hi. apply H. right. exact Hi.
Qed.

Lemma pool_fast_near : forall g e f ts, 0 <= e -> cg_cout g = cg_cin g -> near_sp sp S (im_size (cg_in g)) e f ts ->
  exists out, pool_fast sp g ts = Ok out /\ near_sp sp S (im_size (cg_out g)) e (fun z => max_pool g (f z)) out.
Proof.
  intros g e f ts He Hch Hv. destruct (get_full_near sp true true S _ e f ts Hn Hd Hdc Hv) as (r & E & C & A).
  rewrite orb_true_r in C. unfold pool_fast. rewrite E. cbn [bind].
  assert (B : const_near S (im_size (cg_out g)) e (fun z => max_pool g (f z)) (max_pool g (f_uc r 0%nat)) (max_pool g (f_lc r 0%nat))).
  { intros z j Hz Hj.
    assert (P : forall i, In i (pool_px g j) -> (i < im_size (cg_in g))%nat).
    { intros i Hi. apply pool_px_in in Hi. destruct Hi as (ky & kx & _ & _ & Hi).
      assert (Hc : (im_ch (cg_out g) j < cg_cin g)%nat) by (rewrite <- Hch; apply (im_ch_lt (cg_out g)); auto).
      apply (px_src_lt _ _ _ _ _ _ _ _ _ _ Hc Hi). }
    assert (max_pool g (f_lc r 0%nat) j <= max_pool g (f z) j + e).
    { apply max_pool_shift; [exact He|]. intros i Hi. specialize (C eq_refl z i Hz (P i Hi)). lra. }
    assert (max_pool g (f z) j <= max_pool g (f_uc r 0%nat) j + e).
    { apply max_pool_shift; [exact He|]. intros i Hi. specialize (C eq_refl z i Hz (P i Hi)). lra. }
    lra. }
  apply finish_near. split.
  - intros _. cbn [f_uc f_lc]. exact B.
  - intros Ha. rewrite Ha. cbn [when f_x f_wu f_bu f_wl f_bl]. destruct (A Ha) as [X _]. split; auto.
    intros z j Hz Hj. unfold aff, dot, vt.
    rewrite (rsum_ext _ _ (fun _ => 0)) by (intros; ring).
    rewrite rsum_eq0 by auto. specialize (B z j Hz Hj). lra.
Qed.

Lemma slice_full_near : forall pre k post c e f r, (c < k)%nat -> nfull_sp sp S (prodn (pre ++ k :: post)) e f r ->
  nfull_sp sp S (prodn (pre ++ post)) e (slice_fun pre k post c f) (slice_full (pre ++ k :: post) (length pre) (length pre) c r).
Proof.
  intros pre k post c e f r Hc [C A]. split.
  - intros Hi z j Hz Hj. destruct (position_split _ _ _ Hj) as (p & q & Ip & Iq & ->).
    cbn [slice_full f_uc f_lc]. unfold slice_fun. rewrite !slice_at by auto.
    apply (C Hi); auto. apply position_mid_lt; auto.
  - intros Ha. destruct (A Ha) as [X B]. split; [exact X|].
    intros z j Hz Hj. destruct (position_split _ _ _ Hj) as (p & q & Ip & Iq & ->).
    cbn [slice_full f_wu f_bu f_wl f_bl]. rewrite !slice_aff by auto. unfold slice_fun. rewrite !slice_at by auto.
    apply B; auto. apply position_mid_lt; auto.
Qed.

Lemma max_loop_near : forall m e ft ins fs is, 0 <= e ->
  (forall i, In i is -> ft_ok m (ft i)) -> (forall i, In i is -> near_sp sp S m e (fs i) (ins i)) -> forall e0 f0 o, e <= e0 ->
  near_sp sp S m e0 f0 o ->
  exists out, max_loop ke sp ft ins is o = Ok out /\
    near_sp sp S m (6 ^ length is * (e0 + ke)) (fun z j => max_list (f0 z j) (map (fun i => fs i z j) is)) out.
Proof.
  intros m e ft ins fs is He. induction is as [|i q IH]; intros Hft Hv e0 f0 o He0 Ho; cbn [max_loop].
  - exists o. split; auto. eapply near_sp_weaken; [| |exact Ho]; [cbn; lra|reflexivity].
  - destruct (maximum_near (ft i) m e0 e f0 (fs i) o (ins i) (Hft i (or_introl eq_refl)) ltac:(lra) He Ho (Hv i (or_introl eq_refl))) as (o' & E & V).
    rewrite E. cbn [bind].
    destruct (IH ltac:(intros; apply Hft; right; auto) ltac:(intros; apply Hv; right; auto) (5 * e0 + ke) (fun z j => Rmax (f0 z j) (fs i z j)) o' ltac:(lra)) as (out & E' & V').
    { eapply near_sp_weaken; [| |exact V]; [lra|reflexivity]. }
    exists out. split; auto. eapply near_sp_weaken; [| |exact V']; [|reflexivity].
    cbn [length pow]. assert (0 <= 6 ^ length q) by (apply pow_le; lra). nra.
Qed.

Lemma rmax_shift : forall k (v w : vec) e, (0 < k)%nat -> (forall c, (c < k)%nat -> v c <= w c + e) -> rmax k v <= rmax k w + e.
Proof.
  intros k v w e Hk H. apply rmax_lub; auto. intros i Hi. specialize (H i Hi). pose proof (rmax_ge k w i Hi). lra.
Qed.

Lemma spec_no_dc : no_dc sp = sp.
Proof. unfold no_dc. destruct sp as [dc mode D n]. cbn in *. rewrite Hdc. reflexivity. Qed.

Lemma op_max_near : forall pre k post axis ft e f g ts, 0 <= e -> (0 < k)%nat ->
  axis_ok (sp_mode sp) pre post axis -> along_axis rmax pre k post f g -> ft_ok (prodn (pre ++ k :: post)) ft ->
  near_sp sp S (prodn (pre ++ k :: post)) e f ts ->
  exists out, op_max ke sp (pre ++ k :: post) axis ft ts = Ok out /\ near_sp sp S (prodn (pre ++ post)) (6 ^ k * (e + ke)) g out.
Proof.
  intros pre k post axis ft e f g ts He Hk Hax Hg Hft H.
  destruct (get_full_near_f sp false S _ e f ts Hn Hd Hdc H) as (r & E & V). destruct V as [C A] eqn:EV. clear EV.
  unfold op_max. rewrite E. cbn [bind]. rewrite (axis_ok_b _ _ k _ _ Hax). cbn [bind]. cbv zeta. rewrite Hdc.
  assert (H6 : forall i, 1 <= 6 ^ i) by (intros i; apply pow_R1_Rle; lra).
  destruct (mode_eqb (sp_mode sp) IBP && negb false)%bool eqn:Em.
  { apply andb_true_iff in Em. destruct Em as [Em _].
    assert (Hm : sp_mode sp = IBP) by (destruct (sp_mode sp); auto; discriminate).
    eexists. split; [reflexivity|]. unfold near_sp. rewrite Hm. rewrite Hm in C. specialize (C eq_refl).
    cbn [near]. intros z j Hz Hj.
    destruct (position_split _ _ _ Hj) as (p & q & Ip & Iq & ->). rewrite Hg by auto.
    unfold red_axis. rewrite ax_len_mid. specialize (H6 k).
    assert (B1 : rmax k (fun c => slice (pre ++ k :: post) (length pre) c (f_lc r) 0%nat (ravel (pre ++ post) (p ++ q))) <= rmax k (fun c => f z (ravel (pre ++ k :: post) (p ++ c :: q))) + e).
    { apply rmax_shift; auto. intros c Hc. rewrite slice_at by auto. specialize (C z _ Hz (position_mid_lt pre k post p c q Ip Iq Hc)). lra. }
    assert (B2 : rmax k (fun c => f z (ravel (pre ++ k :: post) (p ++ c :: q))) <= rmax k (fun c => slice (pre ++ k :: post) (length pre) c (f_uc r) 0%nat (ravel (pre ++ post) (p ++ q))) + e).
    { apply rmax_shift; auto. intros c Hc. rewrite slice_at by auto. specialize (C z _ Hz (position_mid_lt pre k post p c q Ip Iq Hc)). lra. }
    assert (e <= 6 ^ k * (e + ke)) by nra. lra. }
  assert (Eaw : (if get_affine (sp_mode sp) then w_axis (pre ++ k :: post) (shift_axis axis) else Ok (length pre)) = Ok (length pre)).
  { destruct (get_affine (sp_mode sp)) eqn:Ea; auto. apply (axis_ok_w _ _ k _ _ Hax Ea). }
  rewrite Eaw. cbn [bind]. rewrite !ax_len_mid. rewrite Nat.eqb_refl. cbn [negb].
  set (s := pre ++ k :: post) in *.
  set (ins := fun c => extract (sp_mode sp) false (slice_full s (length pre) (length pre) c r)).
  set (fts := fun c => if get_affine (sp_mode sp) then option_map (fun v : vec => slice s (length pre) c (vt v) 0%nat) ft else None).
  assert (Vins : forall c, (c < k)%nat -> near_sp sp S (prodn (pre ++ post)) e (slice_fun pre k post c f) (ins c)).
  { intros c Hc. apply nfull_near. apply slice_full_near; auto. }
  assert (Hfts : forall c, (c < k)%nat -> ft_ok (prodn (pre ++ post)) (fts c)).
  { intros c Hc. unfold fts. destruct (get_affine (sp_mode sp)); cbn; auto. destruct ft as [v|]; cbn; auto.
    intros j Hj. destruct (position_split _ _ _ Hj) as (p & q & Ip & Iq & ->). unfold s. rewrite slice_at by auto.
    unfold vt. apply Hft. apply position_mid_lt; auto. }
  rewrite spec_no_dc.
  destruct (max_loop_near (prodn (pre ++ post)) e fts ins (fun c => slice_fun pre k post c f) (seq 1 (k - 1)) He
    ltac:(intros i Hi; apply in_seq in Hi; apply Hfts; lia) ltac:(intros i Hi; apply in_seq in Hi; apply Vins; lia)
    e (slice_fun pre k post 0 f) (ins 0%nat) ltac:(lra) (Vins 0%nat Hk)) as (o & Eo & Vo).
  change (extract (sp_mode sp) false (slice_full s (length pre) (length pre) 0 r)) with (ins 0%nat). rewrite Eo. cbn [bind].
  destruct (get_full_near sp true (negb (mode_eqb (sp_mode sp) AFFINE)) S _ _ _ o Hn Hd Hdc Vo) as (ro & Ero & Co & Ao).
  rewrite Ero. cbn [bind]. eexists. split; [reflexivity|]. apply nfull_near. rewrite seq_length in Co, Ao.
  assert (Eg : forall z j, (j < prodn (pre ++ post))%nat ->
      max_list (slice_fun pre k post 0 f z j) (map (fun i => slice_fun pre k post i f z j) (seq 1 (k - 1))) = g z j).
  { intros z j Hj. rewrite (max_list_rmax k (fun i => slice_fun pre k post i f z j) Hk).
    destruct (position_split _ _ _ Hj) as (p & q & Ip & Iq & ->). rewrite Hg by auto.
    apply rmax_ext; auto. intros c Hc. unfold slice_fun. rewrite slice_at by auto. reflexivity. }
  assert (Hpow : 6 ^ (k - 1) * (e + ke) <= 6 ^ k * (e + ke)).
  { destruct k as [|k']; [lia|]. replace (Datatypes.S k' - 1)%nat with k' by lia. cbn [pow]. specialize (H6 k'). nra. }
  split; cbn [f_x f_uc f_wu f_bu f_lc f_wl f_bl].
  - intros Hi. intros z j Hz Hj. rewrite <- Eg by auto. assert (Q := Co ltac:(rewrite Hi; reflexivity) z j Hz Hj). cbn beta in Q. lra.
  - intros Ha. split; [apply A; auto|]. intros z j Hz Hj. rewrite <- Eg by auto. destruct (Ao Ha) as [_ Q]. specialize (Q z j Hz Hj). cbn beta in Q. lra.
Qed.

Lemma pool_not_fast_near : forall g fl e f ts, 0 <= e -> pool_ok g -> pool_init (wn_k (cg_y g)) (wn_k (cg_x g)) = Ok fl ->
  near_sp sp S (im_size (cg_in g)) e f ts ->
  exists out, pool_not_fast ke sp g fl ts = Ok out /\ near_sp sp S (im_size (cg_out g)) (6 ^ pool_p g * (e + ke)) (fun z => max_pool g (f z)) out.
Proof.
  intros g fl e f ts He Hg Hfl Hv.
  assert (Hsize : prodn (pool_shape g ++ [pool_p g]) = (im_size (cg_out g) * pool_p g)%nat) by (cbn; unfold im_size; lia).
  assert (Ffl : forall a b p, (a < wn_k (cg_y g))%nat -> (b < wn_k (cg_x g))%nat -> fl a b p = if Nat.eqb p (filter_index (wn_k (cg_y g)) a b) then 1 else 0).
  { destruct (pool_init_ok (wn_k (cg_y g)) (wn_k (cg_x g))) as (fl' & E' & P').
    - destruct Hg as (_ & _ & _ & _ & ? & [-> | ->]); lia.
    - rewrite Hfl in E'. injection E'; intros ->. auto. }
  destruct (move_near (im_size (cg_in g)) (prodn (pool_shape g ++ [pool_p g])) e f (pool_idx g) (pool_conv g fl) (pool_conv g fl) ts) as (r & Er & V); auto.
  - intros q Hq. rewrite Hsize in Hq. apply pool_idx_lt; auto.
  - intros t q Hq. rewrite Hsize in Hq. apply pool_conv_at; auto.
  - intros t i q _ Hq. rewrite Hsize in Hq. apply pool_conv_at; auto.
  - unfold pool_not_fast. rewrite Er. cbn [bind]. cbv zeta.
    assert (HP : (0 < wn_k (cg_y g))%nat -> (0 < pool_p g)%nat) by (destruct Hg as (_ & _ & _ & _ & ? & _); unfold pool_p; nia).
    assert (Hky : (0 < wn_k (cg_y g))%nat) by (destruct Hg as (_ & _ & _ & _ & ? & [-> | ->]); lia).
    destruct (op_max_near (pool_shape g) (pool_p g) [] (-1)%Z None e (fun z q => f z (pool_idx g q)) (fun z => max_pool g (f z))
       (extract (sp_mode sp) (sp_dc sp) (move_full sp (pool_conv g fl) (pool_conv g fl) r))) as (out & Eo & Vo); auto.
    + right. split; auto.
    + intros z p q Ip Iq. inversion Iq; subst. rewrite !app_nil_r.
      pose proof (ravel_lt _ _ Ip) as Lp.
      assert (Hj : (ravel (pool_shape g) p < im_size (cg_out g))%nat) by (cbn [pool_shape prodn] in Lp; unfold im_size; lia).
      assert (Ex : forall c, ravel (pool_shape g ++ [pool_p g]) (p ++ [c]) = (ravel (pool_shape g) p * pool_p g + c)%nat).
      { intros c. rewrite ravel_app by auto. cbn [ravel prodn]. lia. }
      rewrite (max_pool_rmax g (f z) _ (pool_p g) (fun c => pool_idx g (ravel (pool_shape g) p * pool_p g + c))); auto.
      * apply rmax_ext; auto. all: intros c Hc; rewrite Ex; auto.
      * intros i. rewrite pool_px_in. split.
        -- intros (ky & kx & K1 & K2 & Es). destruct (pool_src g _ ky kx Hg Hj K1 K2) as [Es' _]. rewrite Es' in Es. injection Es; intros <-.
           exists (ky * wn_k (cg_x g) + kx)%nat. split; auto. unfold pool_p. nia.
        -- intros (c & Hc & <-). assert (Hkx : wn_k (cg_x g) <> 0%nat) by (destruct Hg as (_ & _ & _ & _ & ? & _); lia).
           pose proof (Nat.div_mod c (wn_k (cg_x g)) Hkx) as E'. pose proof (Nat.mod_upper_bound c (wn_k (cg_x g)) Hkx) as L'.
           assert (Ly : (c / wn_k (cg_x g) < wn_k (cg_y g))%nat) by (apply Nat.div_lt_upper_bound; auto; unfold pool_p in Hc; lia).
           exists (c / wn_k (cg_x g))%nat, (c mod wn_k (cg_x g))%nat. repeat split; auto.
           destruct (pool_src g _ _ _ Hg Hj Ly L') as [Es' _]. rewrite Es'. f_equal. f_equal. lia.
    + exact I.
    + exists out. split; [exact Eo|]. rewrite app_nil_r in Vo. replace (prodn (pool_shape g)) with (im_size (cg_out g)) in Vo by (cbn; unfold im_size; lia). exact Vo.
Qed.

Lemma max_pooling_near : forall (fast : bool) g e f ts, 0 <= e ->
  (if fast then cg_cout g = cg_cin g /\ (wn_k (cg_y g) <= 1 \/ wn_k (cg_y g) <= wn_k (cg_x g))%nat else pool_ok g) ->
  near_sp sp S (im_size (cg_in g)) e f ts ->
  exists out, decomon_max_pooling ke sp fast g ts = Ok out /\ near_sp sp S (im_size (cg_out g)) (6 ^ pool_p g * (e + ke)) (fun z => max_pool g (f z)) out.
Proof.
  intros fast g e f ts He Hg Hv. unfold decomon_max_pooling.
  assert (K : (wn_k (cg_y g) <= 1 \/ wn_k (cg_y g) <= wn_k (cg_x g))%nat).
  { destruct fast; [apply Hg|]. destruct Hg as (_ & _ & _ & _ & ? & [-> | ->]); lia. }
  destruct (pool_init_ok _ _ K) as (fl & Efl & _). rewrite Efl. cbn [bind]. destruct fast.
  - destruct (pool_fast_near g e f ts He (proj1 Hg) Hv) as (o & E & V). exists o. split; [exact E|]. eapply near_sp_weaken; [| |exact V]; [|reflexivity].
    assert (1 <= 6 ^ pool_p g) by (apply pow_R1_Rle; lra). nra.
  - apply pool_not_fast_near; auto.
Qed.
End Ops.

(** ** Layers of a network *)
Lemma one_near : forall sp (S : vec -> Prop) m e gs tss, Forall2 (fun mg ts => near_sp sp S (fst mg) e (snd mg) ts) (combine [m] gs) tss -> length gs = 1%nat ->
  exists f ts, gs = [f] /\ concat tss = ts /\ near_sp sp S m e f ts.
Proof.
  intros sp S m e gs tss HF Hl. destruct gs as [|f0 [|]]; try discriminate Hl. cbn [combine] in HF. inversion HF as [|? ts ? q V HF']; subst. inversion HF'; subst.
  exists f0, ts. cbn. rewrite app_nil_r. auto.
Qed.

Lemma two_near : forall sp (S : vec -> Prop) m0 m1 e gs tss, Forall2 (fun mg ts => near_sp sp S (fst mg) e (snd mg) ts) (combine [m0; m1] gs) tss -> length gs = 2%nat ->
  exists f0 f1 in0 in1, gs = [f0; f1] /\ concat tss = in0 ++ in1 /\ near_sp sp S m0 e f0 in0 /\ near_sp sp S m1 e f1 in1.
Proof.
  intros sp S m0 m1 e gs tss HF Hl. destruct gs as [|f0 [|f1 [|]]]; try discriminate Hl. cbn [combine] in HF.
  inversion HF as [|? in0 ? q0 V0 HF0]; subst. inversion HF0 as [|? in1 ? q1 V1 HF1]; subst. inversion HF1; subst.
  exists f0, f1, in0, in1. cbn [concat]. rewrite app_nil_r. auto.
Qed.

Lemma many_near : forall sp (S : vec -> Prop) m e k gs tss, length gs = length (repeat m k) -> (0 < k)%nat ->
  Forall2 (fun mg ts => near_sp sp S (fst mg) e (snd mg) ts) (combine (repeat m k) gs) tss ->
  Forall2 (near_sp sp S m e) gs tss /\ tss <> [] /\ length tss = k /\ exists f fs, gs = f :: fs.
Proof.
  intros sp S m e k gs tss Hl Hk HF. rewrite repeat_length in Hl. subst k. rewrite repeat_combine in HF. apply Forall2_map_l in HF. cbn in HF.
  pose proof (Forall2_len _ _ _ _ _ HF) as Hlen.
  split; [exact HF|]. destruct HF; [cbn in Hk; lia|]. split; [discriminate|]. split; [congruence|eauto].
Qed.

Lemma near_ext : forall sp (S : vec -> Prop) m e e' (f g : vec -> vec) (r : result (list tensor)), e <= e' -> (forall z j, (j < m)%nat -> f z j = g z j) ->
  (exists out, r = Ok out /\ near_sp sp S m e f out) -> exists out, r = Ok out /\ near_sp sp S m e' g out.
Proof. intros sp S m e e' f g r He H (out & E & V). exists out. split; [exact E|]. apply (near_sp_weaken sp S m e e' f); auto. Qed.

Lemma gain_le : forall G e ke, 0 <= e -> 0 < ke -> G * (e + ke) <= Rmax 1 G * (e + ke).
Proof. intros. apply Rmult_le_compat_r; [lra|apply Rmax_r]. Qed.
Lemma gain_id : forall G e ke, 0 <= e -> 0 < ke -> e <= Rmax 1 G * (e + ke).
Proof. intros. pose proof (Rmax_l 1 G). nra. Qed.
Lemma gain_e : forall G e ke, 0 <= e -> 0 < ke -> G * e <= Rmax 1 G * (e + ke).
Proof. intros. pose proof (Rmax_l 1 G). pose proof (Rmax_r 1 G). nra. Qed.

Lemma layer_near : forall ke sp (S : vec -> Prop) o L e gs tss g, 0 < ke -> (0 < sp_n sp)%nat -> dom_ok (sp_dom sp) (sp_mode sp) -> sp_dc sp = false ->
  nl_piecewise L -> nl_ok (sp_mode sp) (lo_fast o) L -> ft_ok (nl_out L) (lo_ft o) -> 0 <= e ->
  Forall2 (fun mg ts => near_sp sp S (fst mg) e (snd mg) ts) (combine (nl_in L) gs) tss -> length gs = length (nl_in L) ->
  (forall z, computes L (map (fun h => h z) gs) (g z)) ->
  exists out, decomon_layer ke sp o L (concat tss) = Ok out /\ near_sp sp S (nl_out L) (Rmax 1 (nl_gain L) * (e + ke)) g out.
Proof.
  intros ke sp S o L e gs tss g Hke Hn Hd Hdc Hpw Hok Hft He HF Hl HC.
  destruct L; cbn [nl_in nl_out nl_ok decomon_layer nl_gain nl_piecewise] in *; try contradiction.
  - (* dense *)
    destruct (one_near _ _ _ _ _ _ HF Hl) as (f & ts & -> & E & V). rewrite E in *. cbn in HC.
    destruct (dense_near sp S Hn Hd Hdc rows d units kernel bias e f ts Hok He V) as (out & Eo & Vo). exists out. split; [exact Eo|].
    eapply near_sp_weaken; [| |exact Vo]; [apply gain_e; assumption|]. intros z j _ Hj. cbn beta. unfold keras_dense.
    assert (Hp : (j / units < rows)%nat) by (apply Nat.div_lt_upper_bound; lia).
    assert (Hu : (j mod units < units)%nat) by (apply Nat.mod_upper_bound; lia).
    specialize (HC z (j / units)%nat (j mod units)%nat Hp Hu).
    replace (j / units * units + j mod units)%nat with j in HC by (rewrite (Nat.div_mod_eq j units) at 1; lia).
    rewrite HC. destruct bias; reflexivity.
  - (* conv *)
    destruct (one_near _ _ _ _ _ _ HF Hl) as (f & ts & -> & E & V). rewrite E in *. cbn in HC.
    destruct (conv_near sp S Hn Hd Hdc g0 kernel bias e f ts He V) as (out & Eo & Vo). exists out. split; [exact Eo|].
    eapply near_sp_weaken; [| |exact Vo]; [apply gain_e; assumption|]. intros z j _ Hj. cbn beta. rewrite HC by exact Hj. destruct bias; reflexivity.
  - (* batch normalization *)
    destruct (one_near _ _ _ _ _ _ HF Hl) as (f & ts & -> & E & V). rewrite E in *. cbn in HC. destruct Hok as [Hv Ha].
    destruct (bn_near sp S Hn Hd Hdc pre k post axis gamma beta mean var eps e f g ts Ha Hv He) as (out & Eo & Vo); [|exact V|].
    + intros z p c q Hp Hq Hc. rewrite (HC z p c q Hp Hq Hc). unfold keras_bn. destruct gamma, beta; reflexivity.
    + exists out. split; [exact Eo|]. eapply near_sp_weaken; [| |exact Vo]; [|reflexivity]. destruct gamma; apply gain_e; assumption.
  - (* flatten *)
    destruct (one_near _ _ _ _ _ _ HF Hl) as (f & ts & -> & E & V). rewrite E in *. cbn in HC.
    destruct (flatten_near sp S Hn Hd Hdc channels_first ch size e f ts Hok V) as (out & Eo & Vo). exists out. split; [exact Eo|].
    eapply near_sp_weaken; [| |exact Vo]; [apply gain_id; assumption|]. intros z j _ Hj. cbn beta. unfold flatten_idx. specialize (HC z). destruct channels_first.
    + assert (ch <> 0)%nat by (intros ->; cbn in Hj; lia).
      assert (Hq : (j / ch < size)%nat) by (apply Nat.div_lt_upper_bound; lia).
      assert (Hc : (j mod ch < ch)%nat) by (apply Nat.mod_upper_bound; lia).
      specialize (HC (j mod ch)%nat (j / ch)%nat Hc Hq).
      replace (j / ch * ch + j mod ch)%nat with j in HC by (rewrite (Nat.div_mod_eq j ch) at 1; lia). auto.
    + symmetry. apply HC. exact Hj.
  - (* reshape *)
    destruct (one_near _ _ _ _ _ _ HF Hl) as (f & ts & -> & E & V). rewrite E in *. cbn in HC.
    apply (near_ext sp S m e _ f g); [apply gain_id; assumption|intros z j Hj; symmetry; apply HC; exact Hj|]. apply reshape_near; auto.
  - (* permute *)
    destruct (one_near _ _ _ _ _ _ HF Hl) as (f & ts & -> & E & V). rewrite E in *. cbn in HC.
    apply (near_ext sp S _ e _ g g); [apply gain_id; assumption|reflexivity|].
    apply (permute_near sp S Hn Hd Hdc s dims e f g ts Hok); [|exact V]. exact HC.
  - (* dropout *)
    destruct (one_near _ _ _ _ _ _ HF Hl) as (f & ts & -> & E & V). rewrite E in *. cbn in HC.
    apply (near_ext sp S m e _ f g); [apply gain_id; assumption|intros z j Hj; symmetry; apply HC; exact Hj|]. exists ts. split; [reflexivity|exact V].
  - (* activation *)
    destruct (one_near _ _ _ _ _ _ HF Hl) as (f & ts & -> & E & V). rewrite E in *. cbn in HC. destruct Hpw as [-> | ->]; cbn [act_value decomon_activation] in *.
    + apply (near_ext sp S m e _ f g); [apply gain_id; assumption|intros z j Hj; symmetry; apply HC; exact Hj|]. exists ts. split; [reflexivity|exact V].
    + apply (near_ext sp S m (2 * e + ke) _ (fun z j => Rrelu (f z j)) g); [|intros z j Hj; symmetry; apply HC; exact Hj|].
      * rewrite Rmax_right by lra. lra.
      * apply relu_near; auto.
  - (* max pooling *)
    destruct (one_near _ _ _ _ _ _ HF Hl) as (f & ts & -> & E & V). rewrite E in *. cbn in HC. destruct Hok as [Hc Hok].
    apply (near_ext sp S (im_size (cg_out g0)) (6 ^ pool_p g0 * (e + ke)) _ (fun z => max_pool g0 (f z)) g); [apply gain_le; assumption|intros z j Hj; symmetry; apply HC; exact Hj|].
    apply max_pooling_near; auto. destruct (lo_fast o); [auto|]. unfold pool_ok. intuition.
  - (* add *)
    destruct (many_near _ _ _ _ _ _ _ Hl Hok HF) as (V & Ht & Hk & _).
    apply (near_ext sp S m (INR (length tss) * e) _ (fun z j => sum_list (vals gs z j)) g); [rewrite Hk; apply gain_e; assumption| |apply decomon_add_near; auto].
    intros z j Hj. rewrite (HC z j Hj). unfold vals. rewrite map_map. reflexivity.
  - (* average *)
    destruct (many_near _ _ _ _ _ _ _ Hl Hok HF) as (V & Ht & Hk & _).
    apply (near_ext sp S m e _ (fun z j => sum_list (vals gs z j) / INR (length gs)) g); [apply gain_id; assumption| |apply decomon_average_near; auto].
    intros z j Hj. rewrite (HC z j Hj). unfold vals. rewrite map_map, map_length. reflexivity.
  - (* subtract *)
    destruct (two_near _ _ _ _ _ _ _ HF Hl) as (f0 & f1 & in0 & in1 & -> & E & V0 & V1). rewrite E in *. cbn in HC.
    apply (near_ext sp S m (2 * e) _ (fun z j => f0 z j - f1 z j) g); [apply gain_e; assumption|intros z j Hj; symmetry; apply HC; exact Hj|]. apply decomon_subtract_near; auto.
  - (* maximum *)
    destruct (many_near _ _ _ _ _ _ _ Hl Hok HF) as (V & Ht & Hk & f & fs & ->). cbn [map] in HC.
    apply (near_ext sp S m (6 ^ length tss * (e + ke)) _ (fun z j => max_list (f z j) (vals fs z j)) g); [rewrite Hk; apply gain_le; assumption| |apply decomon_maximum_near; auto].
    intros z j Hj. rewrite (HC z j Hj). unfold vals. rewrite map_map. reflexivity.
  - (* minimum *)
    destruct (many_near _ _ _ _ _ _ _ Hl Hok HF) as (V & Ht & Hk & f & fs & ->). cbn [map] in HC.
    apply (near_ext sp S m (6 ^ length tss * (e + ke)) _ (fun z j => min_list (f z j) (vals fs z j)) g); [rewrite Hk; apply gain_le; assumption| |apply decomon_minimum_near; auto].
    intros z j Hj. rewrite (HC z j Hj). unfold vals. rewrite map_map. reflexivity.
  - (* concatenate *)
    destruct Hok as [Hks Ha]. rewrite map_length in Hl. assert (Hts : length tss = length gs).
    { apply Forall2_len in HF. rewrite combine_length, map_length in HF. lia. }
    apply (near_ext sp S _ e _ g g); [apply gain_id; assumption|reflexivity|].
    apply (concatenate_near sp S Hn Hd Hdc pre post ks axis e gs g tss Ha Hks); auto.
    + intros t f l Ef El. assert (Ek : nth_error (map (fun k => prodn (pre ++ k :: post)) ks) t = Some (prodn (pre ++ nth t ks O :: post))).
      { rewrite nth_error_map. assert (Hk : (t < length ks)%nat) by (rewrite <- Hl; apply nth_error_Some; congruence).
        rewrite (nth_error_nth' ks O Hk). reflexivity. }
      exact (Forall2_combine_nth _ _ _ (fun m f l => near_sp sp S m e f l) _ _ _ _ _ _ _ HF Ek Ef El).
    + intros z t p c q f Ef Hp Hq Hc. apply (HC z t p c q (f z)); auto. rewrite nth_error_map, Ef. reflexivity.
Qed.

(** ** Networks *)
Lemma slack_step : forall net nod, net_slack (net ++ [nod]) = match fst nod with None => net_slack net | Some L => Rmax 1 (nl_gain L) * (net_slack net + 1) end.
Proof. intros. unfold net_slack. rewrite fold_left_app. reflexivity. Qed.

Lemma slack_pos : forall net, 0 <= net_slack net.
Proof.
  intros net. induction net as [|nod net IH] using rev_ind; [cbn; unfold net_slack; cbn; lra|]. rewrite slack_step. destruct (fst nod) as [L|]; [|exact IH].
  pose proof (Rmax_l 1 (nl_gain L)). nra.
Qed.

Lemma slack_app : forall net net', net_slack net <= net_slack (net ++ net').
Proof.
  intros net net'. induction net' as [|nod net' IH] using rev_ind; [rewrite app_nil_r; lra|]. rewrite app_assoc, slack_step. destruct (fst nod) as [L|]; [|exact IH].
  pose proof (Rmax_l 1 (nl_gain L)). pose proof (slack_pos (net ++ net')). nra.
Qed.

Lemma slack_firstn : forall net i k, (i <= k)%nat -> net_slack (firstn i net) <= net_slack (firstn k net).
Proof.
  intros net i k H. rewrite <- (firstn_skipn i (firstn k net)). rewrite firstn_firstn, Nat.min_l by exact H. apply slack_app.
Qed.

Lemma firstn_S : forall A (l : list A) i a, nth_error l i = Some a -> firstn (Datatypes.S i) l = firstn i l ++ [a].
Proof.
  intros A l. induction l as [|x l IH]; intros i a E; [destruct i; discriminate E|]. destruct i as [|i]; [injection E as ->; reflexivity|].
  cbn [firstn app]. f_equal. apply IH. exact E.
Qed.

Lemma net_eval_near : forall ke sp opts net v (S : vec -> Prop) its, 0 < ke -> (0 < sp_n sp)%nat -> dom_ok (sp_dom sp) (sp_mode sp) -> sp_dc sp = false ->
  net_ok (sp_n sp) net -> net_value net v -> layers_ok (sp_mode sp) opts net -> (forall i L ps, nth_error net i = Some (Some L, ps) -> nl_piecewise L) ->
  near_sp sp S (sp_n sp) 0 (fun y => y) its ->
  exists vs, evaluates (decomon_net ke sp opts net) no_map its vs /\
    forall i, (i < length net)%nat -> near_sp sp S (net_dim (sp_n sp) net i) (net_slack (firstn (Datatypes.S i) net) * ke) (v i) (vs i).
Proof.
  intros ke sp opts net v S its Hke Hn Hd Hdc Hnet Hval Hlay Hpw Hits. set (g := decomon_net ke sp opts net).
  assert (Hacy : acyclic (parents_of g)) by (unfold g; rewrite net_parents by exact Hn; exact (net_acyclic sp net Hnet)).
  destruct (evaluates_build tensor g no_map its (fun i ts => near_sp sp S (net_dim (sp_n sp) net i) (net_slack (firstn (Datatypes.S i) net) * ke) (v i) ts)) as (vs & Hev & Hs);
    [apply topo_acyclic; exact Hacy| |exists vs; split; [exact Hev|]; intros i Hi; apply Hs; unfold g; rewrite net_length by exact Hn; exact Hi].
  intros i nod vs En Hev IH. unfold no_map. destruct (net_node_inv ke sp opts net Hn i nod En) as (o & ps & Ei & ->). destruct (Hnet i o ps Ei) as [Hp Ho].
  cbn [fn_parents fn_kind]. unfold node_out. cbn [fn_kind]. rewrite (firstn_S _ _ _ _ Ei), slack_step. cbn [fst]. pose proof (slack_pos (firstn i net)) as Hpos. destruct o as [L|].
  - destruct Ho as [Hps Hdim]. destruct (Hlay i L ps Ei) as [Hok Hft].
    destruct (layer_near ke sp S (opts i) L (net_slack (firstn i net) * ke) (map v ps) (map vs ps) (v i) Hke Hn Hd Hdc (Hpw i L ps Ei) Hok Hft) as (out & Eo & Vo).
    + nra.
    + rewrite <- Hdim, combine_map. apply Forall2_map_map. intros p Q. cbn. specialize (IH p (Hp p Q)).
      eapply near_sp_weaken; [| |exact IH]; [|reflexivity]. apply Rmult_le_compat_r; [lra|]. apply slack_firstn. specialize (Hp p Q). lia.
    + rewrite <- Hdim, !map_length. reflexivity.
    + intros y. rewrite map_map. exact (Hval y i (Some L) ps Ei).
    + exists out. split; [destruct ps; [contradiction|exact Eo]|]. unfold net_dim. rewrite Ei. eapply near_sp_weaken; [| |exact Vo]; [|reflexivity]. lra.
  - subst ps. exists its. split; [reflexivity|]. unfold net_dim. rewrite Ei. apply (near_sp_weaken sp S (sp_n sp) 0 _ (fun y => y)); [nra| |exact Hits].
    intros y j _ _. symmetry. exact (Hval y i None [] Ei j).
Qed.

Lemma convert2mode_near : forall D n from to_ S m e f ts, (0 < n)%nat -> dom_ok D from -> (from = IBP -> to_ = IBP) ->
  near D from S n m e f ts -> exists out, convert2mode D n from to_ ts = Ok out /\ near D to_ S n m e f out.
Proof.
  intros D n from to_ S m e f ts Hn Hd Hi H. unfold convert2mode.
  set (ca := (mode_eqb from AFFINE && negb (mode_eqb to_ AFFINE))%bool). set (ti := (mode_eqb from HYBRID && negb (mode_eqb to_ AFFINE))%bool).
  destruct (get_full_near (mk_spec false from D n) ca ti S m e f ts Hn Hd eq_refl H) as (r & E & V). rewrite E. cbn [bind sp_mode] in *.
  replace (mode_eqb from IBP && negb (mode_eqb to_ IBP))%bool with false by (destruct from; try reflexivity; rewrite (Hi eq_refl); reflexivity).
  eexists; split; [reflexivity|]. apply nfull_near. destruct V as [V1 V2]. split.
  - intros Ht. apply V1. unfold ca. destruct from, to_; try reflexivity; discriminate Ht.
  - intros Ht. apply V2. destruct from; try reflexivity. rewrite (Hi eq_refl) in Ht. discriminate Ht.
Qed.

(** the clone of a piecewise affine network encloses it up to a multiple of epsilon fixed by the weights: no condition on
    the bounds met on the way, nor on the domain *)
Lemma net_clone_near : forall ke D n mode final z opts net v o,
  0 < ke -> (0 < n)%nat -> norm_ok D -> (mode = IBP -> final = IBP) ->
  net_ok n net -> net_value net v -> layers_ok mode opts net -> single_output net o ->
  (forall i L ps, nth_error net i = Some (Some L, ps) -> nl_piecewise L) ->
  exists ts, clone_forward D n mode final (decomon_net ke (mk_spec false mode D n) opts net) [o] z = Ok ts /\
    near D final (in_dom D n z) n (net_dim n net o) (net_slack net * ke) (v o) ts.
Proof.
  intros ke D n mode final z opts net v o Hke Hn HD Hmf Hnet Hval Hlay Ho Hpw. set (sp := mk_spec false mode D n).
  assert (Hdok : dom_ok D mode) by (destruct mode; cbn; auto).
  destruct (input_tensors_ok D mode n z Hn (fun _ => HD)) as (its & Ei & Vi). apply valid_near in Vi.
  destruct (net_eval_near ke sp opts net v (in_dom D n z) its Hke Hn Hdok eq_refl Hnet Hval Hlay Hpw Vi) as (vs & Hev & Hs).
  unfold clone_forward. rewrite Ei. cbn [bind]. change (fun _ : nat => None) with (@no_map tensor).
  rewrite (single_eval ke sp opts net its vs o Hn Hnet Ho Hev). cbn [bind].
  apply (convert2mode_near D n mode final _ _ _ _ (vs o) Hn Hdok Hmf).
  eapply near_weaken; [| |exact (Hs o (proj1 Ho))]; [|reflexivity].
  apply Rmult_le_compat_r; [lra|]. rewrite <- (firstn_all net) at 2. apply slack_firstn. destruct Ho. lia.
Qed.
