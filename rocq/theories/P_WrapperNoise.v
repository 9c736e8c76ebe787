(** get_range_noise and get_adv_noise (C52, C53). *)
From Coq Require Import Reals Lra Lia List Arith Bool ZArith.
From Verif Require Import RLib Spec M_Core M_State M_Wrapper Spec_Wrapper P_Core P_Wrapper P_WrapperRefine P_WrapperAdv P_WrapperAdvBox P_WrapperLabels.
Import ListNotations.
Local Open Scope R_scope.

(** ** Extrema on a ball *)

Lemma noise_up_max : forall n p ord eps c w b j, (0 < n)%nat -> 0 <= eps -> get_dual_ord p = Ok ord ->
  is_max (in_ball n p eps c) (fun z => aff n w b z j) (eps * lin_norm ord n (fun i => w i j) + rsum n (fun i => w i j * c i) + b j).
Proof.
  intros n p ord eps c w b j N E O.
  assert (G : exists r, get_upper_ball0 n false c eps p w b = Ok r /\ r j = eps * lin_norm ord n (fun i => w i j) + rsum n (fun i => w i j * c i) + b j).
  { destruct p as [[|[|[|k]]]|]; try discriminate; inversion O; subst ord; clear O; unfold get_upper_ball0; cbn [get_lq_norm bind].
    - eexists. split; [reflexivity|]. cbn [lin_norm]. ring.
    - eexists. split; [reflexivity|]. cbn [lin_norm]. rewrite (rsum_ext n (fun i => w i j * w i j) (fun i => w i j ^ 2)) by (intros; ring). ring.
    - eexists. split; [reflexivity|]. cbn [lin_norm]. unfold get_upper_box.
      rewrite <- rsum_scal, <- !rsum_plus. f_equal. apply rsum_ext. intros i _. unfold Rpos, Rneg, Rmax, Rmin, Rabs. destruct (Rle_dec 0 (w i j)), (Rle_dec (w i j) 0), (Rcase_abs (w i j)); try lra; ring_simplify; nra. }
  destruct G as (r & G & <-). apply get_upper_ball0_max; assumption.
Qed.

Lemma noise_low_min : forall n p ord eps c w b j, (0 < n)%nat -> 0 <= eps -> get_dual_ord p = Ok ord ->
  is_min (in_ball n p eps c) (fun z => aff n w b z j) (- eps * lin_norm ord n (fun i => w i j) + rsum n (fun i => w i j * c i) + b j).
Proof.
  intros n p ord eps c w b j N E O.
  assert (G : exists r, get_lower_ball0 n false c eps p w b = Ok r /\ r j = - eps * lin_norm ord n (fun i => w i j) + rsum n (fun i => w i j * c i) + b j).
  { destruct p as [[|[|[|k]]]|]; try discriminate; inversion O; subst ord; clear O; unfold get_lower_ball0; cbn [get_lq_norm bind].
    - eexists. split; [reflexivity|]. cbn [lin_norm]. ring.
    - eexists. split; [reflexivity|]. cbn [lin_norm]. rewrite (rsum_ext n (fun i => w i j * w i j) (fun i => w i j ^ 2)) by (intros; ring). ring.
    - eexists. split; [reflexivity|]. cbn [lin_norm]. unfold get_lower_box.
      rewrite <- rsum_scal, <- !rsum_plus. f_equal. apply rsum_ext. intros i _. unfold Rmax, Rmin, Rabs. destruct (Rle_dec (w i j) 0), (Rcase_abs (w i j)); try lra; ring_simplify; nra. }
  destruct G as (r & G & <-). apply get_lower_ball0_min; assumption.
Qed.

Lemma dual_known : forall p, known_norm p -> exists ord, get_dual_ord p = Ok ord.
Proof. intros p [->|[->| ->]]; cbn; eauto. Qed.
Lemma dual_unknown : forall p, ~ known_norm p -> get_dual_ord p = Err ValueError.
Proof.
  intros p H. destruct p as [[|[|[|k]]]|]; try reflexivity; exfalso; apply H; unfold known_norm; auto.
Qed.

(** ** One sample *)

Lemma noise_sample_spec : forall m eps p ord x mode ts, (0 < wm_n m)%nat -> 0 <= eps -> get_dual_ord p = Ok ord -> outputs m x mode ts ->
  exists u l, noise_sample m eps ord x = Ok (u, l) /\ length u = wm_k m /\ length l = wm_k m /\
    forall j, (j < wm_k m)%nat -> is_range mode (wm_n m) p eps (lvec x) ts j (nth j u 0) (nth j l 0).
Proof.
  intros m eps p ord x mode ts N E O (M & P & dc & L). unfold noise_sample. rewrite P. cbn [bind]. unfold wmode in M.
  destruct (wm_ibp m), (wm_affine m); inversion M; subst mode; clear M.
  - destruct ts as [|t0 [|u [|wu [|bu [|l [|wl [|bl ts]]]]]]]; try (destruct dc; discriminate L).
    eexists _, _. split; [reflexivity|]. split; [rewrite map_length, seq_length; reflexivity|]. split; [rewrite map_length, seq_length; reflexivity|].
    intros j Hj. rewrite !nth_tab by exact Hj. cbn [is_range]. eexists _, _.
    split; [apply (noise_up_max (wm_n m) p ord eps (lvec x) wu (bu 0%nat) j N E O)|]. split; [apply (noise_low_min (wm_n m) p ord eps (lvec x) wl (bl 0%nat) j N E O)|]. split; reflexivity.
  - destruct ts as [|u [|l ts]]; try (destruct dc; discriminate L).
    eexists _, _. split; [reflexivity|]. split; [rewrite map_length, seq_length; reflexivity|]. split; [rewrite map_length, seq_length; reflexivity|].
    intros j Hj. rewrite !nth_tab by exact Hj. cbn [is_range]. split; reflexivity.
  - destruct ts as [|t0 [|wu [|bu [|wl [|bl ts]]]]]; try (destruct dc; discriminate L).
    eexists _, _. split; [reflexivity|]. split; [rewrite map_length, seq_length; reflexivity|]. split; [rewrite map_length, seq_length; reflexivity|].
    intros j Hj. rewrite !nth_tab by exact Hj. cbn [is_range]. split; [apply (noise_up_max (wm_n m) p ord eps (lvec x) wu (bu 0%nat) j N E O)|apply (noise_low_min (wm_n m) p ord eps (lvec x) wl (bl 0%nat) j N E O)].
Qed.

Lemma range_sound : forall m f p eps x mode ts j U L, outputs m x mode ts -> sound_around m f (in_ball (wm_n m) p eps (lvec x)) x -> (j < wm_k m)%nat ->
  is_range mode (wm_n m) p eps (lvec x) ts j U L -> forall z, in_ball (wm_n m) p eps (lvec x) z -> L <= f z j <= U.
Proof.
  intros m f p eps x mode ts j U L (M & P & _) (mode' & ts' & dc & M' & P' & V) J IR z Z.
  rewrite M in M'. injection M' as <-. rewrite P in P'. injection P' as <-. destruct V as [Lt V].
  destruct mode; cbn [is_range] in IR.
  - destruct ts as [|u [|l ts]]; try contradiction. destruct IR as [-> ->]. apply V; assumption.
  - destruct ts as [|t0 [|wu [|bu [|wl [|bl ts]]]]]; try contradiction. destruct IR as [[A _] [B _]]. destruct V as [_ AF]. destruct (AF z j Z J) as [Al Au]. specialize (A z Z). specialize (B z Z). cbn beta in A, B. lra.
  - destruct ts as [|t0 [|u [|wu [|bu [|l [|wl [|bl ts]]]]]]]; try contradiction. destruct IR as (a & b & [A _] & [B _] & -> & ->). destruct V as (_ & C & AF).
    destruct (C z j Z J) as [Cl Cu]. destruct (AF z j Z J) as [Al Au]. specialize (A z Z). specialize (B z Z). cbn beta in A, B. split; [apply Rmax_lub; lra|apply Rmin_glb; lra].
Qed.

(** ** The function *)

Lemma with_domain_same : forall m D, wm_domain m = D -> mk_wmodel D (wm_ibp m) (wm_affine m) (wm_bb m) (wm_n m) (wm_out m) (wm_predict m) = m.
Proof. intros m D <-. destruct m; reflexivity. Qed.

Lemma with_domain_dom : forall a D, takes_domain a D -> wm_domain (with_domain a D) = D.
Proof. intros [c|d] D H; [exact H|reflexivity]. Qed.

Lemma noise_model_ok : forall a eps p, 0 <= eps -> takes_domain a (Ball eps p) -> noise_model a eps p = Ok (with_domain a (Ball eps p)).
Proof.
  intros [c|d] eps p E H; cbn [noise_model with_domain]; [reflexivity|]. destruct (Rle_dec 0 eps); [|contradiction]. rewrite Rmax_right by exact E. unfold wset_domain. unfold takes_domain in H. rewrite H. reflexivity.
Qed.

Lemma noise_model_again : forall m eps p, 0 <= eps -> wm_domain m = Ball eps p -> noise_model (Decomon m) eps p = Ok m.
Proof.
  intros m eps p E H. rewrite noise_model_ok; [cbn; rewrite with_domain_same by exact H; reflexivity|exact E|]. cbn. rewrite H. reflexivity.
Qed.

Lemma noise_reshape : forall n t rows, (0 < n)%nat -> Forall (fun r => length r = n) rows -> reshape (mk_arr t rows) [n] = Ok (@mk_arr R [n] rows).
Proof. intros n t rows N F. apply (reshape_same (mk_arr t rows) [n] n); [cbn; lia|exact N|exact F]. Qed.

(** mini-batches change nothing *)
Theorem range_noise_batch : forall a x eps p bs, let m := with_domain a (Ball eps p) in
  0 <= eps -> takes_domain a (Ball eps p) -> points_ok (wm_n m) x -> (forall b, (b < alen x)%nat -> exists mode ts, outputs m (point x b) mode ts) ->
  get_range_noise a x eps p bs = get_range_noise a x eps p (-1).
Proof.
  intros a x eps p bs m E TD (N & RX & X0) OU.
  unfold get_range_noise. rewrite noise_model_ok by assumption. fold m. cbn [bind]. destruct x as [t rows]. unfold rows_of in RX; cbn [a_rows] in RX. unfold alen in *; cbn [a_rows] in *.
  rewrite noise_reshape by assumption. cbn [bind a_rows]. destruct (0 <? bs)%Z eqn:B; [|reflexivity]. apply Z.ltb_lt in B. cbn [Z.ltb Z.compare].
  assert (D : wm_domain m = Ball eps p) by (apply with_domain_dom; exact TD).
  set (b := Z.to_nat bs). assert (B0 : (0 < b)%nat) by (unfold b; lia).
  assert (NE : rows <> []) by (destruct rows; [cbn in X0; lia|discriminate]).
  assert (CE : mapR (noise_call m eps p) (slices b rows) = mapR (noise_eval m eps p) (slices b rows)).
  { apply mapR_ext_in. intros s I. unfold noise_call. rewrite noise_model_again by assumption. cbn [bind]. rewrite noise_reshape; [reflexivity|exact N|].
    apply Forall_forall. intros r J. rewrite Forall_forall in RX. apply RX. apply (slices_in b rows s B0 I). exact J. }
  rewrite CE. clear CE. unfold noise_eval. destruct (get_dual_ord p) as [ord|e] eqn:O.
  2:{ cbn [bind]. pose proof (slices_ne b rows B0 NE) as SN. destruct (slices b rows); [contradiction|]. reflexivity. }
  cbn [bind].
  destruct (mapR_ok (noise_sample m eps ord) rows) as [r [ER LR]].
  { intros q I. apply In_nth with (d := []) in I. destruct I as [i [Hi <-]]. destruct (OU i Hi) as (mode & ts & OO). destruct (noise_sample_spec m eps p ord _ mode ts N E O OO) as (u & l & EQ & _). unfold point in EQ; cbn [a_rows] in EQ. eauto. }
  rewrite ER. cbn [bind]. rewrite (mapR_bind_ok (mapR (noise_sample m eps ord)) (fun r => (mk_arr (wm_out m) (map fst r), mk_arr (wm_out m) (map snd r)))).
  pose proof (slices_concat b rows B0) as SC. rewrite <- SC, mapR_concat in ER.
  destruct (mapR (mapR (noise_sample m eps ord)) (slices b rows)) as [rs|] eqn:RS; [|discriminate]. cbn [bind] in ER |- *. injection ER as <-.
  assert (RN : rs <> []).
  { intro X. destruct (mapR_nth _ _ _ RS) as [LL _]. rewrite X in LL. pose proof (slices_ne b rows B0 NE). destruct (slices b rows); [contradiction|discriminate]. }
  rewrite !map_map. cbn [fst snd].
  rewrite (np_concat_same (wm_out m)) by (try (destruct rs; [contradiction|discriminate]); apply Forall_forall; intros q I; apply in_map_iff in I; destruct I as [? [<- _]]; reflexivity).
  rewrite (np_concat_same (wm_out m)) by (try (destruct rs; [contradiction|discriminate]); apply Forall_forall; intros q I; apply in_map_iff in I; destruct I as [? [<- _]]; reflexivity).
  cbn [bind]. rewrite !map_map. cbn [a_rows]. rewrite !concat_map. reflexivity.
Qed.

Theorem range_noise_exact : forall a x eps p bs, let m := with_domain a (Ball eps p) in
  0 <= eps -> known_norm p -> takes_domain a (Ball eps p) -> points_ok (wm_n m) x -> (forall b, (b < alen x)%nat -> exists mode ts, outputs m (point x b) mode ts) ->
  exists u l, get_range_noise a x eps p bs = Ok (u, l) /\ a_tail u = wm_out m /\ a_tail l = wm_out m /\ alen u = alen x /\ alen l = alen x /\
    forall b j mode ts, (b < alen x)%nat -> (j < wm_k m)%nat -> outputs m (point x b) mode ts -> is_range mode (wm_n m) p eps (lvec (point x b)) ts j (cell u b j) (cell l b j).
Proof.
  intros a x eps p bs m E KN TD PO OU. unfold m. rewrite range_noise_batch by assumption. fold m. destruct PO as (N & RX & X0).
  unfold get_range_noise. rewrite noise_model_ok by assumption. fold m. cbn [bind]. destruct x as [t rows]. unfold rows_of in RX; cbn [a_rows] in RX. unfold alen in *; cbn [a_rows] in *.
  rewrite noise_reshape by assumption. cbn [bind a_rows Z.ltb Z.compare]. unfold noise_eval. destruct (dual_known p KN) as [ord O]. rewrite O. cbn [bind].
  destruct (mapR_ok (noise_sample m eps ord) rows) as [r [ER LR]].
  { intros q I. apply In_nth with (d := []) in I. destruct I as [i [Hi <-]]. destruct (OU i Hi) as (mode & ts & OO). destruct (noise_sample_spec m eps p ord _ mode ts N E O OO) as (u & l & EQ & _). unfold point in EQ; cbn [a_rows] in EQ. eauto. }
  rewrite ER. cbn [bind]. eexists _, _. split; [reflexivity|]. cbn [a_tail a_rows]. split; [reflexivity|]. split; [reflexivity|]. rewrite !map_length. split; [exact LR|]. split; [exact LR|].
  intros b j mode ts Hb Hj OO. destruct (mapR_nth _ _ _ ER) as [_ NB]. specialize (NB b [] ([], []) Hb).
  destruct (noise_sample_spec m eps p ord _ mode ts N E O OO) as (u & l & EQ & _ & _ & H). unfold point in EQ; cbn [a_rows] in EQ. rewrite EQ in NB. injection NB as NB.
  unfold cell; cbn [a_rows]. rewrite nth_fst, nth_snd, <- NB. cbn [fst snd]. apply H. exact Hj.
Qed.

Lemma sound_outputs : forall m f S x, sound_around m f S x -> exists mode ts, outputs m x mode ts.
Proof. intros m f S x (mode & ts & dc & M & P & V). exists mode, ts. split; [exact M|]. split; [exact P|]. exists dc. apply V. Qed.

Theorem range_noise_sound : forall a f x eps p bs, let m := with_domain a (Ball eps p) in
  0 <= eps -> known_norm p -> takes_domain a (Ball eps p) -> points_ok (wm_n m) x ->
  (forall b, (b < alen x)%nat -> sound_around m f (in_ball (wm_n m) p eps (lvec (point x b))) (point x b)) ->
  exists u l, get_range_noise a x eps p bs = Ok (u, l) /\ get_upper_noise a x eps p bs = Ok u /\ get_lower_noise a x eps p bs = Ok l /\ alen u = alen x /\ alen l = alen x /\
    forall b j z, (b < alen x)%nat -> (j < wm_k m)%nat -> in_ball (wm_n m) p eps (lvec (point x b)) z -> cell l b j <= f z j <= cell u b j.
Proof.
  intros a f x eps p bs m E KN TD PO SO.
  destruct (range_noise_exact a x eps p bs E KN TD PO) as (u & l & ER & _ & _ & LU & LL & H).
  { intros b Hb. eapply sound_outputs. apply SO. exact Hb. }
  exists u, l. split; [exact ER|]. unfold get_upper_noise, get_lower_noise. rewrite ER. cbn [bind fst snd]. split; [reflexivity|]. split; [reflexivity|]. split; [exact LU|]. split; [exact LL|].
  intros b j z Hb Hj Z. destruct (sound_outputs _ _ _ _ (SO b Hb)) as (mode & ts & OO). eapply (range_sound _ f); try eassumption; [apply SO; exact Hb|apply H; assumption].
Qed.

(** the other norms are refused; so is a DecomonModel defined on boxes *)
Theorem range_noise_norm : forall a x eps p bs, let m := with_domain a (Ball eps p) in
  0 <= eps -> takes_domain a (Ball eps p) -> points_ok (wm_n m) x -> ~ known_norm p -> get_range_noise a x eps p bs = Err ValueError.
Proof.
  intros a x eps p bs m E TD (N & RX & X0) KN. unfold get_range_noise. rewrite noise_model_ok by assumption. fold m. cbn [bind]. destruct x as [t rows]. unfold rows_of in RX; cbn [a_rows] in RX. unfold alen in *; cbn [a_rows] in *.
  assert (NE : rows <> []) by (destruct rows; [cbn in X0; lia|discriminate]).
  rewrite noise_reshape by assumption. cbn [bind a_rows]. destruct (0 <? bs)%Z eqn:B.
  - apply Z.ltb_lt in B. assert (D : wm_domain m = Ball eps p) by (apply with_domain_dom; exact TD).
    pose proof (slices_ne (Z.to_nat bs) rows ltac:(lia) NE) as SN. pose proof (slices_in (Z.to_nat bs) rows) as SI. destruct (slices (Z.to_nat bs) rows) as [|s ss]; [contradiction|].
    cbn [mapR]. unfold noise_call at 1. rewrite noise_model_again by assumption. cbn [bind]. rewrite noise_reshape.
    + cbn [bind a_rows]. unfold noise_eval. rewrite dual_unknown by exact KN. reflexivity.
    + exact N.
    + apply Forall_forall. intros r J. rewrite Forall_forall in RX. apply RX. apply (SI s ltac:(lia) (or_introl eq_refl)). exact J.
  - unfold noise_eval. rewrite dual_unknown by exact KN. reflexivity.
Qed.

Theorem range_noise_box : forall d x eps p bs, 0 <= eps -> wm_domain d = Box -> get_range_noise (Decomon d) x eps p bs = Err NotImplementedError.
Proof.
  intros d x eps p bs E D. unfold get_range_noise, noise_model. destruct (Rle_dec 0 eps); [|contradiction]. unfold wset_domain. rewrite D. reflexivity.
Qed.

(** ** get_adv_noise *)

Lemma firstn_incl : forall {A} k (l : list A), incl (firstn k l) l.
Proof. intros A k l x I. rewrite <- (firstn_skipn k l). apply in_or_app. left. exact I. Qed.

(** a Keras model is converted, then refused *)
Theorem adv_noise_keras : forall c x source eps p target bs, get_adv_noise (Keras c) x source eps p target bs = Err AttributeError.
Proof. reflexivity. Qed.

Theorem adv_noise_box : forall d x source eps p target bs, wm_domain d = Box -> exists e, get_adv_noise (Decomon d) x source eps p target bs = Err e.
Proof.
  intros d x source eps p target bs D. unfold get_adv_noise, noise_model, wset_domain. rewrite D. destruct (Rle_dec 0 eps); cbn; [eauto|]. rewrite D. cbn. eauto.
Qed.

Notation nitem := (list R * (list Z * option (list Z)))%type.
Definition nitem_ok (m : wmodel) (q : nitem) : Prop :=
  length (fst q) = wm_n m /\ (exists mode ts, outputs m (fst q) mode ts) /\ row01 (wm_k m) (fst (snd q)) /\ opt01 (wm_k m) (snd (snd q)).
Definition gapped (m : wmodel) (q : nitem) (v : R) : Prop := forall mode ts, outputs m (fst q) mode ts -> has_pair (wm_k m) (row_pair (fst (snd q)) (snd (snd q))) ->
  is_gap (wm_k m) (row_pair (fst (snd q)) (snd (snd q))) ts v.

Section Adv.
Variable m : wmodel.
Hypothesis IB : wm_ibp m = true.
Hypothesis AF : wm_affine m = false.
Hypothesis K : (0 < wm_k m)%nat.
Hypothesis N : (0 < wm_n m)%nat.

Lemma adv_noise_eval_spec : forall (items : list nitem) t1 t2 (tgt : option (list (list Z))), Forall (nitem_ok m) items ->
  map (fun q => snd (snd q)) items = tgt_rows tgt (length items) ->
  exists r, adv_noise_eval m (map fst items) (mk_arr t1 (map (fun q => fst (snd q)) items)) (option_map (mk_arr t2) tgt) = Ok r /\ Forall2 (gapped m) items r.
Proof.
  intros items t1 t2 tgt F T. unfold adv_noise_eval. rewrite mapR_map. rewrite Forall_forall in F.
  assert (MO : wmode m = Some IBP) by (unfold wmode; rewrite IB, AF; reflexivity).
  destruct (mapR_Forall2 (fun q : nitem => wm_predict m (wm_domain m) (xtensor (fst q)) None)
    (fun q ts => exists mode, outputs m (fst q) mode ts) (fun q => q) items) as (outs & E & P).
  { intros q I. destruct (F q I) as (_ & (mode & ts & OO) & _). exists ts. split; [apply OO|]. exists mode. exact OO. }
  rewrite map_id in P. rewrite E. cbn [bind]. rewrite IB, AF.
  destruct (mapR_Forall2 (unpack_output true false) (fun ts b => exists u l q, ts = u :: l :: q /\ bn_u b = u /\ bn_l b = l) (fun q => q) outs) as (bnd & EB & PB).
  { intros ts I. apply In_nth with (d := []) in I. destruct I as [i [Hi <-]]. pose proof (Forall2_len _ _ _ P) as LP.
    destruct (Forall2_nth _ _ _ i ([], ([], None)) [] P ltac:(lia)) as (mode & M & _ & dc & L). rewrite MO in M. injection M as <-.
    destruct (nth i outs []) as [|u [|l q]]; try (destruct dc; discriminate L). eexists. split; [reflexivity|]. exists u, l, q. cbn. auto. }
  rewrite map_id in PB. rewrite EB. cbn [bind].
  pose proof (Forall2_len _ _ _ P) as L1. pose proof (Forall2_len _ _ _ PB) as L2.
  destruct (penalised_spec (wm_k m) (map (fun b => ibp_upper (bn_u b) (bn_l b)) bnd) (mk_arr t1 (map (fun q : nitem => fst (snd q)) items)) (option_map (mk_arr t2) tgt) K) as (r & ER & PR).
  { unfold alen; cbn [a_rows]. rewrite !map_length. lia. }
  { cbn [a_rows]. apply Forall_forall. intros x I. apply in_map_iff in I. destruct I as [q [<- I]]. apply (F q I). }
  { destruct tgt as [l|]; cbn [option_map]; [|exact I]. cbn [tgt_rows] in T. split.
    - unfold alen; cbn [a_rows]. rewrite map_length, <- (map_length Some l), <- T, map_length. reflexivity.
    - apply Forall_forall. intros x I. cbn [a_rows] in I. assert (J : In (Some x) (map (fun q : nitem => snd (snd q)) items)) by (rewrite T; apply in_map; exact I).
      apply in_map_iff in J. destruct J as [q [Eq J]]. destruct (F q J) as (_ & _ & _ & O). rewrite Eq in O. exact O. }
  exists r. split; [exact ER|].
  assert (RO : rows_opt (option_map (mk_arr t2) tgt) (alen (mk_arr t1 (map (fun q : nitem => fst (snd q)) items))) = map (fun q => snd (snd q)) items).
  { rewrite T. unfold alen; cbn [a_rows]. rewrite map_length. destruct tgt; reflexivity. }
  rewrite RO in PR. cbn [a_rows] in PR. clear -P PB PR MO. revert bnd r PB PR. induction P as [|q ts items outs H P IH]; intros bnd r PB PR.
  - inversion PB; subst. cbn in PR. inversion PR. constructor.
  - inversion PB as [|? b ? bnd' Hb PB']; subst. cbn in PR. inversion PR as [|? v ? r' Hv PR']; subst. constructor; [|apply (IH bnd' r'); assumption].
    intros mode ts' (M & Q & _) HP. destruct H as (mode' & _ & Q' & _). rewrite Q in Q'. injection Q' as ->. destruct Hb as (u & l & q0 & -> & <- & <-). cbn [is_gap]. cbn [fst snd] in Hv. exact (Hv HP).
Qed.

Lemma adv_noise_call_spec : forall eps p (items : list nitem) t1 t2 (tgt : option (list (list Z))), 0 <= eps -> wm_domain m = Ball eps p -> items <> [] -> Forall (nitem_ok m) items ->
  map (fun q => snd (snd q)) items = tgt_rows tgt (length items) ->
  exists r, adv_noise_call m eps p (map fst items) (mk_arr t1 (map (fun q => fst (snd q)) items)) (option_map (mk_arr t2) tgt) = Ok r /\ Forall2 (gapped m) items r.
Proof.
  intros eps p items t1 t2 tgt E D NE F T. unfold adv_noise_call. rewrite noise_model_again by assumption. cbn [bind].
  pose proof F as F0. rewrite Forall_forall in F.
  rewrite noise_reshape by (try exact N; apply Forall_forall; intros x I; apply in_map_iff in I; destruct I as [q [<- I]]; apply (F q I)). cbn [bind a_rows].
  assert (LX : alen (mk_arr [wm_n m] (map fst items)) = length items) by (unfold alen; cbn [a_rows]; apply map_length). rewrite LX.
  assert (P0 : (0 < length items)%nat) by (destruct items; [contradiction|cbn; lia]).
  assert (S1 : alen (mk_arr t1 (map (fun q : nitem => fst (snd q)) items)) = length items) by (unfold alen; cbn; apply map_length).
  assert (PS : noise_source (LArr (mk_arr t1 (map (fun q : nitem => fst (snd q)) items))) (length items) = Ok (mk_arr [wm_k m] (map (fun q : nitem => fst (snd q)) items))).
  { unfold noise_source. cbn [prepare_labels]. rewrite <- S1. rewrite (reshape_first_same _ (wm_k m)); [reflexivity|rewrite S1; exact P0|].
    unfold rows_of. cbn [a_rows]. apply Forall_forall. intros r I. apply in_map_iff in I. destruct I as [q [<- I]]. apply (F q I). }
  rewrite PS. cbn [bind].
  assert (TG : noise_target (option_map LArr (option_map (mk_arr t2) tgt)) (mk_arr [wm_k m] (map (fun q : nitem => fst (snd q)) items)) (length items) = Ok (option_map (mk_arr [wm_k m]) tgt)).
  { destruct tgt as [l|]; [|reflexivity]. cbn [option_map noise_target]. cbn [tgt_rows] in T.
    assert (Ll : alen (mk_arr t2 l) = length items) by (unfold alen; cbn [a_rows]; rewrite <- (map_length Some l), <- T, map_length; reflexivity).
    rewrite <- Ll. rewrite (reshape_first_same _ (wm_k m)); [reflexivity|lia|].
    unfold rows_of. cbn [a_rows]. apply Forall_forall. intros r I.
    assert (J : In (Some r) (map (fun q : nitem => snd (snd q)) items)) by (rewrite T; apply in_map; exact I).
    apply in_map_iff in J. destruct J as [q [Eq J]]. destruct (F q J) as (_ & _ & _ & O). rewrite Eq in O. apply O. }
  rewrite TG. cbn [bind]. apply adv_noise_eval_spec; assumption.
Qed.

End Adv.


Lemma takes_ball : forall d eps p, is_box (wm_domain d) = false -> takes_domain (Decomon d) (Ball eps p).
Proof. intros d eps p H. cbn. destruct (wm_domain d); [discriminate|reflexivity]. Qed.

(** interval models: the largest difference between constant bounds *)
Theorem adv_noise_score : forall d x src tgt eps p bs, let m := with_domain (Decomon d) (Ball eps p) in
  noise_args d x src tgt eps p -> wm_ibp d = true -> wm_affine d = false -> (tgt = None \/ (bs <= 0)%Z \/ (Z.of_nat (alen x) <= bs)%Z) ->
  exists r, get_adv_noise (Decomon d) x (LArr src) eps p (option_map LArr tgt) bs = Ok r /\ length r = alen x /\
    forall b mode ts, (b < alen x)%nat -> outputs m (point x b) mode ts -> (exists t s, (t < wm_k m)%nat /\ (s < wm_k m)%nat /\ pair_of src tgt b t s) ->
      is_gap (wm_k m) (pair_of src tgt b) ts (nth b r 0).
Proof.
  intros d x src tgt eps p bs m (E & ND & K & PO & MS & MT & OU) IB AF HB. fold m in K, PO, MS, MT, OU. destruct PO as (N & RX & X0).
  assert (IB' : wm_ibp m = true) by exact IB. assert (AF' : wm_affine m = false) by exact AF.
  assert (D : wm_domain m = Ball eps p) by reflexivity.
  set (items := combine (a_rows x) (combine (a_rows src) (tgt_rows (option_map (@a_rows Z) tgt) (length (a_rows src)))) : list nitem).
  assert (LSR : length (a_rows src) = alen x) by apply MS.
  assert (LT : length (tgt_rows (option_map (@a_rows Z) tgt) (length (a_rows src))) = alen x).
  { destruct tgt as [t|]; cbn [option_map tgt_rows]; [rewrite map_length; apply MT|rewrite repeat_length; exact LSR]. }
  destruct (combine_len_eq (a_rows src) (tgt_rows (option_map (@a_rows Z) tgt) (length (a_rows src))) ltac:(lia)) as [E3 E4].
  assert (LC : length (combine (a_rows src) (tgt_rows (option_map (@a_rows Z) tgt) (length (a_rows src)))) = alen x) by (rewrite combine_length; lia).
  destruct (combine_len_eq (a_rows x) (combine (a_rows src) (tgt_rows (option_map (@a_rows Z) tgt) (length (a_rows src)))) ltac:(unfold alen in *; lia)) as [I1 E2].
  fold items in I1, E2.
  assert (LI : length items = alen x) by (unfold items; rewrite combine_length, LC; unfold alen; lia).
  assert (I2 : map (fun q : nitem => fst (snd q)) items = a_rows src) by (rewrite <- (map_map snd fst), E2; exact E3).
  assert (I3 : map (fun q : nitem => snd (snd q)) items = tgt_rows (option_map (@a_rows Z) tgt) (length items)) by (rewrite <- (map_map snd snd), E2, E4, LI, LSR; reflexivity).
  assert (NI : forall b, (b < alen x)%nat -> nth b items ([], ([], None)) = (point x b, row_of src tgt b)).
  { intros b Hb. unfold items. rewrite combine_nth by (rewrite LC; reflexivity). rewrite combine_nth by lia. unfold point, row_of. f_equal. f_equal.
    destruct tgt as [t|]; cbn [option_map tgt_rows].
    - rewrite (nth_indep _ None (Some [])) by (rewrite map_length; destruct MT as (L & _); unfold alen in L at 1; lia). apply (map_nth Some).
    - apply nth_rep. lia. }
  assert (F : Forall (nitem_ok m) items).
  { apply Forall_forall. intros q I. apply In_nth with (d := ([], ([], None))) in I. destruct I as [b [Hb <-]]. rewrite LI in Hb. rewrite NI by exact Hb.
    split; [cbn [fst]; unfold rows_of in RX; rewrite Forall_forall in RX; apply RX, nth_In; exact Hb|]. split; [apply OU; exact Hb|]. apply (row_of_ok src tgt (alen x)); assumption. }
  assert (NE : items <> []) by (intro X; rewrite X in LI; cbn in LI; lia).
  assert (R : exists r, get_adv_noise (Decomon d) x (LArr src) eps p (option_map LArr tgt) bs = Ok r /\ Forall2 (gapped m) items r).
  { unfold get_adv_noise. rewrite noise_model_ok by (try exact E; apply takes_ball; exact ND). fold m. cbn [bind]. rewrite D. cbn [bind].
    destruct x as [tx rows]. cbn [a_rows] in *. rewrite noise_reshape by assumption. cbn [bind a_rows]. unfold alen in LI, LSR, LT, LC, MS, MT, X0, NI, OU, HB |- *. cbn [a_rows] in *.
    unfold noise_source. rewrite (prepare_mask (length rows) (wm_k m)) by assumption. cbn [bind].
    assert (PT : noise_target (option_map LArr tgt) (mk_arr [wm_k m] (a_rows src)) (length rows) = Ok (option_map (mk_arr [wm_k m]) (option_map (@a_rows Z) tgt))).
    { destruct tgt as [t|]; cbn [option_map noise_target]; [|reflexivity]. pose proof (prepare_mask (length rows) (wm_k m) t X0 MT) as PM. cbn [prepare_labels] in PM. rewrite PM. reflexivity. }
    rewrite PT. cbn [bind]. destruct (0 <? bs)%Z eqn:B.
    - apply Z.ltb_lt in B. set (b := Z.to_nat bs). assert (B1 : (0 < b)%nat) by (unfold b; lia). cbv zeta. rewrite slices_length. set (c := nslices b (length rows)).
      assert (XS : slices b rows = map (fun i => map fst (sl b i items)) (seq 0 c)).
      { unfold slices. fold (nslices b (length rows)). fold c. apply map_ext. intro i. fold (sl b i rows). rewrite <- sl_map, I1. reflexivity. }
      assert (SS : arr_slices b (mk_arr [wm_k m] (a_rows src)) c = map (fun i => mk_arr [wm_k m] (map (fun q : nitem => fst (snd q)) (sl b i items))) (seq 0 c)).
      { unfold arr_slices. apply map_ext. intro i. cbn [a_rows a_tail]. f_equal. fold (sl b i (a_rows src)). rewrite <- sl_map, I2. reflexivity. }
      assert (ONE : tgt = None \/ (length rows <= b)%nat) by (destruct HB as [HB|[HB|HB]]; [left; exact HB|lia|right; unfold b; lia]).
      rewrite XS, SS, combine_map2, mapR_map. cbn [fst snd].
      destruct (mapR_Forall2 (fun i => adv_noise_call m eps p (map fst (sl b i items)) (mk_arr [wm_k m] (map (fun q : nitem => fst (snd q)) (sl b i items))) (option_map (mk_arr [wm_k m]) (option_map (@a_rows Z) tgt))) (Forall2 (gapped m)) (fun i => sl b i items) (seq 0 c)) as (rs & ER & P).
      { intros i I. apply in_seq in I. pose proof (nslices_lt b (length rows) i B1 ltac:(unfold c in I; lia)) as Y. apply adv_noise_call_spec; try assumption.
        - intro X. assert (Z : length (sl b i items) = 0%nat) by (rewrite X; reflexivity). unfold sl in Z. rewrite firstn_length, skipn_length in Z. lia.
        - apply Forall_forall. intros q J. rewrite Forall_forall in F. apply F. apply (sl_incl _ _ _ _ J).
        - rewrite <- sl_map, I3. destruct ONE as [->|LE].
          + cbn [option_map tgt_rows]. rewrite sl_repeat. f_equal. unfold sl. rewrite !firstn_length, !skipn_length, repeat_length. reflexivity.
          + assert (i = 0%nat) by nia. subst i. unfold sl. rewrite Nat.mul_0_r. cbn [skipn]. rewrite !firstn_all2 by (try rewrite <- I3, map_length; lia). reflexivity. }
      rewrite ER. cbn [bind]. pose proof (Forall2_len _ _ _ P) as LP. rewrite map_length, seq_length in LP.
      assert (C0 : (0 < c)%nat) by (pose proof (nslices_bound b (length rows) B1); unfold c; nia).
      destruct rs as [|r0 rs]; [cbn in LP; lia|]. eexists. split; [reflexivity|].
      apply Forall2_concat in P. replace (concat (map (fun i => sl b i items) (seq 0 c))) with items in P; [exact P|].
      symmetry. apply slices_seq; [exact B1|]. rewrite LI. apply nslices_bound. exact B1.
    - rewrite <- I1, <- I2. apply adv_noise_eval_spec; assumption. }
  destruct R as (r & ER & P). exists r. split; [exact ER|]. pose proof (Forall2_len _ _ _ P) as LP. split; [lia|].
  intros b mode ts Hb OO HP. pose proof (Forall2_nth _ _ _ b ([], ([], None)) 0 P ltac:(lia)) as G. rewrite NI in G by exact Hb. specialize (G mode ts OO). cbn [fst snd] in G.
  assert (Q : forall t s, row_pair (fst (row_of src tgt b)) (snd (row_of src tgt b)) t s <-> pair_of src tgt b t s) by (intros; apply row_pair_of).
  assert (HP' : has_pair (wm_k m) (row_pair (fst (row_of src tgt b)) (snd (row_of src tgt b)))) by (destruct HP as (t & s & T & S0 & PP); exists t, s; split; [exact T|]; split; [exact S0|]; apply Q; exact PP).
  specialize (G HP'). destruct ts as [|u [|l ts]]; try contradiction. cbn [is_gap] in G |- *. destruct G as [G1 (t & s & T & S0 & PP & G2)].
  split; [intros t' s' T' S' P'; apply G1; try assumption; apply Q; exact P'|]. exists t, s. split; [exact T|]. split; [exact S0|]. split; [apply Q; exact PP|exact G2].
Qed.

(** a negative score excludes adversarial points of the set on which the model bounds f *)
Theorem adv_noise_sound : forall d f S x src tgt eps p bs, let m := with_domain (Decomon d) (Ball eps p) in
  noise_args d x src tgt eps p -> wm_ibp d = true -> wm_affine d = false -> (tgt = None \/ (bs <= 0)%Z \/ (Z.of_nat (alen x) <= bs)%Z) ->
  (forall b, (b < alen x)%nat -> sound_around m f (S b) (point x b)) ->
  exists r, get_adv_noise (Decomon d) x (LArr src) eps p (option_map LArr tgt) bs = Ok r /\ length r = alen x /\
    forall b z, (b < alen x)%nat -> nth b r 0 < 0 -> S b z -> no_attack (wm_k m) (pair_of src tgt b) f z.
Proof.
  intros d f S x src tgt eps p bs m NA IB AF HB SO. destruct (adv_noise_score d x src tgt eps p bs NA IB AF HB) as (r & ER & LR & H). fold m in H.
  exists r. split; [exact ER|]. split; [exact LR|]. intros b z Hb Neg Z t s T S0 PP. destruct (SO b Hb) as (mode & ts & dc & M & P & V).
  assert (MO : mode = IBP) by (unfold wmode in M; change (wm_ibp m) with (wm_ibp d) in M; change (wm_affine m) with (wm_affine d) in M; rewrite IB, AF in M; congruence). subst mode.
  specialize (H b IBP ts Hb). destruct V as [L V]. assert (OO : outputs m (point x b) IBP ts) by (split; [exact M|]; split; [exact P|]; exists dc; exact L).
  specialize (H OO ltac:(exists t, s; auto)). destruct ts as [|u [|l ts]]; try contradiction. destruct H as [G _]. specialize (G t s T S0 PP). destruct (V z t Z T) as [_ A]. destruct (V z s Z S0) as [B _]. lra.
Qed.

(** models with affine bounds are always refused *)
Theorem adv_noise_affine : forall d x src tgt eps p bs, noise_args d x src tgt eps p -> wm_affine d = true -> (tgt = None \/ (bs <= 0)%Z \/ (Z.of_nat (alen x) <= bs)%Z) ->
  get_adv_noise (Decomon d) x (LArr src) eps p (option_map LArr tgt) bs = Err NotImplementedError.
Proof.
  intros d x src tgt eps p bs (E & ND & K & PO & MS & MT & OU) AF HB. set (m := with_domain (Decomon d) (Ball eps p)) in *. destruct PO as (N & RX & X0).
  assert (AF' : wm_affine m = true) by exact AF. assert (D : wm_domain m = Ball eps p) by reflexivity.
  assert (EV : forall xs s t, incl xs (a_rows x) -> adv_noise_eval m xs s t = Err NotImplementedError).
  { intros xs s t IN. unfold adv_noise_eval. rewrite AF'.
    destruct (mapR_ok (fun q => wm_predict m (wm_domain m) (xtensor q) None) xs) as [outs [EO LO]].
    { intros q I. apply IN in I. apply In_nth with (d := []) in I. destruct I as [i [Hi <-]]. destruct (OU i Hi) as (mode & ts & _ & P & _). exists ts. exact P. }
    rewrite EO. cbn [bind]. destruct (mapR_nth _ _ _ EO) as [_ NO].
    assert (UN : exists bnd, mapR (unpack_output (wm_ibp m) true) outs = Ok bnd).
    { destruct (mapR_ok (unpack_output (wm_ibp m) true) outs) as [bnd [EB _]]; [|eauto].
      intros ts I. apply In_nth with (d := []) in I. destruct I as [i [Hi <-]]. rewrite LO in Hi. pose proof (NO i [] [] Hi) as Q.
      assert (J : In (nth i xs []) (a_rows x)) by (apply IN, nth_In; exact Hi). apply In_nth with (d := []) in J. destruct J as [b [Hb Eb]].
      destruct (OU b Hb) as (mode & ts & M & P & dc & L). unfold point in P. rewrite Eb, Q in P. injection P as <-. unfold wmode in M. rewrite AF' in M.
      destruct (wm_ibp m); injection M as <-.
      - destruct (nth i outs []) as [|t0 [|t1 [|t2 [|t3 [|t4 [|t5 [|t6 q]]]]]]]; try (destruct dc; discriminate L). eexists; reflexivity.
      - destruct (nth i outs []) as [|t0 [|t1 [|t2 [|t3 [|t4 q]]]]]; try (destruct dc; discriminate L). eexists; reflexivity. }
    destruct UN as [bnd UN]. destruct (wm_ibp m); rewrite UN; reflexivity. }
  unfold get_adv_noise. rewrite noise_model_ok by (try exact E; apply takes_ball; exact ND). fold m. cbn [bind]. rewrite D. cbn [bind].
  destruct x as [tx rows]. unfold rows_of in RX; cbn [a_rows] in *. rewrite noise_reshape by assumption. cbn [bind a_rows]. unfold alen in MS, MT, X0, OU, HB |- *. cbn [a_rows] in *.
  unfold noise_source. rewrite (prepare_mask (length rows) (wm_k m)) by assumption. cbn [bind].
  assert (PT : noise_target (option_map LArr tgt) (mk_arr [wm_k m] (a_rows src)) (length rows) = Ok (option_map (mk_arr [wm_k m]) (option_map (@a_rows Z) tgt))).
  { destruct tgt as [t|]; cbn [option_map noise_target]; [|reflexivity]. pose proof (prepare_mask (length rows) (wm_k m) t X0 MT) as PM. cbn [prepare_labels] in PM. rewrite PM. reflexivity. }
  rewrite PT. cbn [bind]. destruct (0 <? bs)%Z eqn:B; [|apply EV, incl_refl].
  apply Z.ltb_lt in B. set (b := Z.to_nat bs). assert (B1 : (0 < b)%nat) by (unfold b; lia). cbv zeta.
  assert (NE : rows <> []) by (destruct rows; [cbn in X0; lia|discriminate]).
  rewrite slices_length. set (c := nslices b (length rows)). assert (C0 : (0 < c)%nat) by (pose proof (nslices_bound b (length rows) B1); unfold c; nia).
  unfold slices, arr_slices. fold (nslices b (length rows)). fold c. rewrite combine_map2, mapR_map. cbn [fst snd a_rows a_tail].
  destruct c as [|c']; [lia|]. cbn [seq mapR]. rewrite Nat.mul_0_r. cbn [skipn].
  assert (FS : Forall (fun r => length r = wm_n m) (firstn b rows)) by (apply Forall_forall; intros r I; rewrite Forall_forall in RX; apply RX; apply (firstn_incl _ _ _ I)).
  unfold adv_noise_call at 1. rewrite noise_model_again by assumption. cbn [bind]. rewrite noise_reshape by assumption. cbn [bind].
  assert (LF : alen (mk_arr [wm_n m] (firstn b rows)) = Nat.min b (length rows)) by (unfold alen; cbn [a_rows]; apply firstn_length). rewrite LF.
  assert (LS : alen (mk_arr [wm_k m] (firstn b (a_rows src))) = Nat.min b (length rows)) by (unfold alen; cbn [a_rows]; rewrite firstn_length; destruct MS as (L & _); unfold alen in L; rewrite L; reflexivity).
  unfold noise_source. cbn [prepare_labels]. rewrite <- LS at 1. rewrite (reshape_first_same _ (wm_k m)).
  2:{ rewrite LS. destruct rows; [contradiction|cbn; lia]. }
  2:{ unfold rows_of; cbn [a_rows]. apply Forall_forall. intros r I. destruct MS as (_ & RS & _). unfold rows_of in RS. rewrite Forall_forall in RS. apply RS. apply (firstn_incl _ _ _ I). }
  cbn [bind a_rows].
  assert (PT2 : exists t', noise_target (option_map LArr (option_map (mk_arr [wm_k m]) (option_map (@a_rows Z) tgt))) (mk_arr [wm_k m] (firstn b (a_rows src))) (Nat.min b (length rows)) = Ok t').
  { destruct tgt as [t|]; cbn [option_map noise_target]; [|eauto]. destruct HB as [HB|[HB|HB]]; [discriminate|lia|]. rewrite Nat.min_r by (unfold b; lia).
    destruct MT as (L & R & _). rewrite <- L. change (alen t) with (alen (mk_arr [wm_k m] (a_rows t))) at 1. rewrite (reshape_first_same _ (wm_k m)); [cbn [bind]; eauto| |exact R].
    change (alen (mk_arr [wm_k m] (a_rows t))) with (alen t). rewrite L. exact X0. }
  destruct PT2 as [t' PT2]. rewrite PT2. cbn [bind]. rewrite EV; [reflexivity|]. apply firstn_incl.
Qed.

(** targets and mini-batches: every call gets all the targets *)
Theorem adv_noise_targets : forall d x src t eps p bs, noise_args d x src (Some t) eps p -> wm_ibp d = true -> wm_affine d = false -> (0 < bs < Z.of_nat (alen x))%Z ->
  get_adv_noise (Decomon d) x (LArr src) eps p (Some (LArr t)) bs = Err ValueError.
Proof.
  intros d x src t eps p bs (E & ND & K & PO & MS & MT & OU) IB AF HB. set (m := with_domain (Decomon d) (Ball eps p)) in *. destruct PO as (N & RX & X0). cbn [mask_opt] in MT.
  assert (IB' : wm_ibp m = true) by exact IB. assert (AF' : wm_affine m = false) by exact AF. assert (D : wm_domain m = Ball eps p) by reflexivity.
  assert (MO : wmode m = Some IBP) by (unfold wmode; rewrite IB', AF'; reflexivity).
  unfold get_adv_noise. rewrite noise_model_ok by (try exact E; apply takes_ball; exact ND). fold m. cbn [bind]. rewrite D. cbn [bind].
  destruct x as [tx rows]. unfold rows_of in RX; cbn [a_rows] in *. rewrite noise_reshape by assumption. cbn [bind a_rows]. unfold alen in MS, MT, X0, OU, HB |- *. cbn [a_rows] in *.
  unfold noise_source. rewrite (prepare_mask (length rows) (wm_k m)) by assumption. cbn [bind].
  pose proof (prepare_mask (length rows) (wm_k m) t X0 MT) as PM. cbn [prepare_labels] in PM. cbn [noise_target]. rewrite PM. cbn [bind].
  replace (0 <? bs)%Z with true by (symmetry; apply Z.ltb_lt; lia). set (b := Z.to_nat bs). assert (B1 : (0 < b)%nat) by (unfold b; lia). assert (B2 : (b < length rows)%nat) by (unfold b; lia). cbv zeta.
  rewrite slices_length. set (c := nslices b (length rows)). assert (C0 : (0 < c)%nat) by (pose proof (nslices_bound b (length rows) B1); unfold c; nia).
  unfold slices, arr_slices. fold (nslices b (length rows)). fold c. rewrite combine_map2, mapR_map. cbn [fst snd a_rows a_tail].
  destruct c as [|c']; [lia|]. cbn [seq mapR]. rewrite Nat.mul_0_r. cbn [skipn].
  assert (FS : Forall (fun r => length r = wm_n m) (firstn b rows)) by (apply Forall_forall; intros r I; rewrite Forall_forall in RX; apply RX; apply (firstn_incl _ _ _ I)).
  assert (CALL : adv_noise_call m eps p (firstn b rows) (mk_arr [wm_k m] (firstn b (a_rows src))) (Some (mk_arr [wm_k m] (a_rows t))) = Err ValueError); [|rewrite CALL; reflexivity].
  unfold adv_noise_call. rewrite noise_model_again by assumption. cbn [bind]. rewrite noise_reshape by assumption. cbn [bind].
  assert (LF : alen (mk_arr [wm_n m] (firstn b rows)) = b) by (unfold alen; cbn [a_rows]; rewrite firstn_length; lia). rewrite LF.
  assert (LSR : length (a_rows src) = length rows) by apply MS. assert (LTR : length (a_rows t) = length rows) by apply MT.
  assert (LS : alen (mk_arr [wm_k m] (firstn b (a_rows src))) = b) by (unfold alen; cbn [a_rows]; rewrite firstn_length; lia).
  assert (RS : rows_of (wm_k m) (mk_arr [wm_k m] (firstn b (a_rows src)))).
  { unfold rows_of; cbn [a_rows]. apply Forall_forall. intros r I. destruct MS as (_ & RS & _). unfold rows_of in RS. rewrite Forall_forall in RS. apply RS. apply (firstn_incl _ _ _ I). }
  assert (PS : noise_source (LArr (mk_arr [wm_k m] (firstn b (a_rows src)))) b = Ok (mk_arr [wm_k m] (firstn b (a_rows src)))).
  { unfold noise_source. cbn [prepare_labels]. rewrite <- LS at 2. rewrite (reshape_first_same _ (wm_k m)); [reflexivity|rewrite LS; exact B1|exact RS]. }
  rewrite PS. cbn [bind option_map noise_target].
  set (tt' := mk_arr [wm_k m] (a_rows t)).
  assert (RT : reshape tt' [wm_k m] = Ok tt') by (apply (reshape_same tt' [wm_k m] (wm_k m)); [cbn; lia|exact K|apply MT]).
  destruct (reshape_first tt' b) as [t'|e] eqn:ET.
  2:{ unfold reshape_first in ET. destruct (b =? 0)%nat; [injection ET as <-; reflexivity|]. destruct (_ mod _ =? 0)%nat; [discriminate|]. injection ET as <-; reflexivity. }
  cbn [bind].
  assert (FT : flatten t' = flatten tt').
  { unfold reshape_first in ET. destruct (b =? 0)%nat; [discriminate|]. destruct (length (flatten tt') mod b =? 0)%nat eqn:MD; [|discriminate]. injection ET as <-. unfold flatten at 1; cbn [a_rows]. apply Nat.eqb_eq in MD.
    pose proof (Nat.div_mod (length (flatten tt')) b ltac:(lia)) as DM. rewrite MD, Nat.add_0_r in DM. revert DM. generalize (length (flatten tt') / b)%nat as k. generalize (flatten tt') as l. clear. induction b as [|b IH]; intros l k DM; cbn [chunks concat].
    - destruct l; [reflexivity|discriminate].
    - rewrite IH by (rewrite skipn_length; nia). apply firstn_skipn. }
  unfold adv_noise_eval. rewrite IB', AF'.
  destruct (mapR_ok (fun q => wm_predict m (wm_domain m) (xtensor q) None) (firstn b rows)) as [outs [EO LO]].
  { intros q I. apply firstn_incl in I. apply In_nth with (d := []) in I. destruct I as [i [Hi <-]]. destruct (OU i Hi) as (mode & ts & _ & P & _). exists ts. exact P. }
  cbn [a_rows]. rewrite EO. cbn [bind]. destruct (mapR_nth _ _ _ EO) as [_ NO].
  destruct (mapR_ok (unpack_output true false) outs) as [bnd [EB LB]].
  { intros ts I. apply In_nth with (d := []) in I. destruct I as [i [Hi <-]]. rewrite LO in Hi. pose proof (NO i [] [] Hi) as Q.
    assert (J : In (nth i (firstn b rows) []) rows) by (apply (firstn_incl b), nth_In; exact Hi). apply In_nth with (d := []) in J. destruct J as [b0 [Hb Eb]].
    destruct (OU b0 Hb) as (mode & ts & M & P & dc & L). unfold point in P. cbn [a_rows] in P. rewrite Eb, Q in P. injection P as <-. rewrite MO in M. injection M as <-.
    destruct (nth i outs []) as [|t0 [|t1 q]]; try (destruct dc; discriminate L). eexists; reflexivity. }
  rewrite EB. cbn [bind]. unfold penalised.
  assert (RT' : reshape t' [wm_k m] = Ok tt') by (rewrite <- RT; unfold reshape; rewrite FT; reflexivity). rewrite RT'. cbn [bind].
  rewrite (reshape_same (mk_arr [wm_k m] (firstn b (a_rows src))) [wm_k m] (wm_k m)) by (first [exact K|exact RS|apply Nat.mul_1_r]). cbn [bind a_rows].
  assert (L1 : length (a_rows tt') = length rows) by (unfold tt'; cbn [a_rows]; exact LTR).
  assert (L2 : length (firstn b (a_rows src)) = b) by (rewrite firstn_length; lia).
  assert (L3 : length bnd = b) by (rewrite LB, LO, firstn_length; lia).
  unfold bcast at 1. rewrite L1, L2. replace (length rows =? b)%nat with false by (symmetry; apply Nat.eqb_neq; lia).
  destruct (a_rows tt') as [|r1 [|r2 rr]] eqn:ER; cbn in L1; [lia|lia|].
  destruct (firstn b (a_rows src)) as [|s1 [|s2 ss]] eqn:ES; cbn in L2; [lia| |reflexivity].
  cbn [bind]. rewrite !map_length. cbn [length]. rewrite L3. replace (S (S (length rr)) =? b)%nat with false by (symmetry; apply Nat.eqb_neq; lia). reflexivity.
Qed.

(** an integer target is replaced by the source: no score is negative *)
Theorem adv_noise_int_target : forall d f S x src eps p bs c, let m := with_domain (Decomon d) (Ball eps p) in
  noise_args d x src None eps p -> wm_ibp d = true -> wm_affine d = false -> (bs <= 0)%Z ->
  (forall b, (b < alen x)%nat -> sound_around m f (S b) (point x b) /\ (exists z, S b z) /\ exists s, (s < wm_k m)%nat /\ cellz src b s = 1%Z) ->
  exists r, get_adv_noise (Decomon d) x (LArr src) eps p (Some (LInt c)) bs = Ok r /\ length r = alen x /\ forall b, (b < alen x)%nat -> 0 <= nth b r 0.
Proof.
  intros d f S x src eps p bs c m NA IB AF HB SO.
  assert (NA' : noise_args d x src (Some src) eps p) by (destruct NA as (E & ND & K & PO & MS & _ & OU); repeat split; try assumption; try apply PO; try apply MS).
  destruct (adv_noise_score d x src (Some src) eps p bs NA' IB AF ltac:(auto)) as (r & ER & LR & H). fold m in H.
  assert (EQ : get_adv_noise (Decomon d) x (LArr src) eps p (Some (LInt c)) bs = get_adv_noise (Decomon d) x (LArr src) eps p (Some (LArr src)) bs).
  { destruct NA as (E & ND & K & PO & MS & _ & OU). fold m in K, PO, MS. destruct PO as (N & RX & X0).
    unfold get_adv_noise. rewrite noise_model_ok by (try exact E; apply takes_ball; exact ND). fold m. cbn [bind]. change (wm_domain m) with (Ball eps p). cbn [bind].
    destruct x as [tx rows]. unfold rows_of in RX; cbn [a_rows] in RX. rewrite noise_reshape by assumption. cbn [bind]. unfold alen in MS, X0 |- *. cbn [a_rows] in *.
    pose proof (prepare_mask (length rows) (wm_k m) src X0 MS) as PM. unfold noise_source. rewrite PM. cbn [bind noise_target]. cbn [prepare_labels] in PM. rewrite PM.
    assert (P2 : reshape_first (mk_arr [wm_k m] (a_rows src)) (length rows) = Ok (mk_arr [wm_k m] (a_rows src))).
    { apply (prepare_mask (length rows) (wm_k m) (mk_arr [wm_k m] (a_rows src)) X0). exact MS. }
    rewrite P2. reflexivity. }
  exists r. split; [rewrite EQ; exact ER|]. split; [exact LR|]. intros b Hb. destruct (SO b Hb) as ((mode & ts & dc & M & P & V) & (z & Z) & s & Hs & C).
  assert (MO : mode = IBP) by (unfold wmode in M; change (wm_ibp m) with (wm_ibp d) in M; change (wm_affine m) with (wm_affine d) in M; rewrite IB, AF in M; congruence). subst mode.
  destruct V as [L V]. assert (OO : outputs m (point x b) IBP ts) by (split; [exact M|]; split; [exact P|]; exists dc; exact L).
  assert (PP : pair_of src (Some src) b s s) by (split; exact C).
  specialize (H b IBP ts Hb OO ltac:(exists s, s; auto)). destruct ts as [|u [|l ts]]; try contradiction. destruct H as [G _]. specialize (G s s Hs Hs PP). destruct (V z s Z Hs) as [A B]. lra.
Qed.
