(** Integer labels in get_adv_box (C47) and check_adv_box (C48). *)
From Coq Require Import Reals Lra Lia List Arith Bool ZArith.
From Verif Require Import RLib Spec M_Core M_State M_Wrapper Spec_Wrapper P_Core P_Wrapper P_WrapperRefine P_WrapperAdv P_WrapperAdvBox.
Import ListNotations.
Local Open Scope R_scope.

(** ** Labels with one integer per sample *)

Lemma reshape_ints : forall (src : arr Z) k, (0 < k)%nat -> rows_of 1 src ->
  reshape src [k] = if (alen src mod k =? 0)%nat then Ok (mk_arr [k] (chunks (alen src / k) k (flatten src))) else Err ValueError.
Proof.
  intros src k K H. unfold reshape. cbn [prodn]. rewrite Nat.mul_1_r. destruct (k =? 0)%nat eqn:E; [apply Nat.eqb_eq in E; lia|].
  assert (L : length (flatten src) = alen src) by (unfold flatten; rewrite (concat_len 1) by exact H; unfold alen; lia). rewrite L. reflexivity.
Qed.

Lemma penalised_ints_err : forall k ups src, (2 <= k)%nat -> rows_of 1 src -> length ups = alen src -> (0 < alen src)%nat -> alen src <> k -> penalised k ups src None = Err ValueError.
Proof.
  intros k ups src K H L P NE. unfold penalised.
  set (tg := mk_arr (a_tail src) (map (map (fun v => (1 - v)%Z)) (a_rows src))).
  assert (LT : alen tg = alen src) by (unfold alen, tg; cbn; apply map_length).
  assert (HT : rows_of 1 tg).
  { unfold rows_of, tg; cbn [a_rows]. apply Forall_forall. intros r I. apply in_map_iff in I. destruct I as [r0 [<- I]]. rewrite map_length. unfold rows_of in H. rewrite Forall_forall in H. apply H; exact I. }
  rewrite (reshape_ints tg k) by (try assumption; lia). rewrite LT. destruct (alen src mod k =? 0)%nat eqn:E; [|reflexivity]. cbn [bind].
  rewrite (reshape_ints src k) by (try assumption; lia). rewrite E. cbn [bind a_rows].
  unfold bcast at 1. rewrite !chunks_length, Nat.eqb_refl. cbn [bind]. rewrite combine_length, !chunks_length, Nat.min_id, L.
  apply Nat.eqb_eq in E. pose proof (Nat.div_mod (alen src) k ltac:(lia)) as DM. rewrite E in DM.
  destruct (alen src / k =? alen src)%nat eqn:E1; [apply Nat.eqb_eq in E1; nia|]. destruct (alen src / k =? 1)%nat eqn:E2; [apply Nat.eqb_eq in E2; rewrite E2 in DM; lia|]. reflexivity.
Qed.

Lemma adv_eval_ints_err : forall m f samples src, wm_bb m = false -> (2 <= wm_k m)%nat -> samples <> [] -> Forall (fun p => sound_on m f p /\ sample_ok (wm_n m) p) samples ->
  rows_of 1 src -> alen src = length samples -> length samples <> wm_k m -> adv_eval m samples src None = Err ValueError.
Proof.
  intros m f samples src BB K NE F H L NK. unfold adv_eval. rewrite BB. cbv zeta. rewrite Forall_forall in F.
  assert (P0 : (0 < length samples)%nat) by (destruct samples; [contradiction|cbn; lia]).
  destruct (mapR_ok (fun p => wm_predict m (wm_domain m) (ztensor p) None) samples) as [outs [EO LO]].
  { intros q I. destruct (F q I) as [(mode & ts & dc & _ & E & _) _]. eauto. }
  rewrite EO. cbn [bind]. destruct (mapR_nth _ _ _ EO) as [_ NO].
  destruct (mapR_ok (unpack_output (wm_ibp m) (wm_affine m)) outs) as [bs [EB LB]].
  { intros ts I. apply In_nth with (d := []) in I. destruct I as [i [Hi <-]]. rewrite LO in Hi.
    assert (IN : In (nth i samples ([], [])) samples) by (apply nth_In; exact Hi). destruct (F _ IN) as (A & B).
    destruct (unpack_sound m f _ _ A B (NO i ([], []) [] Hi)) as (b & E & _). eauto. }
  rewrite EB. cbn [bind].
  assert (M0 : wm_ibp m = true \/ wm_affine m = true).
  { destruct samples as [|q samples]; [contradiction|]. destruct (F q (or_introl eq_refl)) as [(mode & ts & dc & M & _) _]. unfold wmode in M. destruct (wm_ibp m), (wm_affine m); auto; discriminate. }
  assert (PE : forall g : bnds -> mat, penalised (wm_k m) (map g bs) src None = Err ValueError).
  { intro g. apply penalised_ints_err; try assumption; rewrite ?map_length; lia. }
  destruct (wm_ibp m).
  - rewrite PE. reflexivity.
  - cbn [bind]. destruct (wm_affine m); [|destruct M0; discriminate]. rewrite PE. reflexivity.
Qed.


Lemma prepare_ints : forall l B, (0 < B)%nat -> int_labels l B -> exists src, prepare_labels l B = Ok src /\ rows_of 1 src /\ alen src = B /\ a_tail src = [1%nat].
Proof.
  intros [c|a] B B0 H.
  - eexists. split; [reflexivity|]. unfold rows_of, alen; cbn. split; [|split; [apply repeat_length|reflexivity]]. apply Forall_forall. intros r I. apply repeat_spec in I. subst r. reflexivity.
  - destruct H as [H L]. exists (mk_arr [1%nat] (a_rows a)). cbn [prepare_labels]. rewrite <- L. rewrite (reshape_first_same a 1) by (try assumption; lia). split; [reflexivity|]. split; [exact H|]. split; [reflexivity|reflexivity].
Qed.

(** C47: one integer per sample is refused, unless the number of samples of a batch is the number of classes *)
Theorem adv_box_int_error : forall a f xmin xmax lab bs ns, let m := the_model a in
  is_box (wm_domain m) = true -> wm_bb m = false -> (2 <= wm_k m)%nat -> boxes_ok (wm_n m) xmin xmax -> consistent (wm_n m) xmin xmax -> small ns ->
  (forall b, (b < alen xmin)%nat -> sound_on m f (the_box xmin xmax b)) -> int_labels lab (alen xmin) ->
  (if (0 <? bs)%Z then Nat.min (Z.to_nat bs) (alen xmin) else alen xmin) <> wm_k m ->
  get_adv_box a xmin xmax lab None bs ns = Err ValueError.
Proof.
  intros a f xmin xmax lab bs ns m D BB K BO C NS SO IL NK. unfold get_adv_box. rewrite (consistent_dec (wm_n m)) by assumption. cbn [bind].
  rewrite box_model_ok by exact D. cbn [bind]. fold m. rewrite sub_boxes_one by exact NS. cbn [bind].
  rewrite to_samples_ok by (try exact BO; apply andb_false_r). cbn [bind].
  destruct (combine_ne _ _ _ BO) as [Ls Ne]. set (samples := combine (a_rows xmin) (a_rows xmax)) in *.
  assert (B0 : (0 < alen xmin)%nat) by apply BO.
  destruct (prepare_ints lab (alen xmin) B0 IL) as (src & ES & RS & LS & TS). rewrite ES. cbn [bind prepare_opt]. unfold repeat_rows. cbn [Nat.ltb Nat.leb bind].
  assert (FS : Forall (fun p => sound_on m f p /\ sample_ok (wm_n m) p) samples).
  { apply Forall_forall. intros p I. split; [|pose proof (samples_ok _ _ _ BO C) as F; rewrite Forall_forall in F; apply F; exact I].
    apply In_nth with (d := ([], [])) in I. destruct I as [b [Hb <-]]. unfold samples. rewrite (the_box_combine (wm_n m)) by exact BO. apply SO. lia. }
  destruct (0 <? bs)%Z eqn:EB.
  - apply Z.ltb_lt in EB. set (b := Z.to_nat bs) in *. assert (B1 : (0 < b)%nat) by (unfold b; lia). cbv zeta. rewrite slices_length.
    assert (C0 : (0 < nslices b (length samples))%nat) by (pose proof (nslices_bound b (length samples) B1); nia).
    unfold slices. fold (nslices b (length samples)). unfold arr_slices. destruct (nslices b (length samples)) as [|c] eqn:EC; [lia|].
    cbn [seq map repeat combine]. rewrite Nat.mul_0_r, !skipn_O. cbn [mapR fst snd].
    assert (CALL : adv_call m (firstn b samples) (mk_arr (a_tail src) (firstn b (a_rows src))) None = Err ValueError).
    { assert (F1 : Forall (fun p => sound_on m f p /\ sample_ok (wm_n m) p) (firstn b samples)).
      { apply Forall_forall. intros p I. rewrite Forall_forall in FS. apply FS. rewrite <- (firstn_skipn b). apply in_or_app; left; exact I. }
      assert (Lf : length (firstn b samples) = Nat.min b (alen xmin)) by (rewrite firstn_length, Ls; reflexivity).
      assert (N1 : firstn b samples <> []) by (intro X; rewrite X in Lf; cbn in Lf; lia).
      unfold adv_call.
      assert (F2 : Forall (sample_ok (wm_n m)) (firstn b samples)) by (eapply Forall_impl; [|exact F1]; intros p X; apply X).
      destruct (samples_boxes_ok (wm_n m) [1%nat; wm_n m] (firstn b samples) ltac:(apply BO) N1 F2) as [BO' C'].
      rewrite (consistent_dec (wm_n m)) by assumption. cbn [bind]. unfold box_model. rewrite D. cbn [bind].
      rewrite to_samples_ok by (try assumption; apply andb_false_r). cbn [bind a_rows]. rewrite combine_map_fst_snd.
      assert (LF : alen (mk_arr (a_tail src) (firstn b (a_rows src))) = length (firstn b samples)).
      { unfold alen at 1; cbn [a_rows]. rewrite !firstn_length, Ls. change (length (a_rows src)) with (alen src). rewrite LS. reflexivity. }
      assert (RF : rows_of 1 (mk_arr (a_tail src) (firstn b (a_rows src)))).
      { unfold rows_of; cbn [a_rows]. apply Forall_forall. intros r I. unfold rows_of in RS. rewrite Forall_forall in RS. apply RS. rewrite <- (firstn_skipn b). apply in_or_app; left; exact I. }
      assert (LX : alen (mk_arr [1%nat; wm_n m] (map fst (firstn b samples))) = length (firstn b samples)) by (unfold alen; cbn; apply map_length).
      cbn [prepare_labels]. rewrite LX, <- LF. rewrite (reshape_first_same _ 1) by (try assumption; rewrite LF, Lf; lia). cbn [bind option_map prepare_opt a_rows].
      apply (adv_eval_ints_err m f); try assumption.
      rewrite Lf. exact NK. }
    rewrite CALL. reflexivity.
  - rewrite (adv_eval_ints_err m f samples src); try assumption; [reflexivity|lia|]. rewrite Ls. exact NK.
Qed.

(** ** The label 0 and the label 1 give the same score *)

Lemma block_max_ext : forall k g h, (0 < k)%nat -> (forall t s, (t < k)%nat -> (s < k)%nat -> g t s = h t s) -> block_max k g = block_max k h.
Proof.
  intros k g h K H. unfold block_max. apply rmax_ext; [lia|]. intros s S. apply rmax_ext; [lia|]. intros t T. apply H; assumption.
Qed.

Lemma flat_ints : forall (v : Z) B, flatten (mk_arr [1%nat] (repeat [v] B)) = repeat v B.
Proof. intros v B. unfold flatten; cbn [a_rows]. induction B as [|B IH]; cbn; [reflexivity|]. rewrite IH. reflexivity. Qed.

Lemma nth_repZ : forall (v : Z) s i, (i < s)%nat -> nth i (repeat v s) 0%Z = v.
Proof. intros v s i H. apply nth_rep. exact H. Qed.

(** with as many samples as classes, the integer c is read as the mask (c,...,c) of every sample *)
Lemma penalised_ints : forall k ups c, (2 <= k)%nat -> length ups = k ->
  penalised k ups (mk_arr [1%nat] (repeat [c] k)) None =
    Ok (map (fun up => block_max k (fun t s => up t s - (1 - IZR (1 - c) * IZR c) * (batch_max k ups - batch_min k ups + 1 / 10))) ups).
Proof.
  intros k ups c K L. unfold penalised. cbn [a_tail a_rows].
  set (tg := mk_arr [1%nat] (map (map (fun v => (1 - v)%Z)) (repeat [c] k))).
  assert (TG : tg = mk_arr [1%nat] (repeat [(1 - c)%Z] k)).
  { unfold tg. f_equal. clear. induction k as [|k IH]; cbn; [reflexivity|]. f_equal. exact IH. }
  rewrite TG.
  assert (RI : forall v : Z, reshape (mk_arr [1%nat] (repeat [v] k)) [k] = Ok (mk_arr [k] [repeat v k])).
  { intro v. rewrite (reshape_ints _ k ltac:(lia)).
    - assert (A : alen (mk_arr [1%nat] (repeat [v] k)) = k) by (unfold alen; cbn; apply repeat_length). rewrite A, Nat.mod_same, Nat.eqb_refl, Nat.div_same, flat_ints by lia.
      cbn [chunks]. rewrite firstn_all2 by (rewrite repeat_length; lia). reflexivity.
    - unfold rows_of; cbn [a_rows]. apply Forall_forall. intros r I. apply repeat_spec in I. subst r. reflexivity. }
  rewrite !RI. cbn [bind a_rows].
  assert (B1 : bcast [repeat (1 - c)%Z k] [repeat c k] = Ok [(repeat (1 - c)%Z k, repeat c k)]) by reflexivity. rewrite B1. cbn [bind].
  set (q := (repeat (1 - c)%Z k, repeat c k)). change (length [q]) with 1%nat. change (1 =? 1)%nat with true. cbn [negb]. rewrite andb_false_r.
  assert (B2 : bcast ups [q] = Ok (map (fun a => (a, q)) ups)).
  { unfold bcast. change (length [q]) with 1%nat. replace (length ups =? 1)%nat with false by (symmetry; apply Nat.eqb_neq; lia). destruct ups as [|u1 [|u2 ups]]; [cbn in L; lia|cbn in L; lia|reflexivity]. }
  rewrite B2. cbn [bind]. unfold q.
  f_equal. rewrite map_map. apply map_ext. intros up. cbn [fst snd].
  apply block_max_ext; [lia|]. intros t s T S. unfold pair_mask, zat. cbn [fst snd]. rewrite !nth_repZ by assumption. reflexivity.
Qed.

Lemma prepare_int : forall c B, prepare_labels (LInt c) B = Ok (mk_arr [1%nat] (repeat [c] B)).
Proof. reflexivity. Qed.

Theorem adv_box_int_ignored : forall a f xmin xmax bs ns, let m := the_model a in
  is_box (wm_domain m) = true -> wm_bb m = false -> (2 <= wm_k m)%nat -> boxes_ok (wm_n m) xmin xmax -> consistent (wm_n m) xmin xmax -> small ns -> (bs <= 0)%Z ->
  (forall b, (b < alen xmin)%nat -> sound_on m f (the_box xmin xmax b)) -> alen xmin = wm_k m ->
  exists r, get_adv_box a xmin xmax (LInt 0) None bs ns = Ok r /\ get_adv_box a xmin xmax (LInt 1) None bs ns = Ok r.
Proof.
  intros a f xmin xmax bs ns m D BB K BO C NS BS SO EK.
  assert (E : forall c, get_adv_box a xmin xmax (LInt c) None bs ns = adv_eval m (combine (a_rows xmin) (a_rows xmax)) (mk_arr [1%nat] (repeat [c] (alen xmin))) None).
  { intro c. unfold get_adv_box. rewrite (consistent_dec (wm_n m)) by assumption. cbn [bind]. rewrite box_model_ok by exact D. cbn [bind]. fold m. rewrite sub_boxes_one by exact NS. cbn [bind].
    rewrite to_samples_ok by (try exact BO; apply andb_false_r). cbn [bind prepare_labels prepare_opt]. unfold repeat_rows. cbn [Nat.ltb Nat.leb bind].
    destruct (0 <? bs)%Z eqn:EB; [apply Z.ltb_lt in EB; lia|]. destruct (adv_eval m _ _ None); reflexivity. }
  rewrite !E. clear E. unfold adv_eval. rewrite BB. cbv zeta.
  destruct (combine_ne _ _ _ BO) as [Ls Ne]. set (samples := combine (a_rows xmin) (a_rows xmax)) in *.
  assert (FS : forall p, In p samples -> sound_on m f p /\ sample_ok (wm_n m) p).
  { intros p I. split; [|pose proof (samples_ok _ _ _ BO C) as F; rewrite Forall_forall in F; apply F; exact I].
    apply In_nth with (d := ([], [])) in I. destruct I as [b [Hb <-]]. unfold samples. rewrite (the_box_combine (wm_n m)) by exact BO. apply SO. lia. }
  destruct (mapR_ok (fun p => wm_predict m (wm_domain m) (ztensor p) None) samples) as [outs [EO LO]].
  { intros q I. destruct (FS q I) as [(mode & ts & dc & _ & E & _) _]. eauto. }
  rewrite EO. cbn [bind]. destruct (mapR_nth _ _ _ EO) as [_ NO].
  destruct (mapR_ok (unpack_output (wm_ibp m) (wm_affine m)) outs) as [bnd [EB LB]].
  { intros ts I. apply In_nth with (d := []) in I. destruct I as [i [Hi <-]]. rewrite LO in Hi.
    assert (IN : In (nth i samples ([], [])) samples) by (apply nth_In; exact Hi). destruct (FS _ IN) as (A & B).
    destruct (unpack_sound m f _ _ A B (NO i ([], []) [] Hi)) as (b & E & _). eauto. }
  rewrite EB. cbn [bind].
  assert (PE : forall g : bnds -> mat, exists r, penalised (wm_k m) (map g bnd) (mk_arr [1%nat] (repeat [0%Z] (alen xmin))) None = Ok r /\ penalised (wm_k m) (map g bnd) (mk_arr [1%nat] (repeat [1%Z] (alen xmin))) None = Ok r).
  { intro g. rewrite EK. rewrite !penalised_ints by (try assumption; rewrite map_length; lia). eexists. split; [reflexivity|]. f_equal. apply map_ext. intro up. apply block_max_ext; [lia|]. intros t s _ _. change (1 - 1)%Z with 0%Z. change (1 - 0)%Z with 1%Z. ring. }
  assert (M0 : wm_ibp m = true \/ wm_affine m = true).
  { destruct samples as [|q samples']; [contradiction|]. destruct (FS q (or_introl eq_refl)) as [(mode & ts & dc & M & _) _]. unfold wmode in M. destruct (wm_ibp m), (wm_affine m); auto; discriminate. }
  destruct (PE (fun b => ibp_upper (bn_u b) (bn_l b))) as (r1 & A1 & A2).
  destruct (PE (fun b => affine_upper (wm_n m) (bn_x b) (bn_wu b) (bn_bu b) (bn_wl b) (bn_bl b))) as (r2 & A3 & A4).
  destruct (wm_ibp m), (wm_affine m); cbn [bind]; rewrite ?A1, ?A2; cbn [bind]; rewrite ?A3, ?A4; cbn [bind]; try (eexists; split; reflexivity).
  destruct M0; discriminate.
Qed.

(** ** check_adv_box *)


Definition checked (m : wmodel) (q : box * list Z) (v : R) : Prop := forall mode ts, wmode m = Some mode -> wm_predict m (wm_domain m) (ztensor (fst q)) None = Ok ts ->
  has_pair (wm_k m) (row_pair (snd q) None) -> is_check mode (wm_n m) (wm_k m) (row_pair (snd q) None) (fst q) ts v.

Definition check_item (m : wmodel) (f : vec -> vec) (q : box * list Z) : Prop := check_ok m f (fst q) /\ sample_ok (wm_n m) (fst q) /\ row01 (wm_k m) (snd q).

(** the matrix of one sample *)
Definition check_up (m : wmodel) (p : box) : result mat :=
  out <- wm_predict m (wm_domain m) (ztensor p) None ;
  b <- (if wm_affine m then unpack_output (wm_ibp m) true out
        else match out with
             | u :: _ => Ok (mk_bnds (ztensor p) zero_t zero_t u zero_t zero_t (last out zero_t))
             | [] => Err IndexError
             end) ;
  Ok (affine_upper (wm_n m) (bn_x b) (bn_wl b) (bn_bl b) (bn_wu b) (bn_bu b)).

Lemma rsum_zero_w : forall n (g : nat -> R), rsum n (fun i => Rpos (0 - 0) * g i) = 0 /\ rsum n (fun i => Rneg (0 - 0) * g i) = 0.
Proof.
  intros n g. split; apply rsum_eq0; intros i _; unfold Rpos, Rneg; replace (0 - 0) with 0 by ring; [rewrite Rmax_left by lra|rewrite Rmin_left by lra]; ring.
Qed.

Lemma check_up_spec : forall m f p, check_ok m f p -> sample_ok (wm_n m) p -> exists up, check_up m p = Ok up /\
  forall mode ts pairs v, wmode m = Some mode -> wm_predict m (wm_domain m) (ztensor p) None = Ok ts -> pair_max (wm_k m) pairs up v -> is_check mode (wm_n m) (wm_k m) pairs p ts v.
Proof.
  intros m f p (mode & ts & M & E & V & KB) SK. unfold check_up. rewrite E. cbn [bind]. destruct V as [L V]. unfold wmode in *.
  assert (X0 : forall x : tensor, (forall i, (i < wm_n m)%nat -> x 0%nat i = lvec (fst p) i /\ x 1%nat i = lvec (snd p) i) -> forall i, (i < wm_n m)%nat -> x 0%nat i <= x 1%nat i).
  { intros x H i Hi. destruct (H i Hi) as [-> ->]. destruct SK as (_ & _ & SK). apply SK. exact Hi. }
  assert (PB : forall (x : tensor) pairs g v, (forall i, (i < wm_n m)%nat -> x 0%nat i = lvec (fst p) i /\ x 1%nat i = lvec (snd p) i) -> pair_box_max (wm_n m) (wm_k m) x pairs g v -> pair_box_max (wm_n m) (wm_k m) (ztensor p) pairs g v).
  { intros x pairs g v H [A (t & s & z & T & S & P & Z & Ez)].
    assert (Q : forall y, in_box (wm_n m) (ztensor p 0%nat) (ztensor p 1%nat) y <-> in_box (wm_n m) (x 0%nat) (x 1%nat) y).
    { intro y. unfold in_box. split; intros I i Hi; specialize (I i Hi); destruct (H i Hi) as [H0 H1]; unfold ztensor in *; cbn [Nat.eqb] in *; unfold lvec in *; [rewrite H0, H1; exact I|rewrite H0, H1 in I; exact I]. }
    split; [intros t' s' z' T' S' P' Z'; apply A; try assumption; apply Q; exact Z'|]. exists t, s, z. split; [exact T|]. split; [exact S|]. split; [exact P|]. split; [apply Q; exact Z|exact Ez]. }
  destruct (wm_ibp m), (wm_affine m); inversion M; subst mode; clear M; cbn [keeps_box] in KB.
  - destruct ts as [|x [|u [|wu [|bu [|l [|wl [|bl ts]]]]]]]; try contradiction. cbn [unpack_output bind bn_x bn_wl bn_bl bn_wu bn_bu]. eexists. split; [reflexivity|].
    intros mode ts' pairs v M E' P. inversion M; subst mode. injection E' as <-. cbn [is_check]. apply (PB x); [exact KB|]. apply pair_box_of; [apply X0; exact KB|exact P].
  - destruct ts as [|u [|l [|g ts]]]; try contradiction; [|cbn in L; lia]. cbn [bind bn_x bn_wl bn_bl bn_wu bn_bu last]. eexists. split; [reflexivity|].
    intros mode ts' pairs v M E' P. inversion M; subst mode. injection E' as <-. cbn [is_check].
    assert (EQ : forall t s, affine_upper (wm_n m) (ztensor p) zero_t l zero_t u t s = l 0%nat t - u 0%nat s).
    { intros t s. unfold affine_upper, zero_t. destruct (rsum_zero_w (wm_n m) (fun i => ztensor p 1%nat i)) as [A _]. destruct (rsum_zero_w (wm_n m) (fun i => ztensor p 0%nat i)) as [_ B]. rewrite A, B. ring. }
    destruct P as [A (t & s & T & S & P & Ev)]. split; [intros t' s' T' S' P'; rewrite <- EQ; apply A; assumption|]. exists t, s. rewrite <- EQ. auto.
  - destruct ts as [|x [|wu [|bu [|wl [|bl ts]]]]]; try contradiction. cbn [unpack_output bind bn_x bn_wl bn_bl bn_wu bn_bu]. eexists. split; [reflexivity|].
    intros mode ts' pairs v M E' P. inversion M; subst mode. injection E' as <-. cbn [is_check]. apply (PB x); [exact KB|]. apply pair_box_of; [apply X0; exact KB|exact P].
Qed.

Lemma check_eval_spec : forall m f (items : list (box * list Z)) t1, (0 < wm_k m)%nat -> Forall (check_item m f) items ->
  exists r, check_eval m (map fst items) (mk_arr t1 (map snd items)) = Ok r /\ Forall2 (checked m) items r.
Proof.
  intros m f items t1 K F.
  change (check_eval m (map fst items) (mk_arr t1 (map snd items))) with (ups <- mapR (check_up m) (map fst items) ; penalised (wm_k m) ups (mk_arr t1 (map snd items)) None).
  rewrite mapR_map. rewrite Forall_forall in F.
  destruct (mapR_Forall2 (fun q : box * list Z => check_up m (fst q))
    (fun q up => forall mode ts pairs v, wmode m = Some mode -> wm_predict m (wm_domain m) (ztensor (fst q)) None = Ok ts -> pair_max (wm_k m) pairs up v -> is_check mode (wm_n m) (wm_k m) pairs (fst q) ts v) (fun q => q) items) as (ups & E & P).
  { intros q I. destruct (F q I) as (A & B & _). destruct (check_up_spec m f (fst q) A B) as (up & E & P). exists up. split; [exact E|exact P]. }
  rewrite map_id in P.
  rewrite E. cbn [bind].
  pose proof (Forall2_len _ _ _ P) as LP.
  destruct (penalised_spec (wm_k m) ups (mk_arr t1 (map snd items)) None K) as (r & ER & PR).
  { unfold alen; cbn [a_rows]. rewrite map_length. lia. }
  { cbn [a_rows]. apply Forall_forall. intros x I. apply in_map_iff in I. destruct I as [q [<- I]]. apply (F q I). }
  { exact I. }
  exists r. split; [exact ER|]. cbn [rows_opt a_rows] in PR. unfold alen in PR. cbn [a_rows] in PR. rewrite map_length in PR.
  clear -P PR. revert r PR. induction P as [|q up items ups H P IH]; intros r PR; cbn in PR; inversion PR; subst; constructor.
  - intros mode ts M E HP. apply (H mode ts _ _ M E). cbn [fst snd] in *. auto.
  - apply IH. assumption.
Qed.

Section CheckBatches.
Variable m : wmodel.
Variable f : vec -> vec.
Hypothesis D : is_box (wm_domain m) = true.
Hypothesis BB : wm_bb m = false.
Hypothesis K : (0 < wm_k m)%nat.
Hypothesis N : (0 < wm_n m)%nat.

Lemma check_call_spec : forall (items : list (box * list Z)) t1, items <> [] -> Forall (check_item m f) items ->
  exists r, check_call m (map fst items) (mk_arr t1 (map snd items)) None = Ok r /\ Forall2 (checked m) items r.
Proof.
  intros items t1 NE F. unfold check_call.
  assert (FS : Forall (sample_ok (wm_n m)) (map fst items)).
  { apply Forall_forall. intros p I. apply in_map_iff in I. destruct I as [q [<- I]]. rewrite Forall_forall in F. apply (F q I). }
  assert (NE' : map fst items <> []) by (destruct items; [contradiction|discriminate]).
  destruct (samples_boxes_ok (wm_n m) [1%nat; wm_n m] (map fst items) N NE' FS) as [BO C].
  rewrite (consistent_dec (wm_n m)) by assumption. cbn [bind]. unfold box_model. rewrite D. cbn [bind].
  rewrite to_samples_ok by (try assumption; rewrite BB; reflexivity). cbn [bind a_rows]. rewrite combine_map_fst_snd.
  assert (LL : alen (mk_arr [1%nat; wm_n m] (map fst (map fst items))) = length items) by (unfold alen; cbn; rewrite !map_length; reflexivity).
  assert (P0 : (0 < length items)%nat) by (destruct items; [contradiction|cbn; lia]).
  rewrite LL.
  assert (S1 : alen (mk_arr t1 (map snd items)) = length items) by (unfold alen; cbn; apply map_length).
  assert (PS : prepare_labels (LArr (mk_arr t1 (map snd items))) (length items) = Ok (mk_arr [wm_k m] (map snd items))).
  { cbn [prepare_labels]. rewrite <- S1. rewrite (reshape_first_same _ (wm_k m)); [reflexivity|rewrite S1; exact P0|].
    unfold rows_of. cbn [a_rows]. apply Forall_forall. intros r I. apply in_map_iff in I. destruct I as [q [<- I]]. rewrite Forall_forall in F. apply (F q I). }
  rewrite PS. cbn [bind option_map prepare_opt]. apply (check_eval_spec m f); assumption.
Qed.

Lemma check_batch_spec : forall a xmin xmax src bs, the_model a = m -> boxes_ok (wm_n m) xmin xmax -> consistent (wm_n m) xmin xmax -> mask_ok (alen xmin) (wm_k m) src ->
  (forall b, (b < alen xmin)%nat -> check_ok m f (the_box xmin xmax b)) ->
  exists r, check_adv_box a xmin xmax (LArr src) None bs = Ok r /\ length r = alen xmin /\
    forall b, (b < alen xmin)%nat -> checked m (the_box xmin xmax b, nth b (a_rows src) []) (nth b r 0).
Proof.
  intros a xmin xmax src bs EM BO C MS SO.
  destruct (combine_ne _ _ _ BO) as [Ls Ne]. set (samples := combine (a_rows xmin) (a_rows xmax)) in *.
  assert (LSR : length (a_rows src) = alen xmin) by apply MS.
  destruct (combine_len_eq samples (a_rows src) ltac:(lia)) as [I1 I2]. set (items := combine samples (a_rows src)) in *.
  assert (LI : length items = alen xmin) by (unfold items; rewrite combine_length; lia).
  assert (B0 : (0 < alen xmin)%nat) by apply BO.
  assert (NI : forall b, nth b items (([], []), []) = (the_box xmin xmax b, nth b (a_rows src) [])).
  { intro b. unfold items. rewrite combine_nth by lia. unfold samples. rewrite (the_box_combine (wm_n m)) by exact BO. reflexivity. }
  assert (F : Forall (check_item m f) items).
  { apply Forall_forall. intros q I. apply In_nth with (d := (([], []), [])) in I. destruct I as [b [Hb <-]]. rewrite LI in Hb. rewrite NI. split; [apply SO; exact Hb|]. cbn [fst snd]. split.
    - pose proof (samples_ok _ _ _ BO C) as SK. rewrite Forall_forall in SK. rewrite <- (the_box_combine (wm_n m)) by exact BO. apply SK, nth_In. fold samples. rewrite Ls. exact Hb.
    - pose proof (mask_rows _ _ _ MS) as MR. rewrite Forall_forall in MR. apply MR, nth_In. lia. }
  unfold check_adv_box. rewrite (consistent_dec (wm_n m)) by assumption. cbn [bind]. rewrite box_model_ok by (rewrite EM; exact D). cbn [bind]. rewrite EM.
  rewrite to_samples_ok by (try assumption; rewrite BB; reflexivity). cbn [bind]. fold samples.
  rewrite (prepare_mask (alen xmin) (wm_k m)) by assumption. cbn [bind prepare_opt].
  assert (R : exists r, (if (0 <? bs)%Z then
    let b := Z.to_nat bs in let xs := slices b samples in
    rs <- mapR (fun q => check_call m (fst q) (snd q) None) (combine xs (arr_slices b (mk_arr [wm_k m] (a_rows src)) (length xs))) ;
    match rs with [] => Err ValueError | _ => Ok (concat rs) end
    else check_eval m samples (mk_arr [wm_k m] (a_rows src))) = Ok r /\ Forall2 (checked m) items r).
  { destruct (0 <? bs)%Z eqn:B.
    - apply Z.ltb_lt in B. set (b := Z.to_nat bs). assert (B1 : (0 < b)%nat) by (unfold b; lia). cbv zeta. rewrite slices_length. rewrite Ls. set (c := nslices b (alen xmin)).
      assert (XS : slices b samples = map (fun i => map fst (sl b i items)) (seq 0 c)).
      { unfold slices. rewrite Ls. fold (nslices b (alen xmin)). fold c. apply map_ext. intro i. fold (sl b i samples). rewrite <- sl_map, I1. reflexivity. }
      assert (SS : arr_slices b (mk_arr [wm_k m] (a_rows src)) c = map (fun i => mk_arr [wm_k m] (map snd (sl b i items))) (seq 0 c)).
      { unfold arr_slices. apply map_ext. intro i. cbn [a_rows a_tail]. f_equal. fold (sl b i (a_rows src)). rewrite <- sl_map, I2. reflexivity. }
      rewrite XS, SS, combine_map2, mapR_map. cbn [fst snd].
      destruct (mapR_Forall2 (fun i => check_call m (map fst (sl b i items)) (mk_arr [wm_k m] (map snd (sl b i items))) None) (Forall2 (checked m)) (fun i => sl b i items) (seq 0 c)) as (rs & E & P).
      { intros i I. apply in_seq in I. apply check_call_spec.
        - intro X. pose proof (nslices_lt b (alen xmin) i B1 ltac:(unfold c in I; lia)) as Y.
          assert (Z : length (sl b i items) = 0%nat) by (rewrite X; reflexivity). unfold sl in Z. rewrite firstn_length, skipn_length in Z. lia.
        - apply Forall_forall. intros q J. rewrite Forall_forall in F. apply F. apply (sl_incl _ _ _ _ J). }
      rewrite E. cbn [bind]. pose proof (Forall2_len _ _ _ P) as LP. rewrite map_length, seq_length in LP.
      assert (C0 : (0 < c)%nat) by (pose proof (nslices_bound b (alen xmin) B1); unfold c; nia).
      destruct rs as [|r0 rs]; [cbn in LP; lia|]. eexists. split; [reflexivity|].
      apply Forall2_concat in P. replace (concat (map (fun i => sl b i items) (seq 0 c))) with items in P; [exact P|].
      symmetry. apply slices_seq; [exact B1|]. rewrite LI. apply nslices_bound. exact B1.
    - rewrite <- I1, <- I2. apply (check_eval_spec m f); assumption. }
  destruct R as (r & E & P). cbv zeta in E |- *. rewrite E. pose proof (Forall2_len _ _ _ P) as LP. rewrite LI in LP.
  exists r. split; [reflexivity|]. split; [lia|]. intros b Hb. rewrite <- NI. apply Forall2_nth; [exact P|lia].
Qed.
End CheckBatches.

(** C48: the score is the largest lower bound of f_target - f_source: a positive score proves that an adversarial point exists *)
Theorem check_box_score : forall a f xmin xmax src bs, let m := the_model a in
  adv_args a xmin xmax src None -> wm_bb m = false -> (forall b, (b < alen xmin)%nat -> check_ok m f (the_box xmin xmax b)) ->
  exists r, check_adv_box a xmin xmax (LArr src) None bs = Ok r /\ length r = alen xmin /\
    forall b, (b < alen xmin)%nat -> (exists t s, (t < wm_k m)%nat /\ (s < wm_k m)%nat /\ pair_of src None b t s) ->
      (forall mode ts, wmode m = Some mode -> wm_predict m (wm_domain m) (ztensor (the_box xmin xmax b)) None = Ok ts -> is_check mode (wm_n m) (wm_k m) (pair_of src None b) (the_box xmin xmax b) ts (nth b r 0)) /\
      (exists z t s, in_sample (wm_n m) (the_box xmin xmax b) z /\ (t < wm_k m)%nat /\ (s < wm_k m)%nat /\ pair_of src None b t s /\ nth b r 0 <= f z t - f z s).
Proof.
  intros a f xmin xmax src bs m (D & K & BO & C & MS & MT) BB SO. fold m in D, K, BO, C, MS, MT.
  destruct (check_batch_spec m f D BB K ltac:(apply BO) a xmin xmax src bs eq_refl BO C MS SO) as (r & E & L & H).
  exists r. split; [exact E|]. split; [exact L|]. intros b Hb HP.
  assert (HC : forall mode ts, wmode m = Some mode -> wm_predict m (wm_domain m) (ztensor (the_box xmin xmax b)) None = Ok ts -> is_check mode (wm_n m) (wm_k m) (pair_of src None b) (the_box xmin xmax b) ts (nth b r 0)).
  { intros mode ts M P. exact (H b Hb mode ts M P HP). }
  split; [exact HC|].
  destruct (SO b Hb) as (mode & ts & M & P & V & KB). specialize (HC mode ts M P). destruct V as [LT V].
  assert (SK : sample_ok (wm_n m) (the_box xmin xmax b)).
  { pose proof (samples_ok _ _ _ BO C) as SK. rewrite Forall_forall in SK. rewrite <- (the_box_combine (wm_n m)) by exact BO. apply SK, nth_In. destruct (combine_ne _ _ _ BO) as [Ls _]. rewrite Ls. exact Hb. }
  assert (ZZ : forall z, in_box (wm_n m) (ztensor (the_box xmin xmax b) 0%nat) (ztensor (the_box xmin xmax b) 1%nat) z -> in_sample (wm_n m) (the_box xmin xmax b) z) by (intros z Z; exact Z).
  destruct mode; cbn [is_check] in HC.
  - destruct ts as [|u [|l ts]]; try contradiction. destruct HC as [_ (t & s & T & S & PR & Ev)].
    exists (lvec (fst (the_box xmin xmax b))), t, s. pose proof (in_lo _ _ SK) as Z. split; [exact Z|]. split; [exact T|]. split; [exact S|]. split; [exact PR|].
    destruct (V _ t Z T) as [A _]. destruct (V _ s Z S) as [_ B]. unfold vt in *; lra.
  - destruct ts as [|x [|wu [|bu [|wl [|bl ts]]]]]; try contradiction. destruct HC as [_ (t & s & z & T & S & PR & Z & Ev)]. destruct V as (_ & AF).
    apply ZZ in Z. exists z, t, s. split; [exact Z|]. split; [exact T|]. split; [exact S|]. split; [exact PR|].
    destruct (AF z t Z T) as [A _]. destruct (AF z s Z S) as [_ B]. unfold aff in *; lra.
  - destruct ts as [|x [|u [|wu [|bu [|l [|wl [|bl ts]]]]]]]; try contradiction. destruct HC as [_ (t & s & z & T & S & PR & Z & Ev)]. destruct V as (_ & _ & AF).
    apply ZZ in Z. exists z, t, s. split; [exact Z|]. split; [exact T|]. split; [exact S|]. split; [exact PR|].
    destruct (AF z t Z T) as [A _]. destruct (AF z s Z S) as [_ B]. unfold aff in *; lra.
Qed.

Theorem check_box_reject : forall a xmin xmax source target bs n, boxes_ok n xmin xmax -> ~ consistent n xmin xmax -> check_adv_box a xmin xmax source target bs = Err UserWarning.
Proof.
  intros a xmin xmax source target bs n BO NC. unfold check_adv_box. destruct (check_box_cases n xmin xmax BO) as [[C _]|[_ E]]; [contradiction|]. rewrite E. reflexivity.
Qed.

(** the targets are not used *)
Theorem check_box_target : forall a xmin xmax source t bs, (bs <= 0)%Z -> (exists c, reshape_first t (alen xmin) = Ok c) ->
  check_adv_box a xmin xmax source (Some (LArr t)) bs = check_adv_box a xmin xmax source None bs.
Proof.
  intros a xmin xmax source t bs BS [c E]. unfold check_adv_box. cbn [prepare_opt prepare_labels]. rewrite E. cbn [bind].
  destruct (check_box xmin xmax); cbn [bind]; [|reflexivity]. destruct (box_model a); cbn [bind]; [|reflexivity]. destruct (to_samples _ _ _ _); cbn [bind]; [|reflexivity].
  destruct (prepare_labels source (alen xmin)); cbn [bind]; [|reflexivity]. destruct (0 <? bs)%Z eqn:B; [apply Z.ltb_lt in B; lia|reflexivity].
Qed.
