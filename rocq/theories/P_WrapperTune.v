(** Batch sizes of get_range_box (C49), wrapper_with_tuning.py (C54). *)
From Coq Require Import Reals Lra Lia List Arith Bool ZArith.
From Verif Require Import RLib Spec M_Core M_State M_Wrapper Spec_Wrapper P_Core P_Wrapper P_WrapperRefine P_WrapperAdv P_WrapperAdvBox.
Import ListNotations.
Local Open Scope R_scope.

Lemma range_samples : forall m samples bs, (0 < wm_n m)%nat -> is_box (wm_domain m) = true -> wm_bb m = false -> samples <> [] -> Forall (sample_ok (wm_n m)) samples ->
  (if (0 <? bs)%Z then rs <- mapR (range_call m) (slices (Z.to_nat bs) samples) ; u <- np_concat (map fst rs) ; l <- np_concat (map snd rs) ; Ok (u, l) else range_eval m samples) = range_eval m samples.
Proof.
  intros m samples bs N D BB NE F. destruct (0 <? bs)%Z eqn:Eb; [|reflexivity]. apply Z.ltb_lt in Eb. apply range_batch; try assumption. lia.
Qed.

(** C49: the result does not depend on batch_size *)
Theorem range_box_batch : forall a xmin xmax bs ns, let m := the_model a in
  is_box (wm_domain m) = true -> wm_bb m = false -> boxes_ok (wm_n m) xmin xmax -> consistent (wm_n m) xmin xmax -> (ns <= 1)%Z \/ a_tail xmin = [wm_n m] ->
  get_range_box a xmin xmax bs ns = get_range_box a xmin xmax (-1) ns.
Proof.
  intros a xmin xmax bs ns m D BB BO C H. unfold get_range_box. rewrite (consistent_dec (wm_n m)) by assumption. cbn [bind]. rewrite box_model_ok by exact D. cbn [bind]. fold m.
  destruct (Z_le_gt_dec ns 1) as [NS|NS].
  - rewrite sub_boxes_one by exact NS. cbn [bind]. rewrite to_samples_ok by (try assumption; rewrite BB; reflexivity). cbn [bind].
    destruct (combine_ne _ _ _ BO) as [Ls Ne]. pose proof (range_samples m (combine (a_rows xmin) (a_rows xmax)) bs ltac:(apply BO) D BB Ne (samples_ok _ _ _ BO C)) as RS.
    cbn [bind] in RS |- *. rewrite RS. cbn [Z.ltb Z.compare]. reflexivity.
  - destruct H as [H|T]; [lia|]. destruct (sub_boxes_eq (wm_n m) xmin xmax ns BO C T ltac:(lia)) as (q & Q & E). rewrite E. cbn [bind].
    destruct (refined_all (wm_n m) q xmin xmax BO C) as (F1 & F2 & LR). set (s := concat (refined q xmin xmax)) in *.
    assert (Ls : length s = (alen xmin * 2 ^ q)%nat) by (unfold s; rewrite (concat_len (2 ^ q)) by exact F1; rewrite LR; reflexivity).
    assert (B0 : (0 < alen xmin)%nat) by apply BO. pose proof (Nat.pow_nonzero 2 q ltac:(lia)) as P2.
    assert (Ns : s <> []) by (intro X; rewrite X in Ls; cbn in Ls; nia).
    destruct (samples_boxes_ok (wm_n m) [wm_n m] s ltac:(apply BO) Ns F2) as [BO' C'].
    rewrite to_samples_ok by (try assumption; rewrite BB; reflexivity). cbn [bind a_rows]. rewrite combine_map_fst_snd.
    pose proof (range_samples m s bs ltac:(apply BO) D BB Ns F2) as RS. cbn [bind] in RS |- *. rewrite RS. cbn [Z.ltb Z.compare]. reflexivity.
Qed.

(** a model with back bounds is refused *)
Theorem range_box_back : forall a xmin xmax bs ns, let m := the_model a in
  is_box (wm_domain m) = true -> wm_bb m = true -> boxes_ok (wm_n m) xmin xmax -> consistent (wm_n m) xmin xmax -> (ns <= 1)%Z -> get_range_box a xmin xmax bs ns = Err TypeError.
Proof.
  intros a xmin xmax bs ns m D BB BO C NS. unfold get_range_box. rewrite (consistent_dec (wm_n m)) by assumption. cbn [bind]. rewrite box_model_ok by exact D. cbn [bind]. fold m.
  rewrite sub_boxes_one by exact NS. cbn [bind]. unfold to_samples. rewrite BB. reflexivity.
Qed.

(** ** Tuning *)

Definition val (lower : bool) (m : wmodel) (p : box) : list R := match range_sample m p with Ok (u, l) => if lower then l else u | Err _ => [] end.
Definition getter (lower : bool) := if lower then api_lower_box else api_upper_box.

Lemma getter_eq : forall lower m f xmin xmax bs ns, is_box (wm_domain m) = true -> wm_bb m = false -> boxes_ok (wm_n m) xmin xmax -> consistent (wm_n m) xmin xmax -> (ns <= 1)%Z ->
  (forall b, (b < alen xmin)%nat -> sound_on m f (the_box xmin xmax b)) ->
  getter lower (Decomon m) xmin xmax bs ns = Ok (mk_arr (wm_out m) (map (val lower m) (combine (a_rows xmin) (a_rows xmax)))).
Proof.
  intros lower m f xmin xmax bs ns D BB BO C NS SO.
  assert (G : get_range_box (Decomon m) xmin xmax bs ns = range_eval m (combine (a_rows xmin) (a_rows xmax))).
  { rewrite (range_box_batch (Decomon m) xmin xmax bs ns D BB BO C (or_introl NS)). unfold get_range_box. rewrite (consistent_dec (wm_n m)) by assumption. cbn [bind]. rewrite box_model_ok by exact D. cbn [bind the_model].
    rewrite sub_boxes_one by exact NS. cbn [bind]. rewrite to_samples_ok by (try assumption; rewrite BB; reflexivity). cbn [bind Z.ltb Z.compare].
    destruct (range_eval m (combine (a_rows xmin) (a_rows xmax))) as [[u l]|]; reflexivity. }
  set (s := combine (a_rows xmin) (a_rows xmax)) in *.
  assert (R : exists r, mapR (range_sample m) s = Ok r /\ map fst r = map (val false m) s /\ map snd r = map (val true m) s).
  { destruct (combine_ne _ _ _ BO) as [Ls _]. fold s in Ls.
    destruct (mapR_ok (range_sample m) s) as [r [E L]].
    { intros p I. apply In_nth with (d := ([], [])) in I. destruct I as [b [Hb <-]]. unfold s. rewrite (the_box_combine (wm_n m)) by exact BO. rewrite Ls in Hb. destruct (range_sample_sound m f _ (SO b Hb)) as (u & l & E & _). eauto. }
    exists r. split; [exact E|]. clear -E. revert r E. induction s as [|p s IH]; intros r E; cbn [mapR] in E.
    - injection E as <-. split; reflexivity.
    - destruct (range_sample m p) as [[u l]|] eqn:EP; [|discriminate]. cbn [bind] in E. destruct (mapR (range_sample m) s) as [r'|]; [|discriminate]. cbn [bind] in E. injection E as <-.
      destruct (IH r' eq_refl) as [A B]. cbn [map fst snd]. unfold val at 1 3. rewrite EP. split; f_equal; assumption. }
  destruct R as (r & E & A & B). unfold getter. destruct lower; [unfold api_lower_box|unfold api_upper_box]; rewrite G; unfold range_eval; rewrite E; cbn [bind fst snd]; [rewrite B|rewrite A]; reflexivity.
Qed.


(** a row of the result: the minimum of the initial bounds and of tuned ones *)
Definition tuned {P} (T : tuner P) (lower : bool) (m0 : wmodel) (p : box) (row : list R) : Prop := exists q, row = min_rows (val lower m0 p) (val lower (tu_ev T q) p).

Section Tune.
Context {P : Type}.
Variables (T : tuner P) (p0 : P) (f : vec -> vec) (lower : bool).
Let m0 := tu_ev T p0.
Hypothesis EV : forall q, let m := tu_ev T q in is_box (wm_domain m) = true /\ wm_bb m = false /\ wm_n m = wm_n m0 /\ wm_out m = wm_out m0.
Hypothesis RESET : forall q, tu_ev T (tu_reset T q) = m0.
Hypothesis N : (0 < wm_n m0)%nat.

Definition sample_sound (s : box) : Prop := sample_ok (wm_n m0) s /\ forall q, sound_on (tu_ev T q) f s.

Lemma getter_samples : forall q t (s : list box) bs ns, s <> [] -> Forall sample_sound s -> (ns <= 1)%Z ->
  getter lower (Decomon (tu_ev T q)) (mk_arr t (map fst s)) (mk_arr t (map snd s)) bs ns = Ok (mk_arr (wm_out m0) (map (val lower (tu_ev T q)) s)).
Proof.
  intros q t s bs ns NE F NS. destruct (EV q) as (D & BB & NN & OO). rewrite Forall_forall in F.
  destruct (samples_boxes_ok (wm_n (tu_ev T q)) t s) as [BO C]; [rewrite NN; exact N|exact NE|apply Forall_forall; intros p I; rewrite NN; apply (F p I)|].
  rewrite (getter_eq lower (tu_ev T q) f) by (try assumption; intros b Hb; rewrite <- (the_box_combine (wm_n (tu_ev T q))) by exact BO; cbn [a_rows]; rewrite combine_map_fst_snd; unfold alen in Hb; cbn [a_rows] in Hb; rewrite map_length in Hb; apply F, nth_In; exact Hb).
  rewrite OO. cbn [a_rows]. rewrite combine_map_fst_snd. reflexivity.
Qed.

Lemma np_min_rows : forall t (s : list box) (g h : box -> list R), np_minimum (mk_arr t (map g s)) (mk_arr t (map h s)) = Ok (mk_arr t (map (fun p => min_rows (g p) (h p)) s)).
Proof.
  intros t s g h. unfold np_minimum. cbn [a_tail a_rows]. rewrite nat_list_eqb_refl. unfold alen; cbn [a_rows]. rewrite !map_length, Nat.eqb_refl. cbn [andb]. rewrite combine_map2, map_map. reflexivity.
Qed.

Lemma tune_last_ok : forall q (s : list box) bs ns, s <> [] -> Forall sample_sound s -> (ns <= 1)%Z ->
  exists rows q', tune_last (getter lower) T q (mk_arr (wm_out m0) (map (val lower m0) s)) s bs ns = Ok (mk_arr (wm_out m0) rows, q') /\ Forall2 (tuned T lower m0) s rows /\ tu_ev T q' = m0.
Proof.
  intros q s bs ns NE F NS. unfold tune_last, tune_fit. unfold alen; cbn [a_rows]. rewrite map_length, Nat.eqb_refl. cbn [bind].
  set (q' := tu_fit T q s (mk_arr (wm_out m0) (map (val lower m0) s))).
  rewrite getter_samples by assumption. cbn [bind]. rewrite np_min_rows. cbn [bind]. eexists _, _. split; [reflexivity|]. split; [|apply RESET].
  clearbody q'. clear. induction s as [|x s IH]; cbn [map]; [constructor|]. constructor; [exists q'; reflexivity|exact IH].
Qed.

Lemma tune_call_ok : forall q (s : list box), tu_ev T q = m0 -> s <> [] -> Forall sample_sound s ->
  exists rows q', tune_call (getter lower) T q s = Ok (mk_arr (wm_out m0) rows, q') /\ Forall2 (tuned T lower m0) s rows /\ tu_ev T q' = m0.
Proof.
  intros q s E NE F. unfold tune_call. rewrite E. destruct (EV p0) as (D & BB & _). fold m0 in D, BB.
  destruct (samples_boxes_ok (wm_n m0) [1%nat; wm_n m0] s) as [BO C]; [exact N|exact NE|rewrite Forall_forall in *; intros p I; apply (F p I)|].
  rewrite (consistent_dec (wm_n m0)) by assumption. cbn [bind]. rewrite <- E. rewrite getter_samples by (try assumption; lia). cbn [bind]. rewrite E.
  rewrite to_samples_ok by (try assumption; rewrite BB; reflexivity). cbn [bind a_rows]. rewrite combine_map_fst_snd. apply tune_last_ok; try assumption. lia.
Qed.

Lemma tune_calls_ok : forall (ss : list (list box)) q, tu_ev T q = m0 -> Forall (fun s => s <> [] /\ Forall sample_sound s) ss ->
  exists rs q', tune_calls (getter lower) T q ss = Ok (rs, q') /\ Forall (fun r => a_tail r = wm_out m0) rs /\ length rs = length ss /\ Forall2 (tuned T lower m0) (concat ss) (concat (map (@a_rows R) rs)) /\ tu_ev T q' = m0.
Proof.
  intros ss. induction ss as [|s ss IH]; intros q E F; cbn [tune_calls].
  - exists [], q. repeat split; auto. constructor.
  - inversion F as [|? ? [NE FS] F']; subst. destruct (tune_call_ok q s E NE FS) as (rows & q1 & E1 & R1 & V1). rewrite E1. cbn [bind snd fst].
    destruct (IH q1 V1 F') as (rs & q' & E2 & T2 & L2 & R2 & V2). rewrite E2. cbn [bind fst snd]. eexists _, _. split; [reflexivity|].
    split; [constructor; [reflexivity|exact T2]|]. split; [cbn; rewrite L2; reflexivity|]. split; [|exact V2]. cbn [concat map a_rows]. apply Forall2_app; assumption.
Qed.

(** slices: batches of sub-boxes too *)
Lemma tune_split : forall q (s : list box) b, tu_ev T q = m0 -> (0 < b)%nat -> s <> [] -> Forall sample_sound s ->
  exists rs rows q', tune_calls (getter lower) T q (slices b s) = Ok (rs, q') /\ np_concat rs = Ok (mk_arr (wm_out m0) rows) /\ Forall2 (tuned T lower m0) s rows /\ tu_ev T q' = m0.
Proof.
  intros q s b E B NE F. destruct (tune_calls_ok (slices b s) q E) as (rs & q' & ER & TR & LR & RR & VR).
  { apply Forall_forall. intros x I. split; [eapply slices_nonempty; eassumption|]. rewrite Forall_forall in *. intros y J. apply F. eapply slices_in; eassumption. }
  exists rs, (concat (map (@a_rows R) rs)), q'. split; [exact ER|]. split; [|split; [|exact VR]].
  - apply np_concat_same; [|exact TR]. intro X. rewrite X in LR. pose proof (slices_ne b s B NE). destruct (slices b s); [contradiction|discriminate].
  - rewrite slices_concat in RR by exact B. exact RR.
Qed.

End Tune.

Lemma samples_sound : forall {P} (T : tuner P) p f xmin xmax, tuner_ok T p f xmin xmax -> boxes_ok (wm_n (tu_ev T p)) xmin xmax -> consistent (wm_n (tu_ev T p)) xmin xmax ->
  Forall (sample_sound T p f) (combine (a_rows xmin) (a_rows xmax)).
Proof.
  intros P T p f xmin xmax [EV _] BO C. apply Forall_forall. intros x I. split; [pose proof (samples_ok _ _ _ BO C) as SK; rewrite Forall_forall in SK; apply SK; exact I|].
  destruct (combine_ne _ _ _ BO) as [Ls _]. apply In_nth with (d := ([], [])) in I. destruct I as [b [Hb <-]]. rewrite Ls in Hb. intro q. rewrite (the_box_combine (wm_n (tu_ev T p))) by exact BO. apply (EV q). exists b; split; [exact Hb|reflexivity].
Qed.

Lemma tuning_rows : forall {P} (T : tuner P) p f lower xmin xmax bs ns, let m := tu_ev T p in
  tuner_ok T p f xmin xmax -> boxes_ok (wm_n m) xmin xmax -> consistent (wm_n m) xmin xmax -> (ns <= 1)%Z ->
  exists rows p', box_tuning lower T p xmin xmax bs ns = Ok (mk_arr (wm_out m) rows, p') /\ Forall2 (tuned T lower m) (combine (a_rows xmin) (a_rows xmax)) rows /\ tu_ev T p' = m.
Proof.
  intros P T p f lower xmin xmax bs ns m TO BO C NS. pose proof (samples_sound T p f xmin xmax TO BO C) as SS. destruct TO as [EV RS]. destruct (EV p) as (D & BB & _ & _ & SO'). fold m in D, BB, SO'. assert (SO : forall b, (b < alen xmin)%nat -> sound_on m f (the_box xmin xmax b)) by (intros b Hb; apply SO'; exists b; split; [exact Hb|reflexivity]).
  assert (EV' : forall q, let m := tu_ev T q in is_box (wm_domain m) = true /\ wm_bb m = false /\ wm_n m = wm_n (tu_ev T p) /\ wm_out m = wm_out (tu_ev T p)) by (intro q; destruct (EV q) as (? & ? & ? & ? & ?); auto).
  destruct (combine_ne _ _ _ BO) as [Ls Ne].
  unfold box_tuning. rewrite (consistent_dec (wm_n m)) by assumption. cbn [bind]. fold (getter lower). fold m.
  rewrite (getter_eq lower m f) by assumption. cbn [bind]. rewrite sub_boxes_one by exact NS. cbn [bind]. rewrite to_samples_ok by (try assumption; rewrite BB; reflexivity). cbn [bind].
  set (s := combine (a_rows xmin) (a_rows xmax)) in *.
  destruct (if lower then _ else _) eqn:SP.
  - assert (B0 : (0 < Z.to_nat bs)%nat).
    { destruct lower; [apply andb_prop in SP; destruct SP as [SP _]; apply Z.ltb_lt in SP; lia|apply Z.ltb_lt in SP; lia]. }
    destruct (tune_split T p f lower EV' RS ltac:(apply BO) p s (Z.to_nat bs) eq_refl B0 Ne SS) as (rs & rows & q' & E1 & E2 & R & V). rewrite E1. cbn [bind fst snd]. rewrite E2. cbn [bind].
    eexists _, _. split; [reflexivity|]. split; [exact R|]. destruct lower; [apply RS|exact V].
  - destruct (tune_last_ok T p f lower EV' RS ltac:(apply BO) p s bs ns Ne SS NS) as (rows & q' & E & R & V). fold m in E. rewrite E. eexists _, _. split; [reflexivity|]. split; [exact R|exact V].
Qed.

Lemma min_rows_nth : forall a b j, (j < length a)%nat -> length a = length b -> nth j (min_rows a b) 0 = Rmin (nth j a 0) (nth j b 0).
Proof.
  intros a b j J L. unfold min_rows. rewrite (nth_indep _ 0 ((fun p => Rmin (fst p) (snd p)) (0, 0))) by (rewrite map_length, combine_length; lia).
  rewrite (map_nth (fun p : R * R => Rmin (fst p) (snd p))), combine_nth by exact L. reflexivity.
Qed.

Lemma val_sound : forall lower m f p, sound_on m f p -> length (val lower m p) = wm_k m /\ forall z j, in_sample (wm_n m) p z -> (j < wm_k m)%nat -> if lower then nth j (val lower m p) 0 <= f z j else f z j <= nth j (val lower m p) 0.
Proof.
  intros lower m f p S. destruct (range_sample_sound m f p S) as (u & l & E & LU & LL & H). unfold val. rewrite E. split; [destruct lower; assumption|]. intros z j Z J. specialize (H z j Z J). destruct lower; lra.
Qed.

Section TuningThm.
Context {P : Type}.
Variables (T : tuner P) (p : P) (f : vec -> vec) (xmin xmax : arr R) (bs ns : Z).
Let m := tu_ev T p.
Hypothesis TO : tuner_ok T p f xmin xmax.
Hypothesis BO : boxes_ok (wm_n m) xmin xmax.
Hypothesis C : consistent (wm_n m) xmin xmax.
Hypothesis NS : (ns <= 1)%Z.

Lemma tuning_gen : forall lower, exists r p' r0, box_tuning lower T p xmin xmax bs ns = Ok (r, p') /\ getter lower (Decomon m) xmin xmax bs ns = Ok r0 /\ tu_ev T p' = m /\
  a_tail r = wm_out m /\ alen r = alen xmin /\
  forall b j, (b < alen xmin)%nat -> (j < wm_k m)%nat -> cell r b j <= cell r0 b j /\
    forall z, in_sample (wm_n m) (the_box xmin xmax b) z -> if lower then cell r b j <= f z j else f z j <= cell r b j.
Proof.
  intro lower. destruct (tuning_rows T p f lower xmin xmax bs ns TO BO C NS) as (rows & p' & E & R & V). fold m in E, R, V. destruct TO as [EV RS]. destruct (EV p) as (D & BB & _ & _ & SO'). fold m in D, BB, SO'. assert (SO : forall b, (b < alen xmin)%nat -> sound_on m f (the_box xmin xmax b)) by (intros b Hb; apply SO'; exists b; split; [exact Hb|reflexivity]).
  exists (mk_arr (wm_out m) rows), p', (mk_arr (wm_out m) (map (val lower m) (combine (a_rows xmin) (a_rows xmax)))).
  split; [exact E|]. split; [apply (getter_eq lower m f); assumption|]. split; [exact V|]. split; [reflexivity|].
  destruct (combine_ne _ _ _ BO) as [Ls Ne]. pose proof (Forall2_len _ _ _ R) as LR. split; [unfold alen; cbn [a_rows]; unfold alen in Ls; lia|].
  intros b j Hb Hj. pose proof (Forall2_nth _ _ _ b ([], []) [] R ltac:(lia)) as [q Eq]. unfold cell; cbn [a_rows]. rewrite Eq.
  rewrite (nth_indep _ [] (val lower m ([], []))) by (rewrite map_length; lia). rewrite (map_nth (val lower m)). rewrite (the_box_combine (wm_n m)) by exact BO.
  destruct (val_sound lower m f _ (SO b Hb)) as [L0 V0]. destruct (EV q) as (_ & _ & NN & OO & SQ). destruct (val_sound lower (tu_ev T q) f _ (SQ _ (ex_intro _ b (conj Hb eq_refl)))) as [L1 V1].
  assert (KK : wm_k (tu_ev T q) = wm_k m) by (unfold wm_k; rewrite OO; reflexivity). rewrite KK in L1, V1. fold m in NN. rewrite NN in V1.
  rewrite min_rows_nth by lia. split; [apply Rmin_l|]. intros z Z. specialize (V0 z j Z Hj). specialize (V1 z j Z Hj). destruct lower; [eapply Rle_trans; [apply Rmin_l|exact V0]|apply Rmin_glb; assumption].
Qed.

(** upper bounds: valid, never above the initial ones; the initial coefficients are restored *)
Theorem upper_tuning : exists r p' r0, box_tuning false T p xmin xmax bs ns = Ok (r, p') /\ api_upper_box (Decomon m) xmin xmax bs ns = Ok r0 /\ tu_ev T p' = m /\
  a_tail r = wm_out m /\ alen r = alen xmin /\
  forall b j, (b < alen xmin)%nat -> (j < wm_k m)%nat -> cell r b j <= cell r0 b j /\ forall z, in_sample (wm_n m) (the_box xmin xmax b) z -> f z j <= cell r b j.
Proof. exact (tuning_gen false). Qed.

(** lower bounds: valid, but never above the initial ones *)
Theorem lower_tuning : exists r p' r0, box_tuning true T p xmin xmax bs ns = Ok (r, p') /\ api_lower_box (Decomon m) xmin xmax bs ns = Ok r0 /\ tu_ev T p' = m /\
  a_tail r = wm_out m /\ alen r = alen xmin /\
  forall b j, (b < alen xmin)%nat -> (j < wm_k m)%nat -> cell r b j <= cell r0 b j /\ forall z, in_sample (wm_n m) (the_box xmin xmax b) z -> cell r b j <= f z j.
Proof. exact (tuning_gen true). Qed.

End TuningThm.

(** ** Sub-boxes: the bounds to improve have one row for each sample, the training data one for each sub-box *)

Lemma reduce_split_len : forall red s (u : arr R) c, (1 < s)%nat -> length (flatten u) = (c * s)%nat -> exists r, reduce_split red s u = Ok r /\ alen r = c.
Proof.
  intros red s u c S L. unfold reduce_split. destruct (1 <? s)%nat eqn:E; [|apply Nat.ltb_ge in E; lia].
  unfold reshape. cbn [prodn]. rewrite Nat.mul_1_r, L. destruct (s =? 0)%nat eqn:Z; [apply Nat.eqb_eq in Z; lia|]. rewrite Nat.mod_mul, Nat.eqb_refl, Nat.div_mul by lia. cbn [bind a_rows].
  eexists. split; [reflexivity|]. unfold alen; cbn [a_rows]. rewrite map_length, chunks_length. reflexivity.
Qed.

Section TuneSub.
Context {P : Type}.
Variables (T : tuner P) (p : P) (f : vec -> vec) (lower : bool) (xmin xmax : arr R) (bs ns : Z).
Let m := tu_ev T p.
Hypothesis TO : tuner_sub_ok T p f xmin xmax.
Let EV := proj1 TO.
Let RS := proj2 TO.
Hypothesis BO : boxes_ok (wm_n m) xmin xmax.
Hypothesis C : consistent (wm_n m) xmin xmax.
Hypothesis TL : a_tail xmin = [wm_n m].
Hypothesis NS : (1 < ns)%Z.

Lemma tune_sub_head : exists s baseline nb, (2 <= s)%nat /\ alen baseline = (alen xmin * wm_k m)%nat /\ length nb = (alen xmin * s)%nat /\ Forall (sample_sound T p f) nb /\
  sub_boxes xmin xmax ns = Ok (s, mk_arr [wm_n m] (map fst nb), mk_arr [wm_n m] (map snd nb)) /\
  getter lower (Decomon m) xmin xmax bs ns = Ok baseline /\ to_samples m false (mk_arr [wm_n m] (map fst nb)) (mk_arr [wm_n m] (map snd nb)) = Ok nb.
Proof.
  destruct (EV p) as (D & BB & _ & _ & SO). fold m in D, BB, SO.
  destruct (sub_boxes_eq (wm_n m) xmin xmax ns BO C TL NS) as (q & Q & E). destruct (refined_all (wm_n m) q xmin xmax BO C) as (F1 & F2 & LR). set (s := concat (refined q xmin xmax)) in *.
  assert (P2 : (2 <= 2 ^ q)%nat) by (destruct q; [lia|cbn [Nat.pow]; pose proof (Nat.pow_nonzero 2 q ltac:(lia)); lia]).
  assert (Ls : length s = (alen xmin * 2 ^ q)%nat) by (unfold s; rewrite (concat_len (2 ^ q)) by exact F1; rewrite LR; reflexivity).
  assert (B0 : (0 < alen xmin)%nat) by apply BO. assert (Ns : s <> []) by (intro X; rewrite X in Ls; cbn in Ls; nia).
  destruct (samples_boxes_ok (wm_n m) [wm_n m] s ltac:(apply BO) Ns F2) as [BO' C'].
  assert (SUB : forall x, In x s -> exists b, (b < alen xmin)%nat /\ sub_of (wm_n m) x (the_box xmin xmax b)).
  { intros x I. unfold s in I. apply in_concat in I. destruct I as [l [I J]]. apply In_nth with (d := []) in I. destruct I as [b [Hb <-]]. rewrite LR in Hb.
    destruct (refined_covers (wm_n m) q xmin xmax b BO C Hb) as [[S _] _]. rewrite Forall_forall in S. exists b. split; [exact Hb|]. apply S. exact J. }
  assert (SS : forall q', Forall (sound_on (tu_ev T q') f) s).
  { intro q'. apply Forall_forall. intros x I. destruct (SUB x I) as (b & Hb & S). apply (EV q'). exists b; split; assumption. }
  assert (TS : to_samples m false (mk_arr [wm_n m] (map fst s)) (mk_arr [wm_n m] (map snd s)) = Ok s).
  { rewrite to_samples_ok by (try assumption; rewrite BB; reflexivity). cbn [a_rows]. rewrite combine_map_fst_snd. reflexivity. }
  destruct (range_eval_sound m f s (SS p)) as (us & ls & ER & L1 & L2 & X).
  assert (FU : length (flatten (mk_arr (wm_out m) us)) = (alen xmin * wm_k m * 2 ^ q)%nat).
  { unfold flatten; cbn [a_rows]. rewrite (concat_len (wm_k m)); [rewrite L1, Ls; ring|]. apply Forall_forall. intros r I. apply In_nth with (d := []) in I. destruct I as [i [Hi <-]]. apply X. lia. }
  assert (FL : length (flatten (mk_arr (wm_out m) ls)) = (alen xmin * wm_k m * 2 ^ q)%nat).
  { unfold flatten; cbn [a_rows]. rewrite (concat_len (wm_k m)); [rewrite L2, Ls; ring|]. apply Forall_forall. intros r I. apply In_nth with (d := []) in I. destruct I as [i [Hi <-]]. apply X. lia. }
  destruct (reduce_split_len row_max (2 ^ q) _ _ P2 FU) as (ru & EU & LU). destruct (reduce_split_len row_min (2 ^ q) _ _ P2 FL) as (rl & EL & LL).
  assert (G : get_range_box (Decomon m) xmin xmax bs ns = Ok (ru, rl)).
  { rewrite (range_box_batch (Decomon m) xmin xmax bs ns D BB BO C (or_intror TL)). unfold get_range_box. rewrite (consistent_dec (wm_n m)) by assumption. cbn [bind]. rewrite box_model_ok by exact D. cbn [bind the_model].
    rewrite E. cbn [bind]. rewrite TS. cbn [bind Z.ltb Z.compare]. rewrite ER. cbn [bind fst snd]. rewrite EU. cbn [bind]. rewrite EL. reflexivity. }
  exists (2 ^ q)%nat, (if lower then rl else ru), s. split; [exact P2|]. split; [destruct lower; assumption|]. split; [exact Ls|].
  split; [apply Forall_forall; intros x I; split; [rewrite Forall_forall in F2; apply F2; exact I|]; intro q'; specialize (SS q'); rewrite Forall_forall in SS; apply SS; exact I|].
  split; [exact E|]. split; [unfold getter; destruct lower; [unfold api_lower_box|unfold api_upper_box]; rewrite G; reflexivity|exact TS].
Qed.

(** without splitting in batches: fit refuses (unless the number of outputs is the number of sub-boxes) *)
Theorem tuning_sub_refused : (bs <= (if lower then 0 else 1))%Z -> wm_k m = 1%nat -> box_tuning lower T p xmin xmax bs ns = Err ValueError.
Proof.
  intros HB K. destruct tune_sub_head as (s & baseline & nb & S2 & LB & LN & _ & E & G & TS).
  unfold box_tuning. rewrite (consistent_dec (wm_n m)) by assumption. cbn [bind]. fold (getter lower). fold m. rewrite G. cbn [bind]. rewrite E. cbn [bind]. rewrite TS. cbn [bind].
  assert (SP : (if lower then (0 <? bs)%Z && negb (bs =? Z.of_nat (length nb))%Z else (1 <? bs)%Z)%bool = false).
  { destruct lower; [apply andb_false_intro1|]; apply Z.ltb_ge; lia. }
  rewrite SP. unfold tune_last, tune_fit. rewrite LN, LB, K. replace (alen xmin * s =? alen xmin * 1)%nat with false; [reflexivity|]. symmetry. apply Nat.eqb_neq. assert (0 < alen xmin)%nat by apply BO. nia.
Qed.

(** with batches: one row for each sub-box instead of one for each sample *)
Theorem tuning_sub_rows : (1 < bs)%Z -> lower = false -> exists s r p', (2 <= s)%nat /\ box_tuning lower T p xmin xmax bs ns = Ok (r, p') /\ alen r = (alen xmin * s)%nat.
Proof.
  intros HB LO. destruct tune_sub_head as (s & baseline & nb & S2 & LB & LN & SS & E & G & TS).
  assert (EV' : forall q, let m := tu_ev T q in is_box (wm_domain m) = true /\ wm_bb m = false /\ wm_n m = wm_n (tu_ev T p) /\ wm_out m = wm_out (tu_ev T p)) by (intro q; destruct (EV q) as (? & ? & ? & ? & ?); auto).
  assert (B0 : (0 < alen xmin)%nat) by apply BO. assert (NE : nb <> []) by (intro X; rewrite X in LN; cbn in LN; nia).
  destruct (tune_split T p f lower EV' RS ltac:(apply BO) p nb (Z.to_nat bs) eq_refl ltac:(lia) NE SS) as (rs & rows & q' & E1 & E2 & R & V).
  exists s. unfold box_tuning. rewrite (consistent_dec (wm_n m)) by assumption. cbn [bind]. fold (getter lower). fold m. rewrite G. cbn [bind]. rewrite E. cbn [bind]. rewrite TS. cbn [bind].
  assert (SP : (if lower then (0 <? bs)%Z && negb (bs =? Z.of_nat (length nb))%Z else (1 <? bs)%Z)%bool = true) by (rewrite LO; apply Z.ltb_lt; lia).
  rewrite SP, E1. cbn [bind fst snd]. rewrite E2. cbn [bind]. eexists _, _. split; [exact S2|]. split; [reflexivity|]. pose proof (Forall2_len _ _ _ R) as LR. unfold alen at 1; cbn [a_rows]. lia.
Qed.

End TuneSub.
