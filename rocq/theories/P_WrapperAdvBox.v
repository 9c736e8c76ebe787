(** get_adv_box: theorems of C46. *)
From Coq Require Import Reals Lra Lia List Arith Bool ZArith.
From Verif Require Import RLib Spec M_Core M_State M_Wrapper Spec_Wrapper P_Core P_Wrapper P_WrapperRefine P_WrapperAdv.
Import ListNotations.
Local Open Scope R_scope.

Definition d_item : item := (([], []), ([], None)).
Definition row_of (src : arr Z) (tgt : option (arr Z)) (b : nat) : list Z * option (list Z) := (nth b (a_rows src) [], option_map (fun t => nth b (a_rows t) []) tgt).

Lemma row_pair_of : forall src tgt b t s, row_pair (fst (row_of src tgt b)) (snd (row_of src tgt b)) t s <-> pair_of src tgt b t s.
Proof. intros src [a|] b t s; reflexivity. Qed.

Lemma nth_rep : forall {A} (r d : A) s i, (i < s)%nat -> nth i (repeat r s) d = r.
Proof. intros A r d s. induction s as [|s IH]; intros i I; [lia|]. destruct i; cbn; [reflexivity|]. apply IH. lia. Qed.

Lemma repeat_rows_nth : forall (rows : list (list Z)) s b i, (b < length rows)%nat -> (i < s)%nat -> nth (b * s + i) (concat (map (fun r => repeat r s) rows)) [] = nth b rows [].
Proof.
  intros rows s b i B I. rewrite (concat_nth s).
  - rewrite (nth_indep _ [] (repeat [] s)) by (rewrite map_length; exact B). rewrite (map_nth (fun r : list Z => repeat r s)). apply nth_rep. exact I.
  - apply Forall_forall. intros r J. apply in_map_iff in J. destruct J as [r0 [<- _]]. apply repeat_length.
  - rewrite map_length. exact B.
  - exact I.
Qed.

Lemma item_nth : forall samples (src : arr Z) (tgt : option (arr Z)) s b i B k, mask_ok B k src -> mask_opt B k tgt -> length samples = (B * s)%nat -> (b < B)%nat -> (i < s)%nat ->
  nth (b * s + i) (items_of samples (concat (map (fun r => repeat r s) (a_rows src))) (option_map (fun t => concat (map (fun r => repeat r s) (a_rows t))) tgt)) d_item
  = (nth (b * s + i) samples ([], []), row_of src tgt b).
Proof.
  intros samples src tgt s b i B k MS MT L Hb I.
  assert (LR : forall t : arr Z, mask_ok B k t -> length (concat (map (fun r => repeat r s) (a_rows t))) = (B * s)%nat).
  { intros t (Lt & _). rewrite (concat_len s); [rewrite map_length; unfold alen in *; rewrite Lt; reflexivity|].
    apply Forall_forall. intros r J. apply in_map_iff in J. destruct J as [r0 [<- _]]. apply repeat_length. }
  unfold items_of, d_item.
  assert (LT : length (tgt_rows (option_map (fun t => concat (map (fun r => repeat r s) (a_rows t))) tgt) (length (concat (map (fun r => repeat r s) (a_rows src))))) = (B * s)%nat).
  { destruct tgt as [t|]; cbn [option_map tgt_rows]; [rewrite map_length; apply LR; exact MT|rewrite repeat_length; apply LR; exact MS]. }
  rewrite combine_nth by (rewrite combine_length, LT, (LR src MS), L; lia).
  rewrite combine_nth by (rewrite LT, (LR src MS); reflexivity).
  unfold row_of. f_equal. f_equal.
  - apply repeat_rows_nth; [|exact I]. destruct MS as (Lt & _). unfold alen in Lt. lia.
  - destruct tgt as [t|]; cbn [option_map tgt_rows].
    + rewrite (nth_indep _ None (Some [])) by (rewrite map_length, (LR t MT); nia). rewrite map_nth. f_equal. apply repeat_rows_nth; [|exact I]. destruct MT as (Lt & _). unfold alen in Lt. lia.
    + destruct (nth_in_or_default (b * s + i) (repeat (@None (list Z)) (length (concat (map (fun r => repeat r s) (a_rows src))))) None) as [J|J]; [apply repeat_spec in J; exact J|exact J].
Qed.

Lemma row_of_ok : forall src tgt B k b, mask_ok B k src -> mask_opt B k tgt -> (b < B)%nat -> row01 k (fst (row_of src tgt b)) /\ opt01 k (snd (row_of src tgt b)).
Proof.
  intros src tgt B k b MS MT Hb. unfold row_of; cbn [fst snd]. split.
  - pose proof (mask_rows _ _ _ MS) as F. rewrite Forall_forall in F. apply F, nth_In. destruct MS as (L & _). unfold alen in L. lia.
  - destruct tgt as [t|]; cbn [option_map opt01]; [|exact I]. pose proof (mask_rows _ _ _ MT) as F. rewrite Forall_forall in F. apply F, nth_In. destruct MT as (L & _). unfold alen in L. lia.
Qed.

(** all the items satisfy a property of samples and of labels *)
Lemma items_forall : forall (P : item -> Prop) samples src tgt s B k, (0 < s)%nat -> mask_ok B k src -> mask_opt B k tgt -> length samples = (B * s)%nat ->
  (forall b i, (b < B)%nat -> (i < s)%nat -> P (nth (b * s + i) samples ([], []), row_of src tgt b)) ->
  Forall P (items_of samples (concat (map (fun r => repeat r s) (a_rows src))) (option_map (fun t => concat (map (fun r => repeat r s) (a_rows t))) tgt)).
Proof.
  intros P samples src tgt s B k S0 MS MT L H. apply Forall_forall. intros q I. apply In_nth with (d := d_item) in I. destruct I as [j [Hj <-]].
  assert (J : (j < B * s)%nat) by (unfold items_of in Hj; rewrite combine_length, L in Hj; lia).
  assert (E : j = (j / s * s + j mod s)%nat) by (rewrite Nat.mul_comm; apply Nat.div_mod; lia).
  assert (J1 : (j / s < B)%nat) by (apply Nat.div_lt_upper_bound; lia).
  assert (J2 : (j mod s < s)%nat) by (apply Nat.mod_upper_bound; lia).
  rewrite E, (item_nth samples src tgt s (j / s) (j mod s) B k) by assumption. apply H; assumption.
Qed.


Lemma adv_box_one : forall a f xmin xmax src tgt bs ns, let m := the_model a in
  adv_args a xmin xmax src tgt -> wm_bb m = false -> small ns -> (forall b, (b < alen xmin)%nat -> sound_on m f (the_box xmin xmax b)) ->
  exists r, get_adv_box a xmin xmax (LArr src) (option_map LArr tgt) bs ns = Ok r /\ length r = alen xmin /\
    forall b, (b < alen xmin)%nat -> scored m (the_box xmin xmax b, row_of src tgt b) (nth b r 0).
Proof.
  intros a f xmin xmax src tgt bs ns m (D & K & BO & C & MS & MT) BB NS SO. fold m in D, K, BO, C, MS, MT.
  destruct (combine_ne _ _ _ BO) as [Ls _].
  assert (N0 : (0 < wm_n m)%nat) by apply BO.
  pose proof (samples_ok _ _ _ BO C) as SK. rewrite Forall_forall in SK.
  assert (IT : Forall (item_ok m f) (items_of (combine (a_rows xmin) (a_rows xmax)) (concat (map (fun r => repeat r 1) (a_rows src))) (option_map (fun t => concat (map (fun r => repeat r 1) (a_rows t))) tgt))).
  { apply (items_forall _ _ _ _ 1 (alen xmin) (wm_k m)); try assumption; [lia|lia|]. intros b i Hb Hi. assert (i = 0)%nat by lia. subst i. rewrite Nat.mul_1_r, Nat.add_0_r.
    rewrite (the_box_combine (wm_n m)) by exact BO. unfold item_ok. cbn [fst snd]. split; [apply SO; exact Hb|]. split; [|apply (row_of_ok src tgt (alen xmin)); assumption].
    rewrite <- (the_box_combine (wm_n m)) by exact BO. apply SK, nth_In. rewrite Ls. exact Hb. }
  destruct (adv_box_gen m (item_ok m f) (scored m) D K N0 ltac:(intros q (_ & A & B & X); auto)
     ltac:(intros items t1 t2 t NE F T; apply (adv_eval_spec m f); assumption)
     a xmin xmax src tgt bs 1 (combine (a_rows xmin) (a_rows xmax)) eq_refl BO C MS MT ns xmin xmax) as (r & P & E).
  { apply sub_boxes_one. exact NS. }
  { lia. }
  { apply to_samples_ok; [apply andb_false_r|exact BO]. }
  { rewrite Ls. lia. }
  { exact IT. }
  pose proof (Forall2_len _ _ _ P) as LP.
  destruct (items_maps (combine (a_rows xmin) (a_rows xmax)) (concat (map (fun r => repeat r 1) (a_rows src))) (option_map (fun t => concat (map (fun r => repeat r 1) (a_rows t))) tgt)) as (_ & _ & _ & I4).
  { rewrite Ls, (concat_len 1); [rewrite map_length; destruct MS as (L & _); unfold alen in *; lia|]. apply Forall_forall. intros q I. apply in_map_iff in I. destruct I as [q0 [<- _]]. reflexivity. }
  { destruct tgt as [t|]; cbn [option_map]; [|exact I]. rewrite !(concat_len 1); [|apply Forall_forall; intros q I; apply in_map_iff in I; destruct I as [q0 [<- _]]; reflexivity..].
    rewrite !map_length. destruct MS as (L & _), MT as (L' & _). unfold alen in *; lia. }
  rewrite I4, Ls in LP.
  exists r. split; [exact E|]. split; [lia|]. intros b Hb.
  pose proof (Forall2_nth _ _ _ (b * 1 + 0) d_item 0 P ltac:(rewrite I4, Ls; lia)) as Q.
  rewrite (item_nth _ src tgt 1 b 0 (alen xmin) (wm_k m)) in Q by (try assumption; lia).
  rewrite Nat.mul_1_r, Nat.add_0_r in Q. rewrite (the_box_combine (wm_n m)) in Q by exact BO. exact Q.
Qed.

(** C46: the score of a sample is the largest upper bound over its pairs, whatever the batches *)
Theorem adv_box_score : forall a f xmin xmax src tgt bs ns, let m := the_model a in
  adv_args a xmin xmax src tgt -> wm_bb m = false -> small ns -> (forall b, (b < alen xmin)%nat -> sound_on m f (the_box xmin xmax b)) ->
  exists r, get_adv_box a xmin xmax (LArr src) (option_map LArr tgt) bs ns = Ok r /\ length r = alen xmin /\
    forall b mode ts, (b < alen xmin)%nat -> wmode m = Some mode -> wm_predict m (wm_domain m) (ztensor (the_box xmin xmax b)) None = Ok ts ->
      (exists t s, (t < wm_k m)%nat /\ (s < wm_k m)%nat /\ pair_of src tgt b t s) ->
      is_score mode (wm_n m) (wm_k m) (pair_of src tgt b) ts (nth b r 0).
Proof.
  intros a f xmin xmax src tgt bs ns m A BB NS SO. destruct (adv_box_one a f xmin xmax src tgt bs ns A BB NS SO) as (r & E & L & H).
  exists r. split; [exact E|]. split; [exact L|]. intros b mode ts Hb M P (t & s & T & S & PR).
  specialize (H b Hb mode ts M P). cbn [fst snd] in H.
  assert (X : is_score mode (wm_n m) (wm_k m) (row_pair (fst (row_of src tgt b)) (snd (row_of src tgt b))) ts (nth b r 0)).
  { apply H. exists t, s. split; [exact T|]. split; [exact S|]. apply row_pair_of. exact PR. }
  destruct tgt; exact X.
Qed.

Theorem adv_box_sound : forall a f xmin xmax src tgt bs ns, let m := the_model a in
  adv_args a xmin xmax src tgt -> wm_bb m = false -> small ns -> (forall b, (b < alen xmin)%nat -> sound_on m f (the_box xmin xmax b)) ->
  exists r, get_adv_box a xmin xmax (LArr src) (option_map LArr tgt) bs ns = Ok r /\ length r = alen xmin /\
    forall b z, (b < alen xmin)%nat -> in_sample (wm_n m) (the_box xmin xmax b) z ->
      (forall t s, (t < wm_k m)%nat -> (s < wm_k m)%nat -> pair_of src tgt b t s -> f z t - f z s <= nth b r 0) /\
      (nth b r 0 < 0 -> no_attack (wm_k m) (pair_of src tgt b) f z).
Proof.
  intros a f xmin xmax src tgt bs ns m A BB NS SO. destruct (adv_box_one a f xmin xmax src tgt bs ns A BB NS SO) as (r & E & L & H).
  exists r. split; [exact E|]. split; [exact L|]. intros b z Hb Z.
  assert (G : forall t s, (t < wm_k m)%nat -> (s < wm_k m)%nat -> pair_of src tgt b t s -> f z t - f z s <= nth b r 0).
  { intros t s T S P. apply (score_sound m f (the_box xmin xmax b, row_of src tgt b) (nth b r 0) (SO b Hb) (H b Hb) z t s Z T S). apply row_pair_of. exact P. }
  split; [exact G|]. intros NEG t s T S P. specialize (G t s T S P). lra.
Qed.

Lemma is_max_uniq_pairs : forall k pairs g a b, pair_max k pairs g a -> pair_max k pairs g b -> a = b.
Proof.
  intros k pairs g a b [A (t & s & T & S & P & E)] [B (t' & s' & T' & S' & P' & E')].
  specialize (A t' s' T' S' P'). specialize (B t s T S P). lra.
Qed.
Lemma pair_box_uniq : forall n k x pairs g a b, pair_box_max n k x pairs g a -> pair_box_max n k x pairs g b -> a = b.
Proof.
  intros n k x pairs g a b [A (t & s & z & T & S & P & Z & E)] [B (t' & s' & z' & T' & S' & P' & Z' & E')].
  specialize (A t' s' z' T' S' P' Z'). specialize (B t s z T S P Z). lra.
Qed.
Lemma is_score_uniq : forall mode n k pairs ts a b, is_score mode n k pairs ts a -> is_score mode n k pairs ts b -> a = b.
Proof.
  intros mode n k pairs ts a b A B. unfold is_score in *. destruct mode.
  - destruct ts as [|u [|l q]]; try contradiction. eapply is_max_uniq_pairs; eassumption.
  - destruct ts as [|x [|wu [|bu [|wl [|bl q]]]]]; try contradiction. eapply pair_box_uniq; eassumption.
  - destruct ts as [|x [|u [|wu [|bu [|l [|wl [|bl q]]]]]]]; try contradiction.
    destruct A as (a1 & a2 & A1 & A2 & ->), B as (b1 & b2 & B1 & B2 & ->).
    rewrite (is_max_uniq_pairs _ _ _ _ _ A1 B1), (pair_box_uniq _ _ _ _ _ _ _ A2 B2). reflexivity.
Qed.

(** C46: batches do not change the scores *)
Theorem adv_box_batch : forall a f xmin xmax src tgt bs bs' ns ns', let m := the_model a in
  adv_args a xmin xmax src tgt -> wm_bb m = false -> small ns -> small ns' -> (forall b, (b < alen xmin)%nat -> sound_on m f (the_box xmin xmax b)) ->
  (forall b, (b < alen xmin)%nat -> exists t s, (t < wm_k m)%nat /\ (s < wm_k m)%nat /\ pair_of src tgt b t s) ->
  get_adv_box a xmin xmax (LArr src) (option_map LArr tgt) bs ns = get_adv_box a xmin xmax (LArr src) (option_map LArr tgt) bs' ns'.
Proof.
  intros a f xmin xmax src tgt bs bs' ns ns' m A BB NS NS' SO HP.
  destruct (adv_box_score a f xmin xmax src tgt bs ns A BB NS SO) as (r & E & L & H).
  destruct (adv_box_score a f xmin xmax src tgt bs' ns' A BB NS' SO) as (r' & E' & L' & H').
  rewrite E, E'. f_equal. apply (nth_ext r r' 0 0); [lia|]. intros b Hb. rewrite L in Hb.
  destruct (SO b Hb) as (mode & ts & dc & M & P & _).
  eapply is_score_uniq; [apply (H b mode ts Hb M P (HP b Hb))|apply (H' b mode ts Hb M P (HP b Hb))].
Qed.

(** C46 with sub-boxes *)
Theorem adv_box_sub_sound : forall a f xmin xmax src tgt bs ns, let m := the_model a in
  adv_args a xmin xmax src tgt -> wm_bb m = false -> (1 < ns)%Z -> a_tail xmin = [wm_n m] ->
  (forall b p, (b < alen xmin)%nat -> sub_of (wm_n m) p (the_box xmin xmax b) -> sound_on m f p) ->
  exists r, get_adv_box a xmin xmax (LArr src) (option_map LArr tgt) bs ns = Ok r /\ length r = alen xmin /\
    forall b z, (b < alen xmin)%nat -> in_sample (wm_n m) (the_box xmin xmax b) z ->
      (forall t s, (t < wm_k m)%nat -> (s < wm_k m)%nat -> pair_of src tgt b t s -> f z t - f z s <= nth b r 0) /\
      (nth b r 0 < 0 -> no_attack (wm_k m) (pair_of src tgt b) f z).
Proof.
  intros a f xmin xmax src tgt bs ns m (D & K & BO & C & MS & MT) BB NS T SO. fold m in D, K, BO, C, MS, MT.
  destruct (sub_boxes_eq (wm_n m) xmin xmax ns BO C T NS) as (q & Q & E).
  destruct (refined_all (wm_n m) q xmin xmax BO C) as (F1 & F2 & LR).
  set (s := concat (refined q xmin xmax)) in *.
  assert (N0 : (0 < wm_n m)%nat) by apply BO.
  assert (B0 : (0 < alen xmin)%nat) by apply BO.
  assert (P2 : (2 <= 2 ^ q)%nat) by (destruct q; [lia|cbn [Nat.pow]; pose proof (Nat.pow_nonzero 2 q ltac:(lia)); lia]).
  assert (Ls : length s = (alen xmin * 2 ^ q)%nat) by (unfold s; rewrite (concat_len (2 ^ q)) by exact F1; rewrite LR; reflexivity).
  assert (Ns : s <> []) by (intro X; rewrite X in Ls; cbn in Ls; nia).
  destruct (samples_boxes_ok (wm_n m) [wm_n m] s N0 Ns F2) as [BO' C'].
  assert (NT : forall b i, (b < alen xmin)%nat -> (i < 2 ^ q)%nat -> nth (b * 2 ^ q + i) s ([], []) = nth i (nth b (refined q xmin xmax) []) ([], [])).
  { intros b i Hb Hi. unfold s. apply (concat_nth (2 ^ q)); [exact F1|rewrite LR; exact Hb|exact Hi]. }
  assert (IT : Forall (item_ok m f) (items_of s (concat (map (fun r => repeat r (2 ^ q)) (a_rows src))) (option_map (fun t => concat (map (fun r => repeat r (2 ^ q)) (a_rows t))) tgt))).
  { apply (items_forall _ _ _ _ (2 ^ q) (alen xmin) (wm_k m)); try assumption; [lia|]. intros b i Hb Hi. rewrite NT by assumption.
    destruct (refined_covers (wm_n m) q xmin xmax b BO C Hb) as [[S _] Lb]. rewrite Forall_forall in S.
    assert (IN : In (nth i (nth b (refined q xmin xmax) []) ([], [])) (nth b (refined q xmin xmax) [])) by (apply nth_In; rewrite Lb; exact Hi).
    unfold item_ok. cbn [fst snd]. split; [apply (SO b); [exact Hb|apply S; exact IN]|]. split; [eapply sub_of_sample; apply S; exact IN|]. apply (row_of_ok src tgt (alen xmin)); assumption. }
  destruct (adv_box_gen m (item_ok m f) (scored m) D K N0 ltac:(intros q0 (_ & A & B & X); auto)
     ltac:(intros items t1 t2 t NE F T0; apply (adv_eval_spec m f); assumption)
     a xmin xmax src tgt bs (2 ^ q) s eq_refl BO C MS MT ns _ _ E) as (r & P & EQ).
  { lia. }
  { rewrite to_samples_ok; [cbn [a_rows]; rewrite combine_map_fst_snd; reflexivity|apply andb_false_r|exact BO']. }
  { exact Ls. }
  { exact IT. }
  pose proof (Forall2_len _ _ _ P) as LP.
  assert (LI : length (items_of s (concat (map (fun r => repeat r (2 ^ q)) (a_rows src))) (option_map (fun t => concat (map (fun r => repeat r (2 ^ q)) (a_rows t))) tgt)) = length s).
  { assert (LC : forall t : arr Z, mask_ok (alen xmin) (wm_k m) t -> length (concat (map (fun r => repeat r (2 ^ q)) (a_rows t))) = (alen xmin * 2 ^ q)%nat).
    { intros t (Lt & _). rewrite (concat_len (2 ^ q)); [rewrite map_length; unfold alen in *; rewrite Lt; reflexivity|]. apply Forall_forall. intros r0 J. apply in_map_iff in J. destruct J as [r1 [<- _]]. apply repeat_length. }
    apply items_maps; [rewrite LC by exact MS; exact Ls|]. destruct tgt as [t|]; cbn [option_map]; [|exact I]. rewrite !LC by assumption. reflexivity. }
  rewrite LI, Ls in LP.
  destruct (1 <? 2 ^ q)%nat eqn:LT; [|apply Nat.ltb_ge in LT; lia].
  rewrite (reduce_split_eq row_max (alen xmin) (2 ^ q)) in EQ.
  2:{ exact B0. } 2:{ lia. } 2:{ rewrite map_length. lia. }
  2:{ apply Forall_forall. intros x I. apply in_map_iff in I. destruct I as [v [<- _]]. reflexivity. }
  cbn [bind a_rows] in EQ.
  assert (CC : concat (map (fun v : R => [v]) r) = r) by (clear; induction r as [|v r IH]; cbn; [reflexivity|rewrite IH; reflexivity]).
  rewrite CC in EQ.
  assert (CM : forall l : list (list R), concat (map (fun x => [row_max x]) l) = map row_max l) by (clear; induction l as [|v l IH]; cbn; [reflexivity|rewrite IH; reflexivity]).
  rewrite CM in EQ. eexists. split; [exact EQ|]. rewrite map_length, chunks_length. split; [reflexivity|].
  intros b z Hb Z.
  assert (G : forall t s, (t < wm_k m)%nat -> (s < wm_k m)%nat -> pair_of src tgt b t s -> f z t - f z s <= nth b (map row_max (chunks (alen xmin) (2 ^ q) r)) 0).
  { intros t s0 Ht Hs PR. rewrite (nth_indep _ 0 (row_max [])) by (rewrite map_length, chunks_length; exact Hb). rewrite map_nth.
    destruct (refined_covers (wm_n m) q xmin xmax b BO C Hb) as [[S CV] Lb]. destruct (CV z Z) as [p [I Pz]]. rewrite Forall_forall in S.
    apply In_nth with (d := ([], [])) in I. destruct I as [i [Li Ep]]. rewrite Lb in Li.
    pose proof (Forall2_nth _ _ _ (b * 2 ^ q + i) d_item 0 P ltac:(rewrite LI, Ls; nia)) as SC.
    rewrite (item_nth _ src tgt (2 ^ q) b i (alen xmin) (wm_k m)) in SC by assumption. rewrite NT, Ep in SC by assumption.
    eapply Rle_trans.
    - apply (score_sound m f (p, row_of src tgt b) (nth (b * 2 ^ q + i) r 0)) with (z := z) (t := t) (s := s0); try assumption.
      + apply (SO b); [exact Hb|]. apply S. rewrite <- Ep. apply nth_In. rewrite Lb; exact Li.
      + apply row_pair_of. exact PR.
    - apply row_max_ge. rewrite <- (chunks_nth (alen xmin) (2 ^ q)) by assumption. apply nth_In.
      pose proof (chunks_rows (alen xmin) (2 ^ q) r ltac:(lia)) as CR. rewrite Forall_forall in CR.
      rewrite CR; [exact Li|]. apply nth_In. rewrite chunks_length. exact Hb. }
  split; [exact G|]. intros NEG t s0 Ht Hs PR. specialize (G t s0 Ht Hs PR). lra.
Qed.

Theorem adv_box_reject : forall a xmin xmax source target bs ns n, boxes_ok n xmin xmax -> ~ consistent n xmin xmax -> get_adv_box a xmin xmax source target bs ns = Err UserWarning.
Proof.
  intros a xmin xmax source target bs ns n BO NC. unfold get_adv_box. destruct (check_box_cases n xmin xmax BO) as [[C _]|[_ E]]; [contradiction|]. rewrite E. reflexivity.
Qed.

(** ** Back bounds *)


Definition back_item (m : wmodel) (f : vec -> vec) (q : item) : Prop := sound_back m f (fst q) (back_matrix (fst (snd q))).

Lemma back_value : forall k r c (v : vec) j, one_hot k r c -> (j < k)%nat -> rsum k (fun i => v i * back_matrix r i j) = v j - v c.
Proof.
  intros k r c v j (Hc & _ & H) Hj. unfold back_matrix.
  rewrite (rsum_ext k _ (fun i => (if (i =? j)%nat then v i else 0) - (if (i =? c)%nat then v i else 0))).
  - rewrite rsum_minus. rewrite !rsum_delta by assumption. reflexivity.
  - intros i Hi. unfold zat. rewrite (H i Hi). destruct (i =? j)%nat, (i =? c)%nat; cbn [IZR]; ring.
Qed.

Definition back_ok (m : wmodel) (f : vec -> vec) (q : item) : Prop :=
  back_item m f q /\ sample_ok (wm_n m) (fst q) /\ (exists c, one_hot (wm_k m) (fst (snd q)) c) /\ opt01 (wm_k m) (snd (snd q)).
Definition back_score (m : wmodel) (f : vec -> vec) (q : item) (v : R) : Prop :=
  forall c z t, one_hot (wm_k m) (fst (snd q)) c -> in_sample (wm_n m) (fst q) z -> (t < wm_k m)%nat -> f z t - f z c <= v.

Lemma adv_eval_back : forall m f items t1 t2 (tgt : option (list (list Z))), wm_bb m = true -> (0 < wm_k m)%nat -> items <> [] ->
  Forall (back_ok m f) items -> map (fun q => snd (snd q)) items = tgt_rows tgt (length items) ->
  exists r, adv_eval m (map fst items) (mk_arr t1 (map (fun q => fst (snd q)) items)) (option_map (mk_arr t2) tgt) = Ok r /\ Forall2 (back_score m f) items r.
Proof.
  intros m f items t1 t2 tgt BB K NE F T. unfold adv_eval. rewrite BB. cbv zeta. cbn [a_rows].
  assert (FB : forallb (fun r => (length r =? wm_k m)%nat) (map (fun q : item => fst (snd q)) items) = true).
  { apply forallb_forall. intros r I. apply in_map_iff in I. destruct I as [q [<- I]]. apply Nat.eqb_eq. rewrite Forall_forall in F. destruct (F q I) as (_ & _ & (c & _ & L & _) & _). exact L. }
  rewrite FB. cbn [negb]. unfold bcast. rewrite !map_length, Nat.eqb_refl. cbn [bind].
  rewrite combine_map2, mapR_map. cbn [fst snd]. rewrite Forall_forall in F.
  assert (M0 : exists mode, wmode m = Some mode).
  { destruct items as [|q items]; [contradiction|]. destruct (F q (or_introl eq_refl)) as [(mode & ts & dc & M & _) _]. eauto. }
  destruct (mapR_Forall2 (fun q : item => wm_predict m (wm_domain m) (ztensor (fst q)) (Some (back_matrix (fst (snd q)))))
    (fun q ts => exists b, unpack_output (wm_ibp m) (wm_affine m) ts = Ok b /\ (wm_ibp m = true -> back_score m f q (rmax (wm_k m) (bn_u b 0%nat))) /\
       (wm_affine m = true -> back_score m f q (rmax (wm_k m) (affine_back (wm_n m) (bn_x b) (bn_wu b) (bn_bu b))))) (fun q => q) items) as (outs & EO & PO).
  { intros q I. destruct (F q I) as ((mode & ts & dc & M & E & V) & SK & _ & _). exists ts. split; [exact E|]. destruct V as [L V]. unfold wmode in M.
    assert (BV : forall c z t, one_hot (wm_k m) (fst (snd q)) c -> (t < wm_k m)%nat -> rsum (wm_k m) (fun i => f z i * back_matrix (fst (snd q)) i t) = f z t - f z c) by (intros c z t O Ht; apply back_value; assumption).
    assert (AB : forall x wu bu, (forall z, in_sample (wm_n m) (fst q) z -> in_dom Box (wm_n m) x z) ->
       (forall z j, in_sample (wm_n m) (fst q) z -> (j < wm_k m)%nat -> rsum (wm_k m) (fun i => f z i * back_matrix (fst (snd q)) i j) <= aff (wm_n m) wu (bu 0%nat) z j) ->
       back_score m f q (rmax (wm_k m) (affine_back (wm_n m) x wu bu))).
    { intros x wu bu DX A c z t O Z Ht. rewrite <- (BV c z t O Ht). eapply Rle_trans; [apply (A z t Z Ht)|]. eapply Rle_trans; [|apply (rmax_ge (wm_k m) (affine_back (wm_n m) x wu bu) t Ht)].
      specialize (DX z Z). cbn in DX. exact (box_up_sound (wm_n m) (x 0%nat) (x 1%nat) (fun i => wu i t) (bu 0%nat t) z DX). }
    assert (CB : forall u : tensor, (forall z j, in_sample (wm_n m) (fst q) z -> (j < wm_k m)%nat -> rsum (wm_k m) (fun i => f z i * back_matrix (fst (snd q)) i j) <= u 0%nat j) -> back_score m f q (rmax (wm_k m) (u 0%nat))).
    { intros u A c z t O Z Ht. rewrite <- (BV c z t O Ht). eapply Rle_trans; [apply (A z t Z Ht)|]. apply (rmax_ge (wm_k m) (u 0%nat) t Ht). }
    destruct (wm_ibp m), (wm_affine m); inversion M; subst mode; clear M.
    - destruct ts as [|x [|u [|wu [|bu [|l [|wl [|bl ts]]]]]]]; try contradiction. destruct V as (DX & CO & AF).
      eexists. split; [reflexivity|]. cbn [bn_x bn_u bn_wu bn_bu]. split; intros _; [apply CB; intros z j Z J; apply CO; assumption|apply AB; [exact DX|]; intros z j Z J; apply AF; assumption].
    - destruct ts as [|u [|l ts]]; try contradiction. eexists. split; [reflexivity|]. cbn [bn_u]. split; [intros _|discriminate]. apply CB; intros z j Z J; apply V; assumption.
    - destruct ts as [|x [|wu [|bu [|wl [|bl ts]]]]]; try contradiction. destruct V as (DX & AF).
      eexists. split; [reflexivity|]. cbn [bn_x bn_u bn_wu bn_bu]. split; [discriminate|intros _]. apply AB; [exact DX|]; intros z j Z J; apply AF; assumption. }
  rewrite EO. cbn [bind]. rewrite map_id in PO.
  assert (UN : exists bs, mapR (unpack_output (wm_ibp m) (wm_affine m)) outs = Ok bs /\ Forall2 (fun q b => (wm_ibp m = true -> back_score m f q (rmax (wm_k m) (bn_u b 0%nat))) /\
       (wm_affine m = true -> back_score m f q (rmax (wm_k m) (affine_back (wm_n m) (bn_x b) (bn_wu b) (bn_bu b))))) items bs).
  { clear -PO. induction PO as [|q ts items outs (b & E & P) _ (bs & E2 & P2)]; [exists []; split; [reflexivity|constructor]|].
    exists (b :: bs). cbn. rewrite E, E2. split; [reflexivity|]. constructor; assumption. }
  destruct UN as (bs & EU & PU). rewrite EU. cbn [bind].
  assert (RT : (match option_map (mk_arr t2) tgt with Some t => r <- reshape t [wm_k m] ; Ok tt | None => Ok tt end) = Ok tt).
  { destruct tgt as [l|]; cbn [option_map]; [|reflexivity]. rewrite (reshape_same _ [wm_k m] (wm_k m)); [reflexivity|cbn; lia|exact K|].
    unfold rows_of. cbn [a_rows]. apply Forall_forall. intros r I. cbn [tgt_rows] in T.
    assert (J : In (Some r) (map (fun q : item => snd (snd q)) items)) by (rewrite T; apply in_map; exact I).
    apply in_map_iff in J. destruct J as [q [E J]]. destruct (F q J) as (_ & _ & _ & O). rewrite E in O. apply O. }
  rewrite RT. cbn [bind].
  assert (PI : wm_ibp m = true -> Forall2 (back_score m f) items (map (fun b => rmax (wm_k m) (bn_u b 0%nat)) bs)).
  { intro I. clear -PU I. induction PU as [|q b items bs [A _] _ IH]; cbn; constructor; auto. }
  assert (PA : wm_affine m = true -> Forall2 (back_score m f) items (map (fun b => rmax (wm_k m) (affine_back (wm_n m) (bn_x b) (bn_wu b) (bn_bu b))) bs)).
  { intro I. clear -PU I. induction PU as [|q b items bs [_ A] _ IH]; cbn; constructor; auto. }
  destruct M0 as [mode M0]. unfold wmode in M0.
  destruct (wm_ibp m), (wm_affine m); cbn [bind].
  - eexists. split; [reflexivity|]. pose proof (min_rows_spec _ _ _ _ _ (PI eq_refl) (PA eq_refl)) as MR.
    clear -MR. induction MR as [|q v items r (x & y & X & Y & ->) _ IH]; constructor; [|exact IH].
    intros c z t O Z Ht. apply Rmin_glb; [exact (X c z t O Z Ht)|exact (Y c z t O Z Ht)].
  - eexists. split; [reflexivity|]. apply PI; reflexivity.
  - eexists. split; [reflexivity|]. apply PA; reflexivity.
  - discriminate.
Qed.

(** C46, model with back bounds: the scores bound every f_t - f_s, source class included, so no sample is ever certified;
    the targets are not used *)
Theorem adv_box_back : forall a f xmin xmax src tgt bs ns cls, let m := the_model a in
  adv_args a xmin xmax src tgt -> wm_bb m = true -> small ns ->
  (forall b, (b < alen xmin)%nat -> one_hot (wm_k m) (nth b (a_rows src) []) (cls b)) ->
  (forall b, (b < alen xmin)%nat -> sound_back m f (the_box xmin xmax b) (back_matrix (nth b (a_rows src) []))) ->
  exists r, get_adv_box a xmin xmax (LArr src) (option_map LArr tgt) bs ns = Ok r /\ length r = alen xmin /\
    forall b, (b < alen xmin)%nat -> 0 <= nth b r 0 /\ forall z t, in_sample (wm_n m) (the_box xmin xmax b) z -> (t < wm_k m)%nat -> f z t - f z (cls b) <= nth b r 0.
Proof.
  intros a f xmin xmax src tgt bs ns cls m (D & K & BO & C & MS & MT) BB NS OH SO. fold m in D, K, BO, C, MS, MT.
  destruct (combine_ne _ _ _ BO) as [Ls _].
  assert (N0 : (0 < wm_n m)%nat) by apply BO.
  pose proof (samples_ok _ _ _ BO C) as SK. rewrite Forall_forall in SK.
  assert (SKb : forall b, (b < alen xmin)%nat -> sample_ok (wm_n m) (the_box xmin xmax b)).
  { intros b Hb. rewrite <- (the_box_combine (wm_n m)) by exact BO. apply SK, nth_In. rewrite Ls. exact Hb. }
  assert (IT : Forall (back_ok m f) (items_of (combine (a_rows xmin) (a_rows xmax)) (concat (map (fun r => repeat r 1) (a_rows src))) (option_map (fun t => concat (map (fun r => repeat r 1) (a_rows t))) tgt))).
  { apply (items_forall _ _ _ _ 1 (alen xmin) (wm_k m)); try assumption; [lia|lia|]. intros b i Hb Hi. assert (i = 0)%nat by lia. subst i. rewrite Nat.mul_1_r, Nat.add_0_r.
    rewrite (the_box_combine (wm_n m)) by exact BO. unfold back_ok. cbn [fst snd]. split; [apply SO; exact Hb|]. split; [apply SKb; exact Hb|]. split; [exists (cls b); apply OH; exact Hb|apply (row_of_ok src tgt (alen xmin)); assumption]. }
  destruct (adv_box_gen m (back_ok m f) (back_score m f) D K N0
     ltac:(intros q (_ & A & (c & X & L & H) & Y); split; [exact A|]; split; [|exact Y]; split; [exact L|]; intros j Hj; rewrite (H j Hj); destruct (j =? c)%nat; auto)
     ltac:(intros items t1 t2 t NE F T; apply (adv_eval_back m f); assumption)
     a xmin xmax src tgt bs 1 (combine (a_rows xmin) (a_rows xmax)) eq_refl BO C MS MT ns xmin xmax) as (r & P & E).
  { apply sub_boxes_one. exact NS. }
  { lia. }
  { apply to_samples_ok; [apply andb_false_r|exact BO]. }
  { rewrite Ls. lia. }
  { exact IT. }
  pose proof (Forall2_len _ _ _ P) as LP.
  destruct (items_maps (combine (a_rows xmin) (a_rows xmax)) (concat (map (fun r => repeat r 1) (a_rows src))) (option_map (fun t => concat (map (fun r => repeat r 1) (a_rows t))) tgt)) as (_ & _ & _ & I4).
  { rewrite Ls, (concat_len 1); [rewrite map_length; destruct MS as (L & _); unfold alen in *; lia|]. apply Forall_forall. intros q I. apply in_map_iff in I. destruct I as [q0 [<- _]]. reflexivity. }
  { destruct tgt as [t|]; cbn [option_map]; [|exact I]. rewrite !(concat_len 1); [|apply Forall_forall; intros q I; apply in_map_iff in I; destruct I as [q0 [<- _]]; reflexivity..].
    rewrite !map_length. destruct MS as (L & _), MT as (L' & _). unfold alen in *; lia. }
  rewrite I4, Ls in LP.
  exists r. split; [exact E|]. split; [lia|]. intros b Hb.
  pose proof (Forall2_nth _ _ _ (b * 1 + 0) d_item 0 P ltac:(rewrite I4, Ls; lia)) as Q.
  rewrite (item_nth _ src tgt 1 b 0 (alen xmin) (wm_k m)) in Q by (try assumption; lia).
  rewrite Nat.mul_1_r, Nat.add_0_r in Q. rewrite (the_box_combine (wm_n m)) in Q by exact BO.
  assert (G : forall z t, in_sample (wm_n m) (the_box xmin xmax b) z -> (t < wm_k m)%nat -> f z t - f z (cls b) <= nth b r 0).
  { intros z t Z Ht. apply (Q (cls b) z t); [apply OH; exact Hb|exact Z|exact Ht]. }
  split; [|exact G].
  specialize (G (lvec (fst (the_box xmin xmax b))) (cls b) (in_lo _ _ (SKb b Hb))). specialize (G ltac:(apply (OH b Hb))). lra.
Qed.
