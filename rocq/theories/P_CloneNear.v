(** The functions of wrapper.py on clones that enclose the network up to an error. *)
From Coq Require Import String Reals Lra Lia Psatz List Arith Bool ZArith.
From Verif Require Import RLib Spec Spec_Layers Spec_Backward Spec_Convert Spec_Near Spec_Network Spec_Wrapper M_Core M_State M_Backward M_Crown M_Convert M_Network M_Wrapper M_Clone.
From Verif Require Import P_Core P_Graph P_Crown P_Convert P_Network P_NetworkSpec P_NetworkCrown P_Near P_NearCrown P_Domain P_Wrapper P_WrapperRefine P_WrapperAdv P_WrapperAdvBox P_WrapperBox P_WrapperNoise P_Clone P_CloneThm.
From Verif Require Import Spec_Network.
Import ListNotations.
Local Open Scope R_scope.

(** the model bounds f on the box p up to e *)
Definition near_on (m : wmodel) (e : R) (f : vec -> vec) (p : box) : Prop :=
  exists mode ts, wmode m = Some mode /\ wm_predict m (wm_domain m) (ztensor p) None = Ok ts /\
    near Box mode (in_sample (wm_n m) p) (wm_n m) (wm_k m) e f ts.

Definition item_near (m : wmodel) (e : R) (f : vec -> vec) (q : item) : Prop :=
  near_on m e f (fst q) /\ sample_ok (wm_n m) (fst q) /\ row01 (wm_k m) (fst (snd q)) /\ opt01 (wm_k m) (snd (snd q)).

Lemma unpack_near : forall m e f p ts, near_on m e f p -> sample_ok (wm_n m) p -> wm_predict m (wm_domain m) (ztensor p) None = Ok ts ->
  exists b, unpack_output (wm_ibp m) (wm_affine m) ts = Ok b /\ (wm_affine m = true -> forall i, (i < wm_n m)%nat -> bn_x b 0%nat i <= bn_x b 1%nat i) /\
    forall mode (pairs : nat -> nat -> Prop), wmode m = Some mode -> forall x y,
      (wm_ibp m = true -> pair_max (wm_k m) pairs (ibp_upper (bn_u b) (bn_l b)) x) ->
      (wm_affine m = true -> pair_max (wm_k m) pairs (affine_upper (wm_n m) (bn_x b) (bn_wu b) (bn_bu b) (bn_wl b) (bn_bl b)) y) ->
      is_score mode (wm_n m) (wm_k m) pairs ts (match wm_ibp m, wm_affine m with true, true => Rmin x y | true, false => x | _, _ => y end).
Proof.
  intros m e f p ts (mode & ts' & M & P & V) SK E. rewrite E in P. injection P as <-.
  pose proof (in_lo _ _ SK) as Z. unfold wmode in *.
  destruct (wm_ibp m), (wm_affine m); inversion M; subst mode; clear M.
  - destruct ts as [|x [|u [|wu [|bu [|l [|wl [|bl [|]]]]]]]]; try contradiction. destruct V as (D & _). specialize (D _ Z). cbn in D.
    assert (X : forall i, (i < wm_n m)%nat -> x 0%nat i <= x 1%nat i) by (intros i Hi; specialize (D i Hi); lra).
    eexists. split; [reflexivity|]. cbn [bn_x bn_u bn_l bn_wu bn_bu bn_wl bn_bl]. split; [intros _; exact X|].
    intros mode pairs M a b A B. inversion M; subst mode. cbn [is_score]. exists a, b. split; [apply A; reflexivity|]. split; [|reflexivity]. apply pair_box_of; [exact X|]. apply B; reflexivity.
  - destruct ts as [|u [|l [|]]]; try contradiction.
    eexists. split; [reflexivity|]. split; [discriminate|]. intros mode pairs M a b A B. inversion M; subst mode. cbn [is_score]. apply A; reflexivity.
  - destruct ts as [|x [|wu [|bu [|wl [|bl [|]]]]]]; try contradiction. destruct V as (D & _). specialize (D _ Z). cbn in D.
    assert (X : forall i, (i < wm_n m)%nat -> x 0%nat i <= x 1%nat i) by (intros i Hi; specialize (D i Hi); lra).
    eexists. split; [reflexivity|]. cbn [bn_x bn_u bn_l bn_wu bn_bu bn_wl bn_bl]. split; [intros _; exact X|].
    intros mode pairs M a b A B. inversion M; subst mode. cbn [is_score]. apply pair_box_of; [exact X|]. apply B; reflexivity.
Qed.

Lemma adv_eval_near : forall m e f items t1 t2 (tgt : option (list (list Z))), wm_bb m = false -> (0 < wm_k m)%nat -> items <> [] ->
  Forall (item_near m e f) items -> map (fun q => snd (snd q)) items = tgt_rows tgt (length items) ->
  exists r, adv_eval m (map fst items) (mk_arr t1 (map (fun q => fst (snd q)) items)) (option_map (mk_arr t2) tgt) = Ok r /\ Forall2 (scored m) items r.
Proof.
  intros m e f items t1 t2 tgt BB K NE F T. unfold adv_eval. rewrite BB. cbn [bind].
  pose proof F as F0. rewrite Forall_forall in F.
  rewrite mapR_map.
  destruct (mapR_ok (fun q : item => wm_predict m (wm_domain m) (ztensor (fst q)) None) items) as [outs [EO LO]].
  { intros q I. destruct (F q I) as [(mode & ts & _ & E & _) _]. eauto. }
  rewrite EO. cbn [bind]. destruct (mapR_nth _ _ _ EO) as [_ NO].
  assert (UN : forall i, (i < length items)%nat -> exists b, unpack_output (wm_ibp m) (wm_affine m) (nth i outs []) = Ok b).
  { intros i I. assert (In (nth i items (([], []), ([], None))) items) by (apply nth_In; exact I).
    destruct (F _ H) as (A & B & _). specialize (NO i (([], []), ([], None)) [] I).
    destruct (unpack_near m e f _ _ A B NO) as (b & E & _). eauto. }
  destruct (mapR_ok (unpack_output (wm_ibp m) (wm_affine m)) outs) as [bs [EB LB]].
  { intros ts I. apply In_nth with (d := []) in I. destruct I as [i [Hi <-]]. apply UN. lia. }
  rewrite EB. cbn [bind]. destruct (mapR_nth _ _ _ EB) as [_ NB].
  set (d0 := mk_bnds zero_t zero_t zero_t zero_t zero_t zero_t zero_t).
  set (src := mk_arr t1 (map (fun q : item => fst (snd q)) items)).
  assert (LS : alen src = length items) by (unfold alen, src; cbn; apply map_length).
  assert (RO : rows_opt (option_map (mk_arr t2) tgt) (alen src) = map (fun q => snd (snd q)) items).
  { rewrite T, LS. destruct tgt; reflexivity. }
  assert (SR : Forall (row01 (wm_k m)) (a_rows src)).
  { apply Forall_forall. intros r I. apply in_map_iff in I. destruct I as [q [<- I]]. apply (F q I). }
  assert (TR : match option_map (mk_arr t2) tgt with None => True | Some a => alen a = alen src /\ Forall (row01 (wm_k m)) (a_rows a) end).
  { destruct tgt as [l|]; cbn [option_map]; [|exact I]. cbn [tgt_rows] in T. split.
    - rewrite LS. unfold alen; cbn [a_rows]. rewrite <- (map_length Some l), <- T, map_length. reflexivity.
    - apply Forall_forall. intros r I. cbn [a_rows] in I. assert (J : In (Some r) (map (fun q : item => snd (snd q)) items)) by (rewrite T; apply in_map; exact I).
      apply in_map_iff in J. destruct J as [q [E J]]. destruct (F q J) as (_ & _ & _ & O). rewrite E in O. exact O. }
  assert (PEN : forall g : bnds -> mat, exists r, penalised (wm_k m) (map g bs) src (option_map (mk_arr t2) tgt) = Ok r /\ length r = length items /\
    forall i, (i < length items)%nat -> has_pair (wm_k m) (row_pair (fst (snd (nth i items (([], []), ([], None))))) (snd (snd (nth i items (([], []), ([], None)))))) ->
      pair_max (wm_k m) (row_pair (fst (snd (nth i items (([], []), ([], None))))) (snd (snd (nth i items (([], []), ([], None)))))) (g (nth i bs d0)) (nth i r 0)).
  { intro g. destruct (penalised_spec (wm_k m) (map g bs) src (option_map (mk_arr t2) tgt) K) as (r & E & P); [rewrite map_length, LS; lia|exact SR|exact TR|].
    exists r. split; [exact E|]. rewrite RO in P. pose proof (Forall2_len _ _ _ P) as LP. rewrite !combine_length, !map_length in LP. fold (alen src) in LP. change (length (a_rows src)) with (alen src) in LP. rewrite LS in LP. split; [lia|].
    intros i I HP.
    pose proof (Forall2_nth _ _ _ i (g d0, ([], None)) 0 P) as Q. cbn beta in Q.
    rewrite combine_nth in Q by (rewrite combine_length, !map_length; change (length (a_rows src)) with (alen src); lia).
    rewrite (combine_nth (a_rows src)) in Q by (unfold src; cbn [a_rows]; rewrite !map_length; reflexivity).
    unfold src in Q. cbn [a_rows fst snd] in Q.
    rewrite (map_nth g bs d0 i) in Q.
    rewrite (map_nth (fun q : item => fst (snd q)) items (([], []), ([], None)) i : nth i (map (fun q : item => fst (snd q)) items) [] = _) in Q.
    rewrite (map_nth (fun q : item => snd (snd q)) items (([], []), ([], None)) i : nth i (map (fun q : item => snd (snd q)) items) None = _) in Q.
    apply Q; [|exact HP]. rewrite !combine_length, !map_length. lia. }
  destruct (PEN (fun b => ibp_upper (bn_u b) (bn_l b))) as (ri & Ei & Li & Pi).
  destruct (PEN (fun b => affine_upper (wm_n m) (bn_x b) (bn_wu b) (bn_bu b) (bn_wl b) (bn_bl b))) as (ra & Ea & La & Pa).
  assert (SC : forall i mode ts, (i < length items)%nat -> wmode m = Some mode -> wm_predict m (wm_domain m) (ztensor (fst (nth i items (([], []), ([], None))))) None = Ok ts ->
    has_pair (wm_k m) (row_pair (fst (snd (nth i items (([], []), ([], None))))) (snd (snd (nth i items (([], []), ([], None)))))) ->
    is_score mode (wm_n m) (wm_k m) (row_pair (fst (snd (nth i items (([], []), ([], None))))) (snd (snd (nth i items (([], []), ([], None)))))) ts
      (match wm_ibp m, wm_affine m with true, true => Rmin (nth i ri 0) (nth i ra 0) | true, false => nth i ri 0 | _, _ => nth i ra 0 end)).
  { intros i mode ts I M E HP. pose proof (NO i (([], []), ([], None)) [] I) as N. rewrite E in N. injection N as N.
    assert (IN : In (nth i items (([], []), ([], None))) items) by (apply nth_In; exact I). destruct (F _ IN) as (A & B & _).
    destruct (unpack_near m e f _ _ A B E) as (b & Eb & _ & S).
    pose proof (NB i [] d0 ltac:(lia)) as N2. rewrite <- N, Eb in N2. injection N2 as N2. subst b.
    apply (S mode); [exact M| |]; intros _; [apply Pi|apply Pa]; assumption. }
  destruct (wm_ibp m) eqn:EI, (wm_affine m) eqn:EA.
  - rewrite Ei. cbn [bind]. rewrite Ea. cbn [bind]. eexists. split; [reflexivity|].
    apply (Forall2_from_nth _ _ _ (([], []), ([], None)) 0).
    + unfold min_rows. rewrite map_length, combine_length. lia.
    + intros i I mode ts M E HP. specialize (SC i mode ts I M E HP). unfold min_rows.
      rewrite (nth_indep _ 0 ((fun p => Rmin (fst p) (snd p)) (0, 0))) by (rewrite map_length, combine_length; lia).
      rewrite (map_nth (fun p : R * R => Rmin (fst p) (snd p))), combine_nth by lia. cbn [fst snd]. exact SC.
  - rewrite Ei. cbn [bind]. eexists. split; [reflexivity|]. apply (Forall2_from_nth _ _ _ (([], []), ([], None)) 0); [lia|].
    intros i I mode ts M E HP. exact (SC i mode ts I M E HP).
  - cbn [bind]. rewrite Ea. cbn [bind]. eexists. split; [reflexivity|]. apply (Forall2_from_nth _ _ _ (([], []), ([], None)) 0); [lia|].
    intros i I mode ts M E HP. exact (SC i mode ts I M E HP).
  - destruct items as [|q items]; [contradiction NE; reflexivity|]. exfalso. destruct (F q (or_introl eq_refl)) as [(mode & ts & M & _) _]. unfold wmode in M. rewrite EI, EA in M. discriminate.
Qed.

Lemma adv_box_one_near : forall a e f xmin xmax src tgt bs ns, let m := the_model a in
  adv_args a xmin xmax src tgt -> wm_bb m = false -> small ns -> (forall b, (b < alen xmin)%nat -> near_on m e f (the_box xmin xmax b)) ->
  exists r, get_adv_box a xmin xmax (LArr src) (option_map LArr tgt) bs ns = Ok r /\ length r = alen xmin /\
    forall b, (b < alen xmin)%nat -> scored m (the_box xmin xmax b, row_of src tgt b) (nth b r 0).
Proof.
  intros a e f xmin xmax src tgt bs ns m (D & K & BO & C & MS & MT) BB NS SO. fold m in D, K, BO, C, MS, MT.
  destruct (combine_ne _ _ _ BO) as [Ls _].
  assert (N0 : (0 < wm_n m)%nat) by apply BO.
  pose proof (samples_ok _ _ _ BO C) as SK. rewrite Forall_forall in SK.
  assert (IT : Forall (item_near m e f) (items_of (combine (a_rows xmin) (a_rows xmax)) (concat (map (fun r => repeat r 1) (a_rows src))) (option_map (fun t => concat (map (fun r => repeat r 1) (a_rows t))) tgt))).
  { apply (items_forall _ _ _ _ 1 (alen xmin) (wm_k m)); try assumption; [lia|lia|]. intros b i Hb Hi. assert (i = 0)%nat by lia. subst i. rewrite Nat.mul_1_r, Nat.add_0_r.
    rewrite (the_box_combine (wm_n m)) by exact BO. unfold item_near. cbn [fst snd]. split; [apply SO; exact Hb|]. split; [|apply (row_of_ok src tgt (alen xmin)); assumption].
    rewrite <- (the_box_combine (wm_n m)) by exact BO. apply SK, nth_In. rewrite Ls. exact Hb. }
  destruct (adv_box_gen m (item_near m e f) (scored m) D K N0 ltac:(intros q (_ & A & B & X); auto)
     ltac:(intros items t1 t2 t NE F T; apply (adv_eval_near m e f); assumption)
     a xmin xmax src tgt bs 1 (combine (a_rows xmin) (a_rows xmax)) eq_refl BO C MS MT ns xmin xmax) as (r & P & E).
  { apply sub_boxes_one. exact NS. }
  { lia. }
  { apply to_samples_ok; [apply andb_false_r|exact BO]. }
  { rewrite Ls. lia. }
  { exact IT. }
  pose proof (Forall2_len _ _ _ P) as LP.
  destruct (items_maps (combine (a_rows xmin) (a_rows xmax)) (concat (map (fun r => repeat r 1) (a_rows src))) (option_map (fun t => concat (map (fun r => repeat r 1) (a_rows t))) tgt)) as (_ & _ & _ & I4).
  { rewrite Ls, (concat_len 1); [rewrite map_length; destruct MS as (L & _); unfold alen in *; lia|]. apply Forall_forall. intros q I. apply in_map_iff in I. destruct I as [q0 [<- _]]. reflexivity. }
  { destruct tgt as [t|]; cbn [option_map]; [|exact I]. rewrite !(concat_len 1); [|apply Forall_forall; intros q I; apply in_map_iff in I; destruct I as [q0 [<- _]]; reflexivity..].
    rewrite !map_length. destruct MS as (L & _), MT as (L' & _). unfold alen in *; lia. }
  rewrite I4, Ls in LP.
  exists r. split; [exact E|]. split; [lia|]. intros b Hb.
  pose proof (Forall2_nth _ _ _ (b * 1 + 0) d_item 0 P ltac:(rewrite I4, Ls; lia)) as Q.
  rewrite (item_nth _ src tgt 1 b 0 (alen xmin) (wm_k m)) in Q by (try assumption; lia).
  rewrite Nat.mul_1_r, Nat.add_0_r in Q. rewrite (the_box_combine (wm_n m)) in Q by exact BO. exact Q.
Qed.

Lemma score_near : forall m e f q v, near_on m e f (fst q) -> scored m q v ->
  forall z t s, in_sample (wm_n m) (fst q) z -> (t < wm_k m)%nat -> (s < wm_k m)%nat -> row_pair (fst (snd q)) (snd (snd q)) t s -> f z t - f z s <= v + 2 * e.
Proof.
  intros m e f q v (mode & ts & M & P & V) SC z t s Z T S PR.
  specialize (SC mode ts M P ltac:(exists t, s; auto)). unfold wmode in M.
  destruct (wm_ibp m), (wm_affine m); inversion M; subst mode; clear M; cbn [is_score] in SC.
  - destruct ts as [|x [|u [|wu [|bu [|l [|wl [|bl [|]]]]]]]]; try contradiction. destruct SC as (a & b & [A _] & [B _] & ->). destruct V as (D & C & AF).
    specialize (A t s T S PR). specialize (D z Z). cbn in D. specialize (B t s z T S PR D).
    destruct (C z t Z T) as [_ Cu]. destruct (C z s Z S) as [Cl _]. destruct (AF z t Z T) as [_ Au]. destruct (AF z s Z S) as [Al _].
    unfold Rmin. destruct (Rle_dec a b); lra.
  - destruct ts as [|u [|l [|]]]; try contradiction. destruct SC as [A _]. specialize (A t s T S PR).
    rename V into C. destruct (C z t Z T) as [_ Cu]. destruct (C z s Z S) as [Cl _]. lra.
  - destruct ts as [|x [|wu [|bu [|wl [|bl [|]]]]]]; try contradiction. destruct SC as [B _]. destruct V as (D & AF).
    specialize (D z Z). cbn in D. specialize (B t s z T S PR D). destruct (AF z t Z T) as [_ Au]. destruct (AF z s Z S) as [Al _]. lra.
Qed.

Theorem adv_box_near : forall a e f xmin xmax src tgt bs ns, let m := the_model a in
  adv_args a xmin xmax src tgt -> wm_bb m = false -> small ns -> (forall b, (b < alen xmin)%nat -> near_on m e f (the_box xmin xmax b)) ->
  exists r, get_adv_box a xmin xmax (LArr src) (option_map LArr tgt) bs ns = Ok r /\ length r = alen xmin /\
    forall b z, (b < alen xmin)%nat -> in_sample (wm_n m) (the_box xmin xmax b) z ->
      (forall t s, (t < wm_k m)%nat -> (s < wm_k m)%nat -> pair_of src tgt b t s -> f z t - f z s <= nth b r 0 + 2 * e) /\
      (nth b r 0 < - (2 * e) -> no_attack (wm_k m) (pair_of src tgt b) f z).
Proof.
  intros a e f xmin xmax src tgt bs ns m A BB NS SO. destruct (adv_box_one_near a e f xmin xmax src tgt bs ns A BB NS SO) as (r & E & L & H).
  exists r. split; [exact E|]. split; [exact L|]. intros b z Hb Z.
  assert (G : forall t s, (t < wm_k m)%nat -> (s < wm_k m)%nat -> pair_of src tgt b t s -> f z t - f z s <= nth b r 0 + 2 * e).
  { intros t s T S P. apply (score_near m e f (the_box xmin xmax b, row_of src tgt b) (nth b r 0) (SO b Hb) (H b Hb) z t s Z T S). apply row_pair_of. exact P. }
  split; [exact G|]. intros NEG t s T S P. specialize (G t s T S P). lra.
Qed.

Theorem adv_box_sub_near : forall a e f xmin xmax src tgt bs ns, let m := the_model a in
  adv_args a xmin xmax src tgt -> wm_bb m = false -> (1 < ns)%Z -> a_tail xmin = [wm_n m] ->
  (forall b p, (b < alen xmin)%nat -> sub_of (wm_n m) p (the_box xmin xmax b) -> near_on m e f p) ->
  exists r, get_adv_box a xmin xmax (LArr src) (option_map LArr tgt) bs ns = Ok r /\ length r = alen xmin /\
    forall b z, (b < alen xmin)%nat -> in_sample (wm_n m) (the_box xmin xmax b) z ->
      (forall t s, (t < wm_k m)%nat -> (s < wm_k m)%nat -> pair_of src tgt b t s -> f z t - f z s <= nth b r 0 + 2 * e) /\
      (nth b r 0 < - (2 * e) -> no_attack (wm_k m) (pair_of src tgt b) f z).
Proof.
  intros a e f xmin xmax src tgt bs ns m (D & K & BO & C & MS & MT) BB NS T SO. fold m in D, K, BO, C, MS, MT.
  destruct (sub_boxes_eq (wm_n m) xmin xmax ns BO C T NS) as (q & Q & E).
  destruct (refined_all (wm_n m) q xmin xmax BO C) as (F1 & F2 & LR).
  set (s := concat (refined q xmin xmax)) in *.
  assert (N0 : (0 < wm_n m)%nat) by apply BO.
  assert (B0 : (0 < alen xmin)%nat) by apply BO.
  assert (P2 : (2 <= 2 ^ q)%nat) by (destruct q; [lia|cbn [Nat.pow]; pose proof (Nat.pow_nonzero 2 q ltac:(lia)); lia]).
  assert (Ls : length s = (alen xmin * 2 ^ q)%nat) by (unfold s; rewrite (concat_len (2 ^ q)) by exact F1; rewrite LR; reflexivity).
  assert (Ns : s <> []) by (intro X; rewrite X in Ls; cbn in Ls; nia).
  destruct (samples_boxes_ok (wm_n m) [wm_n m] s N0 Ns F2) as [BO' C'].
  assert (NT : forall b i, (b < alen xmin)%nat -> (i < 2 ^ q)%nat -> nth (b * 2 ^ q + i) s ([], []) = nth i (nth b (refined q xmin xmax) []) ([], [])).
  { intros b i Hb Hi. unfold s. apply (concat_nth (2 ^ q)); [exact F1|rewrite LR; exact Hb|exact Hi]. }
  assert (IT : Forall (item_near m e f) (items_of s (concat (map (fun r => repeat r (2 ^ q)) (a_rows src))) (option_map (fun t => concat (map (fun r => repeat r (2 ^ q)) (a_rows t))) tgt))).
  { apply (items_forall _ _ _ _ (2 ^ q) (alen xmin) (wm_k m)); try assumption; [lia|]. intros b i Hb Hi. rewrite NT by assumption.
    destruct (refined_covers (wm_n m) q xmin xmax b BO C Hb) as [[S _] Lb]. rewrite Forall_forall in S.
    assert (IN : In (nth i (nth b (refined q xmin xmax) []) ([], [])) (nth b (refined q xmin xmax) [])) by (apply nth_In; rewrite Lb; exact Hi).
    unfold item_near. cbn [fst snd]. split; [apply (SO b); [exact Hb|apply S; exact IN]|]. split; [eapply sub_of_sample; apply S; exact IN|]. apply (row_of_ok src tgt (alen xmin)); assumption. }
  destruct (adv_box_gen m (item_near m e f) (scored m) D K N0 ltac:(intros q0 (_ & A & B & X); auto)
     ltac:(intros items t1 t2 t NE F T0; apply (adv_eval_near m e f); assumption)
     a xmin xmax src tgt bs (2 ^ q) s eq_refl BO C MS MT ns _ _ E) as (r & P & EQ).
  { lia. }
  { rewrite to_samples_ok; [cbn [a_rows]; rewrite combine_map_fst_snd; reflexivity|apply andb_false_r|exact BO']. }
  { exact Ls. }
  { exact IT. }
  pose proof (Forall2_len _ _ _ P) as LP.
  assert (LI : length (items_of s (concat (map (fun r => repeat r (2 ^ q)) (a_rows src))) (option_map (fun t => concat (map (fun r => repeat r (2 ^ q)) (a_rows t))) tgt)) = length s).
  { assert (LC : forall t : arr Z, mask_ok (alen xmin) (wm_k m) t -> length (concat (map (fun r => repeat r (2 ^ q)) (a_rows t))) = (alen xmin * 2 ^ q)%nat).
    { intros t (Lt & _). rewrite (concat_len (2 ^ q)); [rewrite map_length; unfold alen in *; rewrite Lt; reflexivity|]. apply Forall_forall. intros r0 J. apply in_map_iff in J. destruct J as [r1 [<- _]]. apply repeat_length. }
    apply items_maps; [rewrite LC by exact MS; exact Ls|]. destruct tgt as [t|]; cbn [option_map]; [|exact I]. rewrite !LC by assumption. reflexivity. }
  rewrite LI, Ls in LP.
  destruct (1 <? 2 ^ q)%nat eqn:LT; [|apply Nat.ltb_ge in LT; lia].
  rewrite (reduce_split_eq row_max (alen xmin) (2 ^ q)) in EQ.
  2:{ exact B0. } 2:{ lia. } 2:{ rewrite map_length. lia. }
  2:{ apply Forall_forall. intros x I. apply in_map_iff in I. destruct I as [v [<- _]]. reflexivity. }
  cbn [bind a_rows] in EQ.
  assert (CC : concat (map (fun v : R => [v]) r) = r) by (clear; induction r as [|v r IH]; cbn; [reflexivity|rewrite IH; reflexivity]).
  rewrite CC in EQ.
  assert (CM : forall l : list (list R), concat (map (fun x => [row_max x]) l) = map row_max l) by (clear; induction l as [|v l IH]; cbn; [reflexivity|rewrite IH; reflexivity]).
  rewrite CM in EQ. eexists. split; [exact EQ|]. rewrite map_length, chunks_length. split; [reflexivity|].
  intros b z Hb Z.
  assert (G : forall t s, (t < wm_k m)%nat -> (s < wm_k m)%nat -> pair_of src tgt b t s -> f z t - f z s <= nth b (map row_max (chunks (alen xmin) (2 ^ q) r)) 0 + 2 * e).
  { intros t s0 Ht Hs PR. rewrite (nth_indep _ 0 (row_max [])) by (rewrite map_length, chunks_length; exact Hb). rewrite map_nth.
    destruct (refined_covers (wm_n m) q xmin xmax b BO C Hb) as [[S CV] Lb]. destruct (CV z Z) as [p [I Pz]]. rewrite Forall_forall in S.
    apply In_nth with (d := ([], [])) in I. destruct I as [i [Li Ep]]. rewrite Lb in Li.
    pose proof (Forall2_nth _ _ _ (b * 2 ^ q + i) d_item 0 P ltac:(rewrite LI, Ls; nia)) as SC.
    rewrite (item_nth _ src tgt (2 ^ q) b i (alen xmin) (wm_k m)) in SC by assumption. rewrite NT, Ep in SC by assumption.
    eapply Rle_trans.
    - apply (score_near m e f (p, row_of src tgt b) (nth (b * 2 ^ q + i) r 0)) with (z := z) (t := t) (s := s0); try assumption.
      + apply (SO b); [exact Hb|]. apply S. rewrite <- Ep. apply nth_In. rewrite Lb; exact Li.
      + apply row_pair_of. exact PR.
    - apply Rplus_le_compat_r. apply row_max_ge. rewrite <- (chunks_nth (alen xmin) (2 ^ q)) by assumption. apply nth_In.
      pose proof (chunks_rows (alen xmin) (2 ^ q) r ltac:(lia)) as CR. rewrite Forall_forall in CR.
      rewrite CR; [exact Li|]. apply nth_In. rewrite chunks_length. exact Hb. }
  split; [exact G|]. intros NEG t s0 Ht Hs PR. specialize (G t s0 Ht Hs PR). lra.
Qed.

Lemma range_sample_near : forall m e f p, near_on m e f p -> exists u l, range_sample m p = Ok (u, l) /\
  forall z j, in_sample (wm_n m) p z -> (j < wm_k m)%nat -> nth j l 0 - e <= f z j <= nth j u 0 + e.
Proof.
  intros m e f p (mode & ts & M & P & V). unfold range_sample. rewrite P. cbn [bind]. unfold wmode in M.
  destruct (wm_ibp m), (wm_affine m); inversion M; subst mode; clear M.
  - destruct ts as [|x [|u [|wu [|bu [|l [|wl [|bl [|]]]]]]]]; try contradiction. destruct V as (_ & C & A).
    eexists _, _. split; [reflexivity|]. intros z j Z J. rewrite !nth_tab by exact J. specialize (C z j Z J). specialize (A z j Z J). unfold aff, dot in A.
    pose proof (box_up_sound (wm_n m) _ _ (fun i => wu i j) (bu 0%nat j) z Z) as U.
    pose proof (box_low_sound (wm_n m) _ _ (fun i => wl i j) (bl 0%nat j) z Z) as W. cbn beta in U, W. unfold lvec in U, W.
    unfold Rmax, Rmin. split; destruct Rle_dec; lra.
  - destruct ts as [|u [|l [|]]]; try contradiction.
    eexists _, _. split; [reflexivity|]. intros z j Z J. rewrite !nth_tab by exact J. exact (V z j Z J).
  - destruct ts as [|x [|wu [|bu [|wl [|bl [|]]]]]]; try contradiction. destruct V as (_ & A).
    eexists _, _. split; [reflexivity|]. intros z j Z J. rewrite !nth_tab by exact J. specialize (A z j Z J). unfold aff, dot in A.
    pose proof (box_up_sound (wm_n m) _ _ (fun i => wu i j) (bu 0%nat j) z Z) as U.
    pose proof (box_low_sound (wm_n m) _ _ (fun i => wl i j) (bl 0%nat j) z Z) as W. cbn beta in U, W. unfold lvec in U, W. lra.
Qed.

(** ** Clones *)
Definition all_piecewise (net : network) : Prop := forall i L ps, nth_error net i = Some (Some L, ps) -> nl_piecewise L.

Lemma converted_near : forall ke D m mode final fwd bwd n net o v z,
  0 < ke -> (0 < n)%nat -> norm_ok D -> net_ok n net -> net_value net v -> single_output net o ->
  clone_fits D m mode final fwd bwd net -> all_piecewise net ->
  exists ts, converted ke D m mode final fwd bwd n net o z = Ok ts /\ near D final (in_dom D n z) n (net_dim n net o) (net_slack net * ke) (v o) ts.
Proof.
  intros ke D m mode final fwd bwd n net o v z Hke Hn HD Hnet Hv Ho Hf Hpw.
  assert (Hl : length (seq 0 (length net)) = length net) by apply seq_length.
  assert (Hd : NoDup (seq 0 (length net))) by apply seq_NoDup.
  unfold converted. destruct m; cbn [get_direction clone_fits] in *.
  - destruct Hf as [Hb HB]. apply net_clone_crown_near; auto.
  - destruct Hf as (Hb & HB & HF). apply net_clone_crown_forward_near; auto.
  - destruct Hf as (Hb & HB & HF). apply net_clone_crown_forward_near; auto.
  - destruct Hf as (Hb & HB & HF). apply net_clone_crown_forward_near; auto.
  - destruct Hf as [Hb HF]. apply net_clone_near; auto.
  - destruct Hf as [Hb HF]. apply net_clone_near; auto.
  - destruct Hf as [Hb HF]. apply net_clone_near; auto.
Qed.

(** what the method asks of the layers: clone_ready without its condition on the values *)
Definition clone_set (D : domain) (a : clone_args) (net : network) : Prop :=
  exists m mode fi fa, args_domain a = D /\ clone_flags (ca_method a) (ca_ibp a) (ca_affine a) = Ok (m, mode, (fi, fa)) /\ final_some fi fa /\
    clone_fits D m mode (get_mode fi fa) (ca_fwd a) (ca_bwd a) net /\ all_piecewise net.

Lemma clone_near : forall ke a n out net o v D, net_facts ke n out net o v -> norm_ok D -> clone_set D a net ->
  exists c, clone ke a n out net o = Ok c /\ wm_domain c = D /\ wm_bb c = false /\ wm_n c = n /\ wm_out c = out /\
    forall z, exists mode ts, wmode c = Some mode /\ wm_predict c (wm_domain c) z None = Ok ts /\
      near D mode (in_dom D n z) (wm_n c) (wm_k c) (net_slack net * ke) (v o) ts.
Proof.
  intros ke a n out net o v D (Hke & Hn & Hnet & Hv & Ho & Hout) HD (m & mode & fi & fa & Ha & Hfl & Hfi & Hfit & Hpw).
  pose proof (clone_value ke a n out net o m mode fi fa Hfl) as E. eexists. split; [exact E|]. rewrite Ha in *. unfold wm_k, wmode. cbn [wm_domain wm_bb wm_n wm_out wm_ibp wm_affine wm_predict].
  repeat split. intros z. destruct (converted_near ke D m mode (get_mode fi fa) (ca_fwd a) (ca_bwd a) n net o v z Hke Hn HD Hnet Hv Ho Hfit Hpw) as (ts & Et & V).
  exists (get_mode fi fa), ts. split; [exact (final_mode fi fa Hfi)|]. rewrite domains_same. split; [exact Et|]. rewrite Hout. exact V.
Qed.

Lemma clone_near_on : forall ke a n out net o v, net_facts ke n out net o v -> clone_set Box a net ->
  exists c, clone ke a n out net o = Ok c /\ is_box (wm_domain c) = true /\ wm_bb c = false /\ wm_n c = n /\ wm_out c = out /\ forall p, near_on c (net_slack net * ke) (v o) p.
Proof.
  intros ke a n out net o v NF CS. destruct (clone_near ke a n out net o v Box NF I CS) as (c & E & Ed & Eb & En & Eo & H).
  exists c. split; [exact E|]. rewrite Ed. split; [reflexivity|]. split; [exact Eb|]. split; [exact En|]. split; [exact Eo|].
  intros p. destruct (H (ztensor p)) as (mode & ts & M & P & V). exists mode, ts. split; [exact M|]. split; [exact P|]. rewrite En in *. exact V.
Qed.

(** a score below the margin 2 net_slack epsilon certifies the box *)
Theorem net_adv_box_near : forall ke a n out net o v xmin xmax src tgt bs ns,
  net_facts ke n out net o v -> clone_set Box a net ->
  (0 < prodn out)%nat -> boxes_ok n xmin xmax -> consistent n xmin xmax -> mask_ok (alen xmin) (prodn out) src -> mask_opt (alen xmin) (prodn out) tgt ->
  (ns <= 1)%Z \/ a_tail xmin = [n] ->
  exists c r, clone ke a n out net o = Ok c /\ get_adv_box (Keras c) xmin xmax (LArr src) (option_map LArr tgt) bs ns = Ok r /\ length r = alen xmin /\
    forall b y, (b < alen xmin)%nat -> in_sample n (the_box xmin xmax b) y ->
      (forall t s, (t < prodn out)%nat -> (s < prodn out)%nat -> pair_of src tgt b t s -> v o y t - v o y s <= nth b r 0 + 2 * (net_slack net * ke)) /\
      (nth b r 0 < - (2 * (net_slack net * ke)) -> no_attack (prodn out) (pair_of src tgt b) (v o) y).
Proof.
  intros ke a n out net o v xmin xmax src tgt bs ns NF CS K BO C M1 M2 NS.
  destruct (clone_near_on ke a n out net o v NF CS) as (c & E & Ed & Eb & En & Eo & S).
  assert (Ek : wm_k c = prodn out) by (unfold wm_k; rewrite Eo; reflexivity).
  assert (AA : adv_args (Keras c) xmin xmax src tgt) by (unfold adv_args; cbn [the_model]; rewrite Ek, En; repeat split; auto; try apply BO; apply M1).
  exists c. destruct (Z_le_gt_dec ns 1) as [Hs|Hs].
  - destruct (adv_box_near (Keras c) (net_slack net * ke) (v o) xmin xmax src tgt bs ns AA Eb Hs) as (r & Er & Lr & H); [intros b _; apply S|].
    exists r. cbn [the_model] in H. rewrite Ek, En in H. auto.
  - destruct NS as [NS|NS]; [lia|].
    destruct (adv_box_sub_near (Keras c) (net_slack net * ke) (v o) xmin xmax src tgt bs ns AA Eb ltac:(lia)) as (r & Er & Lr & H); [cbn [the_model]; rewrite En; exact NS|intros b p _ _; apply S|].
    exists r. cbn [the_model] in H. rewrite Ek, En in H. auto.
Qed.

Theorem net_range_box_near : forall ke a n out net o v xmin xmax bs ns,
  net_facts ke n out net o v -> clone_set Box a net -> boxes_ok n xmin xmax -> consistent n xmin xmax -> small ns ->
  exists c u l, clone ke a n out net o = Ok c /\ get_range_box (Keras c) xmin xmax bs ns = Ok (u, l) /\ a_tail u = out /\ a_tail l = out /\ alen u = alen xmin /\ alen l = alen xmin /\
    forall b y j, (b < alen xmin)%nat -> in_sample n (the_box xmin xmax b) y -> (j < prodn out)%nat ->
      cell l b j - net_slack net * ke <= v o y j <= cell u b j + net_slack net * ke.
Proof.
  intros ke a n out net o v xmin xmax bs ns NF CS BO C NS.
  destruct (clone_near_on ke a n out net o v NF CS) as (c & E & Ed & Eb & En & Eo & S).
  assert (Ek : wm_k c = prodn out) by (unfold wm_k; rewrite Eo; reflexivity).
  destruct (range_box_samples (Keras c) xmin xmax bs ns Ed Eb) as (u & l & Er & Tu & Tl & Lu & Ll & H); cbn [the_model]; rewrite ?En; auto.
  - intros b _. destruct (range_sample_near c _ _ _ (S (the_box xmin xmax b))) as (u & l & Q & _). eauto.
  - cbn [the_model] in *. rewrite Eo in *. exists c, u, l. repeat (split; [assumption|]). intros b y j Hb Hy Hj.
    destruct (range_sample_near c _ _ _ (S (the_box xmin xmax b))) as (u' & l' & Q & HQ). rewrite (H b Hb) in Q. injection Q as <- <-.
    unfold cell. apply HQ; [rewrite En; exact Hy|rewrite Ek; exact Hj].
Qed.

Lemma near_length : forall D mode S n m e f ts, near D mode S n m e f ts -> length ts = spec_nb mode false.
Proof.
  intros D mode S n m e f ts H. destruct mode.
  - destruct ts as [|u [|l [|]]]; try contradiction. reflexivity.
  - destruct ts as [|x [|wu [|bu [|wl [|bl [|]]]]]]; try contradiction. reflexivity.
  - destruct ts as [|x [|u [|wu [|bu [|l [|wl [|bl [|]]]]]]]]; try contradiction. reflexivity.
Qed.

Theorem net_range_noise_near : forall ke a n out net o v x eps p bs,
  net_facts ke n out net o v -> 0 <= eps -> known_norm p -> points_ok n x -> clone_set (Ball eps p) a net ->
  exists c u l, clone ke a n out net o = Ok c /\ get_range_noise (Keras c) x eps p bs = Ok (u, l) /\ get_range_noise (Decomon c) x eps p bs = Ok (u, l) /\ alen u = alen x /\ alen l = alen x /\
    forall b j y, (b < alen x)%nat -> (j < prodn out)%nat -> in_ball n p eps (lvec (point x b)) y ->
      cell l b j - net_slack net * ke <= v o y j <= cell u b j + net_slack net * ke.
Proof.
  intros ke a n out net o v x eps p bs NF He Hp PO CS.
  destruct (clone_near ke a n out net o v (Ball eps p) NF (ball_norm eps p Hp) CS) as (c & E & Ed & Eb & En & Eo & S).
  assert (Ek : wm_k c = prodn out) by (unfold wm_k; rewrite Eo; reflexivity).
  assert (OU : forall b, exists mode ts, outputs c (point x b) mode ts /\ near (Ball eps p) mode (in_ball n p eps (lvec (point x b))) (wm_n c) (wm_k c) (net_slack net * ke) (v o) ts).
  { intros b. destruct (S (xtensor (point x b))) as (mode & ts & M & P & V). exists mode, ts. split; [|exact V].
    split; [exact M|]. split; [exact P|]. exists false. exact (near_length _ _ _ _ _ _ _ _ V). }
  destruct (range_noise_exact (Keras c) x eps p bs He Hp) as (u & l & Eu & Tu & Tl & Lu & Ll & H); cbn [with_domain]; auto.
  { rewrite En. exact PO. }
  { intros b _. destruct (OU b) as (mode & ts & O & _). eauto. }
  exists c, u, l. split; [exact E|]. split; [exact Eu|]. split; [|split; [exact Lu|split; [exact Ll|]]].
  - unfold get_range_noise in *. rewrite noise_model_again by assumption. cbn [noise_model bind] in Eu. exact Eu.
  - cbn [with_domain] in H. intros b j y Hb Hj Hy. destruct (OU b) as (mode & ts & O & V). specialize (H b j mode ts Hb ltac:(rewrite Ek; exact Hj) O). rewrite En, Ek in *.
    destruct mode; cbn [is_range] in H.
    + destruct ts as [|tu [|tl [|]]]; try contradiction. destruct H as [-> ->]. exact (V y j Hy Hj).
    + destruct ts as [|t0 [|wu [|bu [|wl [|bl [|]]]]]]; try contradiction. destruct H as [[A _] [B _]]. destruct V as [_ V]. specialize (A y Hy). specialize (B y Hy). cbn beta in A, B. specialize (V y j Hy Hj). lra.
    + destruct ts as [|t0 [|tu [|wu [|bu [|tl [|wl [|bl [|]]]]]]]]; try contradiction. destruct H as (a' & b' & [A _] & [B _] & -> & ->). destruct V as (_ & VC & V). specialize (A y Hy). specialize (B y Hy). cbn beta in A, B.
      specialize (V y j Hy Hj). specialize (VC y j Hy Hj). unfold Rmax, Rmin. split; destruct Rle_dec; lra.
Qed.

(** ** The default calls *)
Lemma default_set : forall net, blayers_ok plain_bopts net -> all_piecewise net -> clone_set Box default_args net.
Proof.
  intros net H F. exists CROWN, IBP, true, false. split; [reflexivity|]. split; [reflexivity|]. split; [reflexivity|]. split; [split; auto|exact F].
Qed.

Lemma noise_set : forall net eps p, 0 <= eps -> blayers_ok plain_bopts net -> layers_ok HYBRID plain_opts net -> all_piecewise net -> clone_set (Ball eps p) (noise_call eps p) net.
Proof.
  intros net eps p He HB HF F. exists CROWN_FORWARD_HYBRID, HYBRID, true, true. split; [cbn; rewrite Rmax_right by exact He; reflexivity|]. split; [reflexivity|]. split; [reflexivity|].
  split; [split; [discriminate|split; auto]|exact F].
Qed.

Theorem default_adv_near : forall ke n out net o v xmin xmax src tgt bs ns,
  net_facts ke n out net o v -> blayers_ok plain_bopts net -> all_piecewise net ->
  (0 < prodn out)%nat -> boxes_ok n xmin xmax -> consistent n xmin xmax -> mask_ok (alen xmin) (prodn out) src -> mask_opt (alen xmin) (prodn out) tgt ->
  (ns <= 1)%Z \/ a_tail xmin = [n] ->
  exists c r, clone ke default_args n out net o = Ok c /\ get_adv_box (Keras c) xmin xmax (LArr src) (option_map LArr tgt) bs ns = Ok r /\ length r = alen xmin /\
    forall b y, (b < alen xmin)%nat -> in_sample n (the_box xmin xmax b) y -> nth b r 0 < - (2 * (net_slack net * ke)) -> no_attack (prodn out) (pair_of src tgt b) (v o) y.
Proof.
  intros ke n out net o v xmin xmax src tgt bs ns NF HB HF K BO C M1 M2 NS.
  destruct (net_adv_box_near ke default_args n out net o v xmin xmax src tgt bs ns NF (default_set net HB HF) K BO C M1 M2 NS) as (c & r & E & Er & Lr & H).
  exists c, r. split; [exact E|]. split; [exact Er|]. split; [exact Lr|]. intros b y Hb Hy. exact (proj2 (H b y Hb Hy)).
Qed.

Theorem default_range_near : forall ke n out net o v xmin xmax bs ns,
  net_facts ke n out net o v -> blayers_ok plain_bopts net -> all_piecewise net -> boxes_ok n xmin xmax -> consistent n xmin xmax -> small ns ->
  exists c u l, clone ke default_args n out net o = Ok c /\ get_range_box (Keras c) xmin xmax bs ns = Ok (u, l) /\ a_tail u = out /\ a_tail l = out /\ alen u = alen xmin /\ alen l = alen xmin /\
    forall b y j, (b < alen xmin)%nat -> in_sample n (the_box xmin xmax b) y -> (j < prodn out)%nat ->
      cell l b j - net_slack net * ke <= v o y j <= cell u b j + net_slack net * ke.
Proof. intros. apply net_range_box_near; auto using default_set. Qed.

Theorem default_noise_near : forall ke n out net o v x eps p bs,
  net_facts ke n out net o v -> 0 <= eps -> known_norm p -> points_ok n x -> blayers_ok plain_bopts net -> layers_ok HYBRID plain_opts net -> all_piecewise net ->
  exists c u l, clone ke (noise_call eps p) n out net o = Ok c /\ get_range_noise (Keras c) x eps p bs = Ok (u, l) /\ alen u = alen x /\ alen l = alen x /\
    forall b j y, (b < alen x)%nat -> (j < prodn out)%nat -> in_ball n p eps (lvec (point x b)) y ->
      cell l b j - net_slack net * ke <= v o y j <= cell u b j + net_slack net * ke.
Proof.
  intros ke n out net o v x eps p bs NF He Hp PO HB HF Hpw.
  destruct (net_range_noise_near ke (noise_call eps p) n out net o v x eps p bs NF He Hp PO (noise_set net eps p He HB HF Hpw)) as (c & u & l & E & Eu & _ & R). exists c, u, l. auto.
Qed.
