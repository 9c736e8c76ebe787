(** Proofs about the completion of merged inputs (core.py:349-420). *)
From Coq Require Import Reals Lra Lia List Arith Bool.
From Verif Require Import RLib Spec M_Core P_Core.
Import ListNotations.
Local Open Scope R_scope.

Lemma set_nth_length : forall A (l : list A) i a, length (set_nth l i a) = length l.
Proof. induction l; destruct i; simpl; auto. Qed.

Lemma set_nth_same : forall A (l : list A) i a d, (i < length l)%nat -> nth i (set_nth l i a) d = a.
Proof. induction l; destruct i; simpl; intros; try lia; auto. apply IHl; lia. Qed.

Lemma set_nth_other : forall A (l : list A) i k a d, i <> k -> nth k (set_nth l i a) d = nth k l d.
Proof. induction l; destruct i, k; simpl; intros; try lia; auto. Qed.

Lemma nth_error_map_strided : forall (d : tensor) nb o (ls : list (list tensor)) i l,
  (o < nb)%nat -> (forall l, In l ls -> length l = nb) -> nth_error ls i = Some l ->
  nth_error (strided o nb (concat ls)) i = Some (nth o l d).
Proof.
  intros d nb o ls i l Ho H Hi. rewrite (strided_concat _ d) by auto.
  rewrite nth_error_map, Hi. reflexivity.
Qed.

Lemma strided_concat_length : forall A nb o (ls : list (list A)),
  (o < nb)%nat -> (forall l, In l ls -> length l = nb) ->
  length (strided o nb (concat ls)) = length ls.
Proof.
  intros A nb o ls Ho H. destruct ls as [|l q]; [reflexivity|].
  destruct l as [|a l]. { specialize (H [] (or_introl eq_refl)). simpl in H. lia. }
  rewrite (strided_concat A a) by auto. apply map_length.
Qed.

Lemma concat_length : forall A nb (ls : list (list A)),
  (forall l, In l ls -> length l = nb) -> length (concat ls) = (length ls * nb)%nat.
Proof.
  intros A nb ls H. induction ls as [|l q IH]; simpl; auto.
  rewrite app_length, (H l) by (left; auto). rewrite IH by (intros; apply H; right; auto). lia.
Qed.

Lemma nth_error_repeat' : forall A (a : A) k i, (i < k)%nat -> nth_error (repeat a k) i = Some a.
Proof. induction k; intros i H; [lia|]. destruct i; simpl; auto. apply IHk; lia. Qed.

(** the i-th input, as seen through the by-type lists, is [r] *)
Definition row_is (R : full (list tensor)) (i : nat) (r : full tensor) : Prop :=
  nth_error (f_x R) i = Some (f_x r) /\ nth_error (f_uc R) i = Some (f_uc r) /\
  nth_error (f_wu R) i = Some (f_wu r) /\ nth_error (f_bu R) i = Some (f_bu r) /\
  nth_error (f_lc R) i = Some (f_lc r) /\ nth_error (f_wl R) i = Some (f_wl r) /\
  nth_error (f_bl R) i = Some (f_bl r) /\ nth_error (f_h R) i = Some (f_h r) /\
  nth_error (f_g R) i = Some (f_g r).

Definition all_len (R : full (list tensor)) (k : nat) : Prop :=
  length (f_x R) = k /\ length (f_uc R) = k /\ length (f_wu R) = k /\ length (f_bu R) = k /\
  length (f_lc R) = k /\ length (f_wl R) = k /\ length (f_bl R) = k /\ length (f_h R) = k /\
  length (f_g R) = k.

(** before any completion, by-type slices are the transposition of the inputs *)
Lemma merge_slices : forall mode dc ls,
  (forall l, In l ls -> length l = spec_nb mode dc) ->
  all_len (deref (merge_store empty_tensor mode dc (concat ls)) (merge_refs mode dc)) (length ls) /\
  forall i l, nth_error ls i = Some l ->
    exists r, unpack empty_tensor mode dc l = Ok r /\
      row_is (deref (merge_store empty_tensor mode dc (concat ls)) (merge_refs mode dc)) i r.
Proof.
  intros mode dc ls H.
  pose proof (concat_length _ _ _ H) as Hc.
  assert (Hk : (length (concat ls) / nb_tensors mode dc)%nat = length ls).
  { rewrite Hc, nb_tensors_spec. apply Nat.div_mul. destruct mode, dc; discriminate. }
  assert (Hnb : nb_tensors mode dc = spec_nb mode dc) by apply nb_tensors_spec.
  split.
  - unfold all_len. destruct mode, dc; cbn -[strided concat Nat.div] in *;
      rewrite ?Hk, ?repeat_length;
      repeat split; try (apply strided_concat_length; [lia|auto]); auto.
  - intros i l Hi.
    assert (Hl : length l = spec_nb mode dc) by (apply H; eapply nth_error_In; eauto).
    assert (Hik : (i < length ls)%nat) by (apply nth_error_Some; congruence).
    pose proof (fun o Ho => nth_error_map_strided empty_tensor (spec_nb mode dc) o ls i l Ho H Hi) as HS.
    destruct mode, dc; cbn -[strided concat Nat.div] in *;
      do 10 (try (destruct l as [|? l]; [discriminate Hl|])); try discriminate Hl;
      (eexists; split; [reflexivity|]); unfold row_is; cbn -[strided concat Nat.div];
      rewrite ?Hk, ?(nth_error_repeat' _ empty_tensor _ _ Hik), ?HS by lia;
      repeat split; reflexivity.
Qed.

(** the loop in hybrid mode *)
Definition href := merge_refs HYBRID.

Lemma sread_swrite_same : forall (s : store tensor) o i a, (o < length s)%nat ->
  sread (swrite s o i a) o = set_nth (sread s o) i a.
Proof. intros. unfold sread, swrite. apply set_nth_same. auto. Qed.

Lemma sread_swrite_other : forall (s : store tensor) o o' i a, o <> o' ->
  sread (swrite s o i a) o' = sread s o'.
Proof. intros. unfold sread, swrite. apply set_nth_other. auto. Qed.

Lemma swrite_length : forall (s : store tensor) o i a, length (swrite s o i a) = length s.
Proof. intros. apply set_nth_length. Qed.

(** effect of the loop on one index, as a completion of the row *)
Lemma merge_loop_hybrid : forall D n dc is s,
  norm_ok D -> length s = 10%nat -> NoDup is ->
  (forall o, (1 <= o <= 7)%nat -> length (sread s o) = length (sread s 1)) ->
  (forall i, In i is -> (i < length (sread s 1))%nat) ->
  exists s', merge_loop (mk_spec dc HYBRID D n) (merge_refs HYBRID dc) s is = Ok s' /\
    length s' = 10%nat /\
    (forall o, o <> 2%nat -> o <> 5%nat -> sread s' o = sread s o) /\
    (forall o, length (sread s' o) = length (sread s o)) /\
    (forall i d, ~ In i is -> nth i (sread s' 2) d = nth i (sread s 2) d /\ nth i (sread s' 5) d = nth i (sread s 5) d) /\
    (forall i, In i is -> exists ua la,
        get_upper D n false (nth i (sread s 1) empty_tensor) (nth i (sread s 3) empty_tensor) (nth i (sread s 4) empty_tensor 0%nat) no_kw = Ok ua /\
        get_lower D n false (nth i (sread s 1) empty_tensor) (nth i (sread s 6) empty_tensor) (nth i (sread s 7) empty_tensor 0%nat) no_kw = Ok la /\
        nth i (sread s' 2) empty_tensor = vt (fun j => Rmin (nth i (sread s 2) empty_tensor 0%nat j) (ua j)) /\
        nth i (sread s' 5) empty_tensor = vt (fun j => Rmax (nth i (sread s 5) empty_tensor 0%nat j) (la j))).
Proof.
  intros D n dc is. induction is as [|i is IH]; intros s Hd Hs Hnd Hlen Hin.
  - exists s. cbn. repeat split; auto; contradiction.
  - inversion Hnd as [|? ? Hni Hnd']; subst.
    cbn [merge_loop]. unfold merge_step. cbn [sp_dom sp_n sp_mode mode_eqb].
    replace (f_x (merge_refs HYBRID dc)) with 1%nat by (destruct dc; auto).
    replace (f_uc (merge_refs HYBRID dc)) with 2%nat by (destruct dc; auto).
    replace (f_wu (merge_refs HYBRID dc)) with 3%nat by (destruct dc; auto).
    replace (f_bu (merge_refs HYBRID dc)) with 4%nat by (destruct dc; auto).
    replace (f_lc (merge_refs HYBRID dc)) with 5%nat by (destruct dc; auto).
    replace (f_wl (merge_refs HYBRID dc)) with 6%nat by (destruct dc; auto).
    replace (f_bl (merge_refs HYBRID dc)) with 7%nat by (destruct dc; auto).
    destruct (get_upper_ok D n (nth i (sread s 1) empty_tensor) (nth i (sread s 3) empty_tensor) (nth i (sread s 4) empty_tensor 0%nat) Hd) as [ua Eu].
    destruct (get_lower_ok D n (nth i (sread s 1) empty_tensor) (nth i (sread s 6) empty_tensor) (nth i (sread s 7) empty_tensor 0%nat) Hd) as [la El].
    rewrite Eu, El. cbn [bind].
    set (s1 := swrite s 2 i _).
    assert (H5 : sread s1 5 = sread s 5) by (apply sread_swrite_other; discriminate).
    rewrite H5.
    set (s2 := swrite s1 5 i _).
    assert (Hoth : forall o, o <> 2%nat -> o <> 5%nat -> sread s2 o = sread s o).
    { intros o H2 H3. unfold s2. rewrite sread_swrite_other by auto. unfold s1. rewrite sread_swrite_other by auto. auto. }
    assert (R2 : sread s2 2 = set_nth (sread s 2) i (vt (fun j => Rmin (nth i (sread s 2) empty_tensor 0%nat j) (ua j)))).
    { unfold s2. rewrite sread_swrite_other by discriminate. unfold s1. apply sread_swrite_same. lia. }
    assert (R5 : sread s2 5 = set_nth (sread s 5) i (vt (fun j => Rmax (nth i (sread s 5) empty_tensor 0%nat j) (la j)))).
    { unfold s2. rewrite sread_swrite_same; [rewrite H5; auto|]. unfold s1. rewrite swrite_length. lia. }
    assert (Hl2 : forall o, length (sread s2 o) = length (sread s o)).
    { intro o. destruct (Nat.eq_dec o 2) as [->|]; [rewrite R2; apply set_nth_length|].
      destruct (Nat.eq_dec o 5) as [->|]; [rewrite R5; apply set_nth_length|]. rewrite Hoth; auto. }
    destruct (IH s2) as (s' & E' & Hs' & Ho' & Hl' & Hn' & Hi'); auto.
    { unfold s2, s1. rewrite !swrite_length. auto. }
    { intros o Ho. rewrite !Hl2. auto. }
    { intros k Hk. rewrite Hl2. apply Hin. right; auto. }
    exists s'. split; [exact E'|]. split; auto. split.
    { intros o A B. rewrite Ho' by auto. auto. }
    split. { intro o. rewrite Hl', Hl2. auto. }
    split.
    { intros k d Hk. destruct (Hn' k d) as [A B]; [intro C; apply Hk; right; auto|].
      rewrite A, B, R2, R5. rewrite !set_nth_other; auto; intro; subst; apply Hk; left; auto. }
    intros k Hk. destruct (Nat.eq_dec k i) as [->|Hki].
    + exists ua, la. split; auto. split; auto.
      destruct (Hn' i empty_tensor Hni) as [A B]. rewrite A, B, R2, R5.
      assert (i < length (sread s 1))%nat by (apply Hin; left; auto).
      rewrite !set_nth_same by (rewrite Hlen by lia; auto). auto.
    + destruct Hk as [->|Hk]; [congruence|].
      destruct (Hi' k Hk) as (ua' & la' & A & B & C & E).
      rewrite (Hoth 1%nat), (Hoth 3%nat), (Hoth 4%nat) in A by discriminate.
      rewrite (Hoth 1%nat), (Hoth 6%nat), (Hoth 7%nat) in B by discriminate.
      rewrite R2, set_nth_other in C by auto. rewrite R5, set_nth_other in E by auto.
      exists ua', la'. repeat split; auto.
Qed.

Lemma nth_error_nth_d : forall A (l : list A) i d a, nth_error l i = Some a -> nth i l d = a.
Proof. intros. apply nth_error_nth. auto. Qed.

Lemma nth_nth_error : forall A (l : list A) i d, (i < length l)%nat -> nth_error l i = Some (nth i l d).
Proof. intros. apply nth_error_nth'. auto. Qed.

Theorem merge_by_type_ok : forall sp ca ti ls,
  norm_ok (sp_dom sp) ->
  (forall l, In l ls -> length l = spec_nb (sp_mode sp) (sp_dc sp)) ->
  (sp_mode sp = AFFINE -> ca = false) ->
  exists R, get_fullinputs_by_type sp ca ti (concat ls) = Ok R /\ all_len R (length ls) /\
    forall i l, nth_error ls i = Some l ->
      exists r, get_fullinputs sp ca ti l = Ok r /\ row_is R i r.
Proof.
  intros [dc mode D n] ca ti ls Hd H Hca. cbn [sp_dc sp_mode sp_dom sp_n] in *.
  destruct (merge_slices mode dc ls H) as [HL HR].
  unfold get_fullinputs_by_type, get_fullinputs, complete. cbn [sp_dc sp_mode sp_dom sp_n].
  destruct ((ca && mode_eqb mode AFFINE) || (ti && mode_eqb mode HYBRID))%bool eqn:Eb.
  - assert (Hm : mode = HYBRID).
    { destruct mode; auto; cbn in Eb.
      - rewrite !andb_false_r in Eb. discriminate.
      - rewrite Hca in Eb by auto. rewrite andb_false_r in Eb. discriminate. }
    subst mode. cbn [mode_eqb] in *.
    set (s := merge_store empty_tensor HYBRID dc (concat ls)) in *.
    set (refs := merge_refs HYBRID dc) in *.
    destruct HL as (L1 & L2 & L3 & L4 & L5 & L6 & L7 & L8 & L9).
    assert (Hr : refs = (mk_full 1 2 3 4 5 6 7 (if dc then 8 else 0) (if dc then 9 else 0))%nat)
      by (destruct dc; auto).
    rewrite Hr in *. cbn [f_x f_uc f_wu f_bu f_lc f_wl f_bl f_h f_g deref] in *.
    destruct (merge_loop_hybrid D n dc (seq 0 (length (sread s 1))) s Hd) as (s' & E' & Hs' & Ho' & Hl' & _ & Hi').
    + destruct dc; reflexivity.
    + apply seq_NoDup.
    + intros o Ho. rewrite L1. assert (Ho7 : (o = 1 \/ o = 2 \/ o = 3 \/ o = 4 \/ o = 5 \/ o = 6 \/ o = 7)%nat) by lia.
      destruct Ho7 as [->|[->|[->|[->|[->|[->| ->]]]]]]; auto.
    + intros i Hi. apply in_seq in Hi. lia.
    + replace (merge_refs HYBRID dc) with ((mk_full 1 2 3 4 5 6 7 (if dc then 8 else 0) (if dc then 9 else 0))%nat) in E' by (destruct dc; auto).
      rewrite E'. cbn [bind]. eexists. split; [reflexivity|]. split.
      * unfold all_len. cbn [f_x f_uc f_wu f_bu f_lc f_wl f_bl f_h f_g deref]. rewrite !Hl'. repeat split; auto.
      * intros i l Hil. destruct (HR i l Hil) as (r & Er & Q). rewrite Er. cbn [bind].
        assert (Hik : (i < length ls)%nat) by (apply nth_error_Some; congruence).
        unfold row_is in Q. cbn [f_x f_uc f_wu f_bu f_lc f_wl f_bl f_h f_g deref] in Q.
        destruct Q as (Q1 & Q2 & Q3 & Q4 & Q5 & Q6 & Q7 & Q8 & Q9).
        destruct (Hi' i) as (ua & la & A & B & C & E). { apply in_seq. lia. }
        rewrite (nth_error_nth_d _ _ _ empty_tensor _ Q1) in A, B.
        rewrite (nth_error_nth_d _ _ _ empty_tensor _ Q3), (nth_error_nth_d _ _ _ empty_tensor _ Q4) in A.
        rewrite (nth_error_nth_d _ _ _ empty_tensor _ Q6), (nth_error_nth_d _ _ _ empty_tensor _ Q7) in B.
        rewrite (nth_error_nth_d _ _ _ empty_tensor _ Q2) in C.
        rewrite (nth_error_nth_d _ _ _ empty_tensor _ Q5) in E.
        rewrite A, B. cbn [bind]. eexists. split; [reflexivity|].
        unfold row_is. cbn [f_x f_uc f_wu f_bu f_lc f_wl f_bl f_h f_g deref].
        rewrite (Ho' 1%nat), (Ho' 3%nat), (Ho' 4%nat), (Ho' 6%nat), (Ho' 7%nat) by discriminate.
        rewrite (Ho' (if dc then 8 else 0)%nat), (Ho' (if dc then 9 else 0)%nat) by (destruct dc; discriminate).
        repeat split; auto.
        -- rewrite (nth_nth_error _ _ _ empty_tensor) by (rewrite Hl'; lia). rewrite C. auto.
        -- rewrite (nth_nth_error _ _ _ empty_tensor) by (rewrite Hl'; lia). rewrite E. auto.
  - eexists. split; [reflexivity|]. split; auto. intros i l Hil.
    destruct (HR i l Hil) as (r & Er & Q). exists r. rewrite Er. cbn. auto.
Qed.

(** affine mode with compute_ibp_from_affine: the upper and lower lists are the same object *)
Lemma merge_by_type_affine_alias : forall D n dc ti ts R,
  get_fullinputs_by_type (mk_spec dc AFFINE D n) true ti ts = Ok R -> f_uc R = f_lc R.
Proof.
  intros D n dc ti ts R H. unfold get_fullinputs_by_type in H. cbn -[merge_loop merge_store] in H.
  destruct (merge_loop _ _ _ _) as [s|]; [|discriminate].
  cbn in H. injection H as <-. reflexivity.
Qed.
