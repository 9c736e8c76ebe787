(** Proofs about the copy and the sharing of weights (C45) and the batched identity (C62) *)
From Coq Require Import String Ascii Reals List Arith Bool ZArith Lia Lra Permutation.
From Verif Require Import RLib Spec Spec_Layers M_Core M_Utils M_MergeLayers M_Ops M_Layers M_Convert M_State Spec_State P_State.
Import ListNotations.
Local Open Scope nat_scope.

(** ** reset_layer *)
Lemma index_of_spec : forall v l, In v l -> exists i, index_of v l = Some i /\ nth_error l i = Some v /\ i < length l.
Proof.
  intros v l. induction l as [|w q IH]; intros H; [destruct H|]. cbn. destruct (Nat.eqb_spec w v) as [->|Hne].
  - exists 0. repeat split; cbn; auto with arith.
  - destruct H as [H|H]; [congruence|]. destruct (IH H) as (i & E & N & L). exists (S i). rewrite E. cbn. repeat split; auto with arith.
Qed.
Lemma index_of_none : forall v l, index_of v l = None <-> ~ In v l.
Proof.
  intros v l. induction l as [|w q IH]; cbn; [tauto|]. destruct (Nat.eqb_spec w v) as [->|Hne].
  - split; [discriminate|tauto].
  - destruct (index_of v q); cbn; split; try discriminate; intros H; try tauto; exfalso; apply H; right; apply IH in H || idtac.
    all: try (destruct IH as [IH1 IH2]; destruct (in_dec Nat.eq_dec v q) as [I|I]; [exact I|exfalso; specialize (IH2 I); discriminate]).
Qed.
Lemma set_nth_map : forall (val : nat -> tval) v p l i, NoDup l -> index_of v l = Some i -> set_nth i p (map val l) = map (upd val v p) l.
Proof.
  intros val v p l. induction l as [|w q IH]; intros i ND H; [discriminate|]. cbn in H. inversion ND; subst. destruct (Nat.eqb_spec w v) as [->|Hne].
  - inversion H; subst. unfold set_nth. cbn. rewrite upd_same. f_equal. apply map_ext_in. intros a Ha. rewrite upd_other; [reflexivity|]. intros ->. contradiction.
  - destruct (index_of v q) as [j|] eqn:E; [|discriminate]. inversion H; subst. cbn [map]. unfold set_nth in *. cbn [firstn skipn app].
    rewrite upd_other by assumption. f_equal. exact (IH j H3 eq_refl).
Qed.
Lemma nth_error_map' : forall A B (f : A -> B) l i a, nth_error l i = Some a -> nth_error (map f l) i = Some (f a).
Proof. intros A B f. induction l as [|b q IH]; intros [|i] a H; cbn in *; try discriminate; [inversion H; reflexivity|apply IH; exact H]. Qed.
Lemma shape_eqb_eq : forall a b, shape_eqb a b = true <-> a = b.
Proof. intros a b. unfold shape_eqb. destruct (list_eq_dec _ _ _); split; auto; discriminate. Qed.
Lemma set_weights_ok : forall vs st val, NoDup vs -> (forall v, In v vs -> tv_shape (st v) = tv_shape (val v)) ->
  exists st', set_weights st vs (map val vs) = Ok st' /\ forall v, st' v = if in_dec Nat.eq_dec v vs then val v else st v.
Proof.
  induction vs as [|a q IH]; intros st val ND H; cbn [set_weights map].
  - exists st. split; [reflexivity|]. intros v. destruct (in_dec _ _ _) as [[]|]; reflexivity.
  - inversion ND; subst. rewrite (proj2 (shape_eqb_eq _ _) (H a (or_introl eq_refl))).
    destruct (IH (upd st a (val a)) val H3) as (st' & E & F).
    { intros v Hv. rewrite upd_other; [apply H; right; exact Hv|]. intros ->. contradiction. }
    exists st'. split; [exact E|]. intros v. rewrite F. destruct (in_dec Nat.eq_dec v q) as [I|I], (in_dec Nat.eq_dec v (a :: q)) as [J|J]; auto.
    + exfalso. apply J. right; exact I.
    + destruct J as [->|J]; [apply upd_same|contradiction].
    + apply upd_other. intros ->. apply J. left; reflexivity.
Qed.
Definition named_vals (st : store) (new orig : wlayer) (names : list string) (val : nat -> tval) (v : nat) : tval :=
  match last_name new v names with Some n => st (ov orig n) | None => val v end.
Lemma reset_fold : forall st new orig names val, NoDup (wl_weights new) ->
  (forall n, In n names -> has_weight orig n /\ has_weight new n) ->
  foldR (fun ps name =>
                 j <- get_weight_index_from_name orig name ;
                 i <- get_weight_index_from_name new name ;
                 match nth_error (map st (wl_weights orig)) j with Some p => Ok (set_nth i p ps) | None => Err IndexError end)
              names (map val (wl_weights new)) = Ok (map (named_vals st new orig names val) (wl_weights new)).
Proof.
  intros st new orig names. induction names as [|n q IH]; intros val ND H; [reflexivity|]. cbn [foldR].
  destruct (H n (or_introl eq_refl)) as [(w & Aw & Iw) (v & Av & Iv)].
  destruct (index_of_spec w (wl_weights orig) Iw) as (j & Ej & Nj & _). destruct (index_of_spec v (wl_weights new) Iv) as (i & Ei & _ & _).
  unfold get_weight_index_from_name, get_weight_index. rewrite Aw, Av, Ej, Ei. cbn [bind]. rewrite (nth_error_map' _ _ st _ _ _ Nj).
  cbn [bind]. rewrite (set_nth_map val v (st w) (wl_weights new) i ND Ei).
  unfold get_weight_index_from_name, get_weight_index in IH. rewrite IH; [|exact ND|intros m Hm; apply H; right; exact Hm].
  f_equal. apply map_ext. intros a. unfold named_vals. cbn [last_name]. destruct (last_name new a q); [reflexivity|]. rewrite Av.
  destruct (Nat.eqb_spec v a) as [->|Hne]; [rewrite upd_same; unfold ov; rewrite Aw; reflexivity|rewrite upd_other; auto].
Qed.
Lemma last_name_in : forall l v names n, last_name l v names = Some n -> In n names /\ wl_attr l n = Some v.
Proof.
  intros l v names. induction names as [|m q IH]; intros n H; [discriminate|]. cbn in H. destruct (last_name l v q) as [k|] eqn:E.
  - inversion H; subst. destruct (IH n eq_refl). split; [right|]; assumption.
  - destruct (wl_attr l m) as [w|] eqn:A; [|discriminate]. destruct (Nat.eqb_spec w v) as [->|]; [|discriminate]. inversion H; subst. split; [left; reflexivity|exact A].
Qed.
Lemma last_name_some : forall l v names n, In n names -> wl_attr l n = Some v -> exists m, last_name l v names = Some m.
Proof.
  intros l v names. induction names as [|m q IH]; intros n H A; [destruct H|]. cbn. destruct (last_name l v q) eqn:E; [eauto|].
  destruct H as [->|H]; [rewrite A, Nat.eqb_refl; eauto|]. destruct (IH n H A). congruence.
Qed.
Lemma reset_ok : forall st new orig names, wl_built orig = true -> wl_built new = true -> NoDup (wl_weights new) ->
  (forall n, In n names -> has_weight orig n /\ has_weight new n) ->
  (forall n, In n names -> tv_shape (st (ov new n)) = tv_shape (st (ov orig n))) ->
  exists st', reset_layer st new orig names = Ok st' /\
    (forall v n, last_name new v names = Some n -> st' v = st (ov orig n)) /\
    (forall v, (forall n, In n names -> wl_attr new n <> Some v) -> st' v = st v).
Proof.
  intros st new orig names B1 B2 ND H Sh. unfold reset_layer. rewrite B1, B2. cbn [negb].
  rewrite (reset_fold st new orig names st ND H). cbn [bind].
  destruct (set_weights_ok (wl_weights new) st (named_vals st new orig names st) ND) as (st' & E & F).
  { intros v _. unfold named_vals. destruct (last_name new v names) as [n|] eqn:L; [|reflexivity]. destruct (last_name_in _ _ _ _ L) as [I A].
    rewrite <- (Sh n I). unfold ov. rewrite A. reflexivity. }
  exists st'. split; [exact E|]. split.
  - intros v n L. rewrite F. destruct (last_name_in _ _ _ _ L) as [I A]. destruct (H n I) as [_ (w & Aw & Iw)]. rewrite A in Aw. inversion Aw; subst.
    destruct (in_dec _ _ _) as [_|N]; [|contradiction]. unfold named_vals. rewrite L. reflexivity.
  - intros v N. rewrite F. destruct (in_dec _ _ _); [|reflexivity]. unfold named_vals. destruct (last_name new v names) as [n|] eqn:L; [|reflexivity].
    destruct (last_name_in _ _ _ _ L) as [I A]. exfalso. exact (N n I A).
Qed.
(** one name per variable: the named weight takes the value of the original *)
Lemma reset_named : forall st new orig names, wl_built orig = true -> wl_built new = true -> NoDup (wl_weights new) ->
  (forall n, In n names -> has_weight orig n /\ has_weight new n) ->
  (forall n, In n names -> tv_shape (st (ov new n)) = tv_shape (st (ov orig n))) ->
  (forall n n', In n names -> In n' names -> ov new n = ov new n' -> n = n') ->
  exists st', reset_layer st new orig names = Ok st' /\ forall n, In n names -> st' (ov new n) = st (ov orig n).
Proof.
  intros st new orig names B1 B2 ND H Sh Inj. destruct (reset_ok st new orig names B1 B2 ND H Sh) as (st' & E & F & _).
  exists st'. split; [exact E|]. intros n I. destruct (H n I) as [_ (v & Av & _)].
  destruct (last_name_some new v names n I Av) as (m & L). unfold ov at 1. rewrite Av. rewrite (F v m L).
  destruct (last_name_in _ _ _ _ L) as [Im Am]. f_equal. f_equal. apply Inj; auto. unfold ov. rewrite Am, Av. reflexivity.
Qed.
Lemma set_weights_shapes : forall vs st val st', NoDup vs -> set_weights st vs (map val vs) = Ok st' -> forall v, In v vs -> tv_shape (st v) = tv_shape (val v).
Proof.
  induction vs as [|a q IH]; intros st val st' ND H v Hv; [destruct Hv|]. cbn [set_weights map] in H. inversion ND; subst.
  destruct (shape_eqb _ _) eqn:E; [|discriminate]. apply shape_eqb_eq in E. destruct Hv as [->|Hv]; [exact E|].
  rewrite <- (IH _ _ _ H3 H v Hv). rewrite upd_other; [reflexivity|]. intros ->. contradiction.
Qed.
(** what a success requires: every error is a reason to refuse *)
Lemma reset_requires : forall st new orig names st', reset_layer st new orig names = Ok st' ->
  wl_built orig = true /\ wl_built new = true /\ forall n, In n names -> has_weight orig n /\ has_weight new n.
Proof.
  intros st new orig names st' H. unfold reset_layer in H. destruct (wl_built orig); [|discriminate]. destruct (wl_built new); [|discriminate]. cbn [negb] in H.
  split; [reflexivity|]. split; [reflexivity|]. destruct (foldR _ _ _) as [ps|] eqn:E; [|discriminate]. clear H. revert E. generalize (map st (wl_weights new)). revert ps.
  assert (HW : forall l n i, get_weight_index_from_name l n = Ok i -> has_weight l n).
  { intros l n i K. unfold get_weight_index_from_name, get_weight_index in K. destruct (wl_attr l n) as [v|] eqn:A; [|discriminate].
    destruct (index_of v (wl_weights l)) eqn:X; [|discriminate]. exists v. split; [exact A|]. destruct (in_dec Nat.eq_dec v (wl_weights l)) as [I|I]; [exact I|].
    apply index_of_none in I. congruence. }
  induction names as [|m q IH]; intros ps ps0 E n Hn; [destruct Hn|]. cbn [foldR] in E.
  destruct (get_weight_index_from_name orig m) as [j|] eqn:E1; [|discriminate]. cbn [bind] in E.
  destruct (get_weight_index_from_name new m) as [i|] eqn:E2; [|discriminate]. cbn [bind] in E.
  destruct (nth_error _ _); [|discriminate]. cbn [bind] in E.
  destruct Hn as [->|Hn]; [split; eapply HW; eassumption|]. exact (IH _ _ E n Hn).
Qed.
Lemma reset_errors : forall st new orig names e, reset_layer st new orig names = Err e ->
  (e = ValueError \/ e = AttributeError \/ e = IndexError).
Proof.
  intros st new orig names e H. unfold reset_layer in H. destruct (wl_built orig); [|inversion H; auto]. destruct (wl_built new); [|inversion H; auto]. cbn [negb] in H.
  assert (K : forall l n e, get_weight_index_from_name l n = Err e -> e = ValueError \/ e = AttributeError \/ e = IndexError).
  { intros l n e' K. unfold get_weight_index_from_name, get_weight_index in K. destruct (wl_attr l n); [|inversion K; auto]. destruct (index_of _ _); [discriminate|inversion K; auto]. }
  assert (SW : forall vs ps st e, set_weights st vs ps = Err e -> e = ValueError).
  { clear. induction vs as [|v q IH]; intros [|p ps] st e H; cbn in H; try discriminate; try (inversion H; reflexivity).
    destruct (shape_eqb _ _); [eapply IH; exact H|inversion H; reflexivity]. }
  destruct (foldR _ _ _) as [ps|e'] eqn:E; cbn [bind] in H; [left; eapply SW; exact H|]. inversion H; subst. clear H. revert E. generalize (map st (wl_weights new)).
  induction names as [|m q IH]; intros ps0 E; [discriminate|]. cbn [foldR] in E.
  destruct (get_weight_index_from_name orig m) as [j|] eqn:E1; cbn [bind] in E; [|inversion E; subst; eapply K; eassumption].
  destruct (get_weight_index_from_name new m) as [i|] eqn:E2; cbn [bind] in E; [|inversion E; subst; eapply K; eassumption].
  destruct (nth_error _ _); cbn [bind] in E; [exact (IH _ E)|inversion E; auto].
Qed.

(** ** share_weights_and_build *)
Lemma upd_s_same : forall B (f : string -> B) k v, upd_s f k v k = v.
Proof. intros. unfold upd_s. rewrite String.eqb_refl. reflexivity. Qed.
Lemma upd_s_other : forall B (f : string -> B) k v j, j <> k -> upd_s f k v j = f j.
Proof. intros. unfold upd_s. destruct (String.eqb_spec j k); congruence. Qed.
Lemma existsb_in : forall v l, existsb (Nat.eqb v) l = true <-> In v l.
Proof. intros. rewrite existsb_exists. split; [intros (x & I & E); apply Nat.eqb_eq in E; subst; exact I|intros I; exists v; split; [exact I|apply Nat.eqb_refl]]. Qed.
Lemma existsb_nin : forall v l, existsb (Nat.eqb v) l = false <-> ~ In v l.
Proof. intros. rewrite <- existsb_in. destruct (existsb _ _); split; congruence. Qed.
(** assigning fresh variables one after the other *)
Lemma set_attrs_fresh : forall ps l, wl_built l = false -> NoDup (map snd ps) -> (forall v, In v (map snd ps) -> ~ In v (wl_weights l)) -> NoDup (map fst ps) ->
  exists l', foldR (fun l p => set_attr l (fst p) (snd p)) ps l = Ok l' /\ wl_built l' = false /\ wl_weights l' = wl_weights l ++ map snd ps /\
    (forall n v, In (n, v) ps -> wl_attr l' n = Some v) /\ (forall n, ~ In n (map fst ps) -> wl_attr l' n = wl_attr l n).
Proof.
  induction ps as [|[n v] q IH]; intros l B ND F NF; cbn [foldR map fst snd] in *.
  - exists l. rewrite app_nil_r. repeat split; auto. intros ? ? [].
  - inversion ND; subst. inversion NF; subst. unfold set_attr at 1. rewrite (proj2 (existsb_nin v (wl_weights l)) (F v (or_introl eq_refl))), B. cbn [bind].
    destruct (IH (mk_wlayer false (wl_weights l ++ [v]) (upd_s (wl_attr l) n (Some v)))) as (l' & E & B' & W & A1 & A2); auto.
    + cbn [wl_weights]. intros x Hx I. apply in_app_or in I. destruct I as [I|[->|[]]]; [exact (F x (or_intror Hx) I)|contradiction].
    + exists l'. split; [exact E|]. split; [exact B'|]. split; [rewrite W; cbn [wl_weights]; rewrite <- app_assoc; reflexivity|]. split.
      * intros m w [I|I]; [|apply A1; exact I]. inversion I; subst. rewrite A2 by assumption. cbn [wl_attr]. apply upd_s_same.
      * intros m Hm. rewrite A2 by (intro; apply Hm; right; assumption). cbn [wl_attr]. apply upd_s_other. intros ->. apply Hm. left; reflexivity.
Qed.
Definition dropped (ds : list nat) (W : list nat) : list nat := filter (fun w => negb (existsb (Nat.eqb w) ds)) W.
Lemma dropped_cons : forall d ds W, dropped ds (filter (fun w => negb (Nat.eqb w d)) W) = dropped (d :: ds) W.
Proof.
  intros d ds W. unfold dropped. induction W as [|a q IH]; [reflexivity|]. cbn. destruct (Nat.eqb a d); cbn; [exact IH|]. destruct (existsb _ _); cbn; rewrite IH; reflexivity.
Qed.
Lemma in_filter_ne : forall v d W, In v W -> v <> d -> In v (filter (fun w => negb (Nat.eqb w d)) W).
Proof. intros v d W I N. apply filter_In. split; [exact I|]. apply negb_true_iff, Nat.eqb_neq. exact N. Qed.
Lemma share_last : forall (orig : wlayer) (fr : string -> nat) names l, wl_built l = true -> NoDup names ->
  (forall n, In n names -> exists w, wl_attr orig n = Some w /\ In w (wl_weights l)) ->
  (forall n, In n names -> wl_attr l n = Some (fr n)) ->
  (forall n m, In n names -> In m names -> ov orig n <> fr m) ->
  exists l', foldR (fun l name =>
           match wl_attr orig name, wl_attr l name with
           | Some w, Some drop => l' <- set_attr l name w ; Ok (untrack l' drop)
           | _, _ => Err AttributeError
           end) names l = Ok l' /\ wl_built l' = true /\ wl_weights l' = dropped (map fr names) (wl_weights l) /\
    (forall n, In n names -> wl_attr l' n = wl_attr orig n) /\ (forall n, ~ In n names -> wl_attr l' n = wl_attr l n).
Proof.
  intros orig fr. induction names as [|n q IH]; intros l B ND H1 H2 H3; cbn [foldR].
  - exists l. repeat split; auto.
    + unfold dropped. cbn. clear. induction (wl_weights l) as [|a t IHt]; [reflexivity|]. cbn. f_equal. exact IHt.
    + intros ? [].
  - inversion ND; subst. destruct (H1 n (or_introl eq_refl)) as (w & Aw & Iw). rewrite Aw, (H2 n (or_introl eq_refl)).
    unfold set_attr at 1. rewrite (proj2 (existsb_in w (wl_weights l)) Iw). cbn [bind].
    set (l1 := untrack _ _).
    destruct (IH l1) as (l' & E & B' & W & A1 & A2); auto.
    + intros m Hm. destruct (H1 m (or_intror Hm)) as (x & Ax & Ix). exists x. split; [exact Ax|]. unfold l1, untrack. cbn [wl_weights]. apply in_filter_ne; [exact Ix|].
      intros ->. apply (H3 m n (or_intror Hm) (or_introl eq_refl)). unfold ov. rewrite Ax. reflexivity.
    + intros m Hm. unfold l1, untrack. cbn [wl_attr]. rewrite upd_s_other; [apply H2; right; exact Hm|]. intros ->. contradiction.
    + intros m k Hm Hk. apply H3; right; assumption.
    + exists l'. split; [exact E|]. split; [exact B'|]. split; [rewrite W; unfold l1, untrack; cbn [wl_weights map]; apply dropped_cons|]. split.
      * intros m [->|Hm]; [|apply A1; exact Hm]. rewrite A2 by assumption. unfold l1, untrack. cbn [wl_attr]. rewrite upd_s_same. symmetry. exact Aw.
      * intros m Hm. rewrite A2 by (intro; apply Hm; right; assumption). unfold l1, untrack. cbn [wl_attr]. apply upd_s_other. intros ->. apply Hm. left; reflexivity.
Qed.
Lemma share_first : forall orig names l, (forall n, In n names -> exists w, wl_attr orig n = Some w) ->
  foldR (fun l name => match wl_attr orig name with Some w => set_attr l name w | None => Err AttributeError end) names l =
  foldR (fun l p => set_attr l (fst p) (snd p)) (map (fun n => (n, ov orig n)) names) l.
Proof.
  intros orig names. induction names as [|n q IH]; intros l H; [reflexivity|]. cbn [foldR map fst snd]. destruct (H n (or_introl eq_refl)) as (w & A).
  unfold ov at 1. rewrite A. destruct (set_attr l n w); [|reflexivity]. cbn [bind]. apply IH. intros m Hm. apply H. right; exact Hm.
Qed.
Lemma dropped_app : forall ds A B, (forall v, In v A -> ~ In v ds) -> (forall v, In v B -> In v ds) -> dropped ds (A ++ B) = A.
Proof.
  intros ds A B HA HB. unfold dropped. rewrite filter_app.
  assert (X : filter (fun w => negb (existsb (Nat.eqb w) ds)) B = []).
  { induction B as [|b q IH]; [reflexivity|]. cbn. rewrite (proj2 (existsb_in b ds) (HB b (or_introl eq_refl))). cbn. apply IH. intros; apply HB; right; assumption. }
  rewrite X, app_nil_r. induction A as [|a q IH]; [reflexivity|]. cbn. rewrite (proj2 (existsb_nin a ds) (HA a (or_introl eq_refl))). cbn. f_equal. apply IH. intros; apply HA; right; assumption.
Qed.
Lemma share_ok : forall created orig new names (fr : string -> nat), wl_built orig = true -> wl_built new = false -> wl_weights new = [] ->
  NoDup names -> (forall n, In n names -> exists w, wl_attr orig n = Some w) ->
  (forall n m, In n names -> In m names -> ov orig n = ov orig m -> n = m) ->
  Permutation (map fst created) names -> (forall n v, In (n, v) created -> v = fr n) ->
  (forall n m, In n names -> In m names -> fr n = fr m -> n = m) -> (forall n m, In n names -> In m names -> ov orig n <> fr m) ->
  exists l, share_weights_and_build created true orig new names = Ok l /\ wl_built l = true /\ wl_weights l = map (ov orig) names /\
    forall n, In n names -> wl_attr l n = wl_attr orig n.
Proof.
  intros created orig new names fr B1 B2 W0 ND HA Inj P FR FI FD. unfold share_weights_and_build. rewrite B1, B2. cbn [negb].
  rewrite share_first by exact HA.
  assert (MS : map snd (map (fun n => (n, ov orig n)) names) = map (ov orig) names) by (rewrite map_map; reflexivity).
  assert (MF : map fst (map (fun n => (n, ov orig n)) names) = names) by (rewrite map_map; cbn; apply map_id).
  assert (NDmap : forall (g : string -> nat) ns, NoDup ns -> (forall n m, In n ns -> In m ns -> g n = g m -> n = m) -> NoDup (map g ns)).
  { clear. intros g ns ND I. induction ns as [|a q IH]; [constructor|]. inversion ND; subst. cbn. constructor.
    - intro X. apply in_map_iff in X. destruct X as (b & E & Hb). assert (b = a) by (apply I; [right; exact Hb|left; reflexivity|exact E]). subst; contradiction.
    - apply IH; auto. intros; apply I; auto; right; assumption. }
  destruct (set_attrs_fresh (map (fun n => (n, ov orig n)) names) new B2) as (l1 & E1 & Bl1 & W1 & A1 & _).
  { rewrite MS. apply NDmap; assumption. } { intros v _. rewrite W0. intros []. } { rewrite MF. exact ND. }
  rewrite E1. cbn [bind]. unfold build_layer.
  assert (CS : map snd created = map fr (map fst created)).
  { clear - FR. induction created as [|[n v] q IH]; [reflexivity|]. cbn. rewrite (FR n v (or_introl eq_refl)). f_equal. apply IH. intros; apply FR; right; assumption. }
  assert (NC : NoDup (map fst created)) by (eapply Permutation_NoDup; [symmetry; exact P|exact ND]).
  assert (InC : forall n, In n (map fst created) <-> In n names) by (intros n; split; apply Permutation_in; [exact P|symmetry; exact P]).
  rewrite W0, MS in W1. cbn [app] in W1.
  destruct (set_attrs_fresh created l1 Bl1) as (l2 & E2 & Bl2 & W2 & A2 & _).
  { rewrite CS. apply NDmap; [exact NC|]. intros n m Hn Hm. apply FI; apply InC; assumption. }
  { rewrite CS. intros v Hv. apply in_map_iff in Hv. destruct Hv as (m & <- & Hm). rewrite W1. intros X. apply in_map_iff in X. destruct X as (n & E & Hn).
    apply (FD n m Hn (proj1 (InC m) Hm) E). }
  { exact NC. }
  rewrite E2. cbn [bind].
  destruct (share_last orig fr names (mk_wlayer true (wl_weights l2) (wl_attr l2)) eq_refl ND) as (l' & E & B' & W & A & _).
  - intros n Hn. destruct (HA n Hn) as (w & Aw). exists w. split; [exact Aw|]. cbn [wl_weights]. rewrite W2, W1. apply in_or_app. left.
    apply in_map_iff. exists n. split; [unfold ov; rewrite Aw; reflexivity|exact Hn].
  - intros n Hn. cbn [wl_attr]. apply A2. apply InC in Hn. apply in_map_iff in Hn. destruct Hn as ([m v] & E & I). cbn in E. subst m. rewrite (FR n v I) in I. exact I.
  - exact FD.
  - exists l'. split; [exact E|]. split; [exact B'|]. split; [|exact A]. rewrite W. cbn [wl_weights]. rewrite W2, W1. apply dropped_app.
    + intros v Hv X. apply in_map_iff in Hv. destruct Hv as (n & <- & Hn). apply in_map_iff in X. destruct X as (m & E' & Hm). exact (FD n m Hn Hm (eq_sym E')).
    + intros v Hv. rewrite CS in Hv. apply in_map_iff in Hv. destruct Hv as (n & <- & Hn). apply in_map. apply InC. exact Hn.
Qed.
(** a named weight which build does not create ends up untracked *)
Lemma share_untracked_refuted : exists created orig new names l, wl_built orig = true /\ wl_built new = false /\
  (forall n, In n names -> has_weight orig n) /\ share_weights_and_build created true orig new names = Ok l /\
  exists n, In n names /\ ~ has_weight l n.
Proof.
  exists [], (mk_wlayer true [7] (fun s => if String.eqb s "bias" then Some 7 else None)), (mk_wlayer false [] (fun _ => None)), ["bias"%string].
  eexists. split; [reflexivity|]. split; [reflexivity|]. split.
  - intros n [<-|[]]. exists 7. split; [reflexivity|left; reflexivity].
  - split; [reflexivity|]. exists "bias"%string. split; [left; reflexivity|]. intros (v & A & I). destruct I.
Qed.
Lemma share_errors : forall created called orig new names, (wl_built orig = false \/ wl_built new = true \/ called = false) ->
  share_weights_and_build created called orig new names = Err ValueError.
Proof.
  intros created called orig new names H. unfold share_weights_and_build. destruct (wl_built orig); cbn; [|reflexivity]. destruct (wl_built new); [reflexivity|].
  destruct called; [|reflexivity]. destruct H as [H|[H|H]]; discriminate.
Qed.

(** check_if_single_shape *)
Lemma single_shape_dims : forall l, (forall v, In v l -> exists n, v = PInt n \/ v = PNone) -> l <> [] ->
  check_if_single_shape (PList l) = Ok true /\ check_if_single_shape (PTuple l) = Ok true.
Proof.
  intros [|v q] H N; [congruence|]. destruct (H v (or_introl eq_refl)) as (n & [-> | ->]); split; reflexivity.
Qed.
Lemma single_shape_list : forall l, (forall v, In v l -> exists s, v = PTuple s \/ v = PList s) ->
  check_if_single_shape (PList l) = Ok false /\ check_if_single_shape (PTuple l) = Ok false.
Proof. intros [|v q] H; [split; reflexivity|]. destruct (H v (or_introl eq_refl)) as (s & [-> | ->]); split; reflexivity. Qed.
(** the shape of a scalar *)
Lemma single_shape_scalar_refuted : check_if_single_shape (PTuple []) = Ok false /\ check_if_single_shape (PList []) = Ok false.
Proof. split; reflexivity. Qed.

(** ** C62 *)
Lemma batched_identity_shape : forall lead d, tv_shape (batched_identity lead d) = batched_spec (lead ++ [d]).
Proof. intros lead d. unfold batched_spec. cbn. rewrite last_last, <- app_assoc. reflexivity. Qed.
Lemma div_mod_flat : forall r i j d, i < d -> j < d -> ((r * d + i) * d + j) / d mod d = i /\ ((r * d + i) * d + j) mod d = j.
Proof.
  intros r i j d Hi Hj. assert (d <> 0) by lia. split.
  - rewrite Nat.div_add_l, (Nat.div_small j d) by lia. rewrite Nat.add_0_r, Nat.add_comm, Nat.mod_add by lia. apply Nat.mod_small. exact Hi.
  - rewrite Nat.add_comm, Nat.mod_add by lia. apply Nat.mod_small. exact Hj.
Qed.
(** entry (r, i, j) in row-major order, r ranging over the leading axes *)
Lemma batched_identity_data : forall lead d r i j, i < d -> j < d ->
  tv_data (batched_identity lead d) ((r * d + i) * d + j) = if Nat.eqb i j then 1%R else 0%R.
Proof. intros lead d r i j Hi Hj. cbn. destruct (div_mod_flat r i j d Hi Hj) as [-> ->]. reflexivity. Qed.
Lemma batched_diag_rank2 : forall batch d x, tv_shape (batched_diag batch [d] x) = batched_spec [batch; d] /\
  forall b i j, i < d -> j < d -> tv_data (batched_diag batch [d] x) ((b * d + i) * d + j) = if Nat.eqb i j then x (b * d + i) else 0%R.
Proof.
  intros batch d x. split; [cbn; rewrite Nat.mul_1_r; reflexivity|]. intros b i j Hi Hj. unfold batched_diag. cbn [tv_data prod_shape fold_right]. rewrite Nat.mul_1_r.
  destruct (div_mod_flat b i j d Hi Hj) as [-> ->].
  assert (E : ((b * d + i) * d + j) / (d * d) = b).
  { rewrite <- Nat.div_div by lia. rewrite Nat.div_add_l, (Nat.div_small j d) by lia. rewrite Nat.add_0_r, Nat.div_add_l, (Nat.div_small i d) by lia. lia. }
  rewrite E. reflexivity.
Qed.
Lemma batched_diag_rank3_refuted : forall batch rest x, 2 <= length rest -> tv_shape (batched_diag batch rest x) <> batched_spec (batch :: rest).
Proof.
  intros batch rest x H E. apply (f_equal (@length nat)) in E. unfold batched_spec in E. rewrite app_length in E. cbn in E. lia.
Qed.
