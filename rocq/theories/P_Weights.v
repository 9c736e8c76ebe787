(** Proofs about the weights of converted layers (C80) *)
From Coq Require Import String Reals List Arith Bool ZArith Lia Lra.
From Verif Require Import RLib Spec Spec_Layers M_Core M_Utils M_MergeLayers M_Ops M_Layers M_Convert M_State Spec_State P_State P_StateWeights P_Restore M_Weights.
From Verif Require Import Spec_Backward Spec_Convert M_Network P_NetworkThm Spec_Network Spec_Weights.
Import ListNotations.
Local Open Scope nat_scope.

Lemma add_weights_spec : forall init ws h, exists vs h', add_weights init ws h = (combine (map fst ws) vs, h') /\
  length vs = length ws /\ NoDup vs /\ (forall v, In v vs -> wh_next h <= v < wh_next h') /\ wh_next h <= wh_next h' /\
  (forall v, v < wh_next h -> wh_store h' v = wh_store h v) /\
  (forall n v s, In (n, v) (combine (map fst ws) vs) -> NoDup (map fst ws) -> In (n, s) ws -> tv_shape (wh_store h' v) = s).
Proof.
  intros init ws. induction ws as [|[n s] ws IH]; intros h.
  - exists [], h. cbn. repeat split; try constructor; try lia; intros; try contradiction.
  - cbn [add_weights add_weight]. destruct (IH (mk_wheap (upd (wh_store h) (wh_next h) (mk_tval s (init n))) (S (wh_next h)))) as (vs & h' & E & Hl & ND & Hv & Hn & Ho & Hs).
    cbn [wh_next wh_store] in *. rewrite E. exists (wh_next h :: vs), h'. split; [reflexivity|]. split; [cbn; congruence|]. split.
    { constructor; [|exact ND]. intros I. specialize (Hv _ I). lia. }
    split. { intros v [<-|I]; [lia|]. specialize (Hv v I). lia. }
    split; [lia|]. split. { intros v Hlt. rewrite Ho by lia. apply upd_other. lia. }
    intros m v t I NDn It. cbn [map fst combine] in I, NDn. inversion NDn as [|a b Hnin NDn']; subst. destruct It as [It|It].
    + inversion It; subst. destruct I as [I|I].
      * inversion I; subst. rewrite Ho by lia. rewrite upd_same. reflexivity.
      * apply in_combine_l in I. contradiction.
    + destruct I as [I|I].
      * inversion I; subst. exfalso. apply Hnin. apply in_map_iff. exists (m, t). auto.
      * eapply Hs; eauto.
Qed.

Lemma set_attr_fresh : forall l n v, wl_built l = false -> ~ In v (wl_weights l) ->
  set_attr l n v = Ok (mk_wlayer false (wl_weights l ++ [v]) (upd_s (wl_attr l) n (Some v))).
Proof.
  intros l n v B N. unfold set_attr. destruct (existsb (Nat.eqb v) (wl_weights l)) eqn:E.
  - apply existsb_exists in E. destruct E as (w & I & Ew). apply Nat.eqb_eq in Ew. subst. contradiction.
  - rewrite B. reflexivity.
Qed.
Lemma upd_s_same : forall B (f : string -> B) k v, upd_s f k v k = v.
Proof. intros. unfold upd_s. rewrite String.eqb_refl. reflexivity. Qed.
Lemma upd_s_other : forall B (f : string -> B) k v s, s <> k -> upd_s f k v s = f s.
Proof. intros. unfold upd_s. destruct (String.eqb_spec s k); [contradiction|reflexivity]. Qed.

Lemma create_attrs : forall q l, wl_built l = false -> NoDup (map fst q) -> NoDup (wl_weights l ++ map snd q) ->
  exists l', foldR (fun l p => set_attr l (fst p) (snd p)) q l = Ok l' /\ wl_built l' = false /\ wl_weights l' = (wl_weights l ++ map snd q)%list /\
    (forall n v, In (n, v) q -> wl_attr l' n = Some v) /\ (forall n, ~ In n (map fst q) -> wl_attr l' n = wl_attr l n).
Proof.
  induction q as [|[n v] q IH]; intros l B N1 N2.
  - exists l. cbn. rewrite app_nil_r. repeat split; auto. intros n v [].
  - cbn [foldR fst snd map] in *. assert (Nv : ~ In v (wl_weights l)).
    { apply NoDup_remove_2 in N2. intros I. apply N2. apply in_or_app. left. exact I. }
    rewrite (set_attr_fresh l n v B Nv). cbn [bind]. inversion N1 as [|a b Hnin N1']; subst.
    destruct (IH (mk_wlayer false (wl_weights l ++ [v]) (upd_s (wl_attr l) n (Some v)))) as (l' & E & B' & W' & A' & O'); cbn [wl_built wl_weights wl_attr] in *; auto.
    { rewrite <- app_assoc. exact N2. }
    exists l'. split; [exact E|]. split; [exact B'|]. split; [rewrite W', <- app_assoc; reflexivity|]. split.
    + intros m w [I|I]; [|auto]. inversion I; subst. rewrite O' by exact Hnin. apply upd_s_same.
    + intros m Hm. rewrite O' by (intros X; apply Hm; right; exact X). apply upd_s_other. intros ->. apply Hm. left. reflexivity.
Qed.

Lemma names_iff : forall k n, In n (keras_weights_names k) <-> In n (map fst (build_weights k)).
Proof. intros k n. destruct k as [d u [|]|ky kx ci co [|]|m [|] [|]|]; cbn; tauto. Qed.
Lemma names_nodup : forall k, NoDup (map fst (build_weights k)).
Proof.
  assert (D : forall l : list string, (if in_dec string_dec EmptyString [] then True else True) -> (nodup string_dec l = l) -> NoDup l).
  { intros l _ E. rewrite <- E. apply NoDup_nodup. }
  intros k. destruct k as [d u [|]|ky kx ci co [|]|m [|] [|]|]; apply D; try reflexivity; exact I.
Qed.

(** the new layer after build *)
Definition ready (h : wheap) (k : wkind) (l : wlayer) : Prop :=
  wl_built l = true /\ NoDup (wl_weights l) /\
  (forall n s, In (n, s) (build_weights k) -> exists v, wl_attr l n = Some v /\ In v (wl_weights l) /\ tv_shape (wh_store h v) = s) /\
  (forall n n', In n (map fst (build_weights k)) -> In n' (map fst (build_weights k)) -> ov l n = ov l n' -> n = n').

Lemma weight_in : forall k n, In n (map fst (build_weights k)) -> exists s, In (n, s) (build_weights k).
Proof. intros k n I. apply in_map_iff in I. destruct I as ([m s] & E & I). cbn in E. subst. eauto. Qed.

Lemma reset_ready : forall h k new orig, ready h k new -> wl_built orig = true ->
  (forall n s, In (n, s) (build_weights k) -> exists v, wl_attr orig n = Some v /\ In v (wl_weights orig) /\ tv_shape (wh_store h v) = s) ->
  exists st', decomon_reset_layer (wh_store h) new orig (keras_weights_names k) = Ok st' /\
    (forall n, In n (keras_weights_names k) -> st' (ov new n) = wh_store h (ov orig n)) /\
    (forall v, (forall n, In n (keras_weights_names k) -> ov new n <> v) -> st' v = wh_store h v).
Proof.
  intros h k new orig (B & ND & A & Inj) Bo Ao.
  assert (HW : forall n, In n (keras_weights_names k) -> has_weight orig n /\ has_weight new n).
  { intros n I. apply names_iff, weight_in in I. destruct I as (s & I). destruct (A n s I) as (v & Av & Iv & _). destruct (Ao n s I) as (w & Aw & Iw & _).
    split; eexists; eauto. }
  assert (HS : forall n, In n (keras_weights_names k) -> tv_shape (wh_store h (ov new n)) = tv_shape (wh_store h (ov orig n))).
  { intros n I. apply names_iff, weight_in in I. destruct I as (s & I). destruct (A n s I) as (v & Av & Iv & Sv). destruct (Ao n s I) as (w & Aw & Iw & Sw).
    unfold ov. rewrite Av, Aw. congruence. }
  destruct (decomon_reset (wh_store h) new orig (keras_weights_names k) (fun _ => conj Bo B) ND HW HS) as (st' & E & F1 & F2).
  exists st'. split; [exact E|]. split.
  - intros n I. destruct (HW n I) as [_ (v & Av & _)]. destruct (last_name_some new v _ n I Av) as (m & Lm).
    assert (Ev : ov new n = v) by (unfold ov; rewrite Av; reflexivity). rewrite Ev. rewrite (F1 v m Lm).
    destruct (last_name_in _ _ _ _ Lm) as [Im Am]. assert (m = n) as ->; [|reflexivity].
    apply Inj; try (apply names_iff; assumption). rewrite Ev. unfold ov. rewrite Am. reflexivity.
  - intros v Hv. apply F2. intros n I Av. apply (Hv n I). unfold ov. rewrite Av. reflexivity.
Qed.

(** variables are shared: Dense and Conv2D with shared=True *)
Definition shares (k : wkind) (shared : bool) : bool := match k with WDense _ _ _ | WConv2D _ _ _ _ _ => shared | _ => false end.

Lemma ov_some : forall l n v, wl_attr l n = Some v -> ov l n = v.
Proof. intros l n v E. unfold ov. rewrite E. reflexivity. Qed.

Lemma share_ready : forall k h orig, shares k true = true -> keras_built h k orig -> exists l,
  share_weights k true orig (mk_wlayer false [] (fun _ => None)) = Ok l /\
  ready h k (mk_wlayer true (wl_weights l) (wl_attr l)) /\ (forall n, In n (map fst (build_weights k)) -> wl_attr l n = wl_attr orig n).
Proof.
  intros k h orig Hs (B & A & Inj & O).
  assert (G : forall (ub : bool) (s1 s2 : list nat), build_weights k = ("kernel"%string, s1) :: (if ub then [("bias"%string, s2)] else []) ->
    exists l, bind (share_attr orig "kernel"%string (mk_wlayer false [] (fun _ => None))) (fun l => if ub : bool then share_attr orig "bias"%string l else Ok l) = Ok l /\
      ready h k (mk_wlayer true (wl_weights l) (wl_attr l)) /\ (forall n, In n (map fst (build_weights k)) -> wl_attr l n = wl_attr orig n)).
  { intros ub s1 s2 E. rewrite E in *. destruct (A "kernel"%string s1) as (v & Av & Iv & Lv & Sv); [left; reflexivity|].
    unfold share_attr. rewrite Av. rewrite set_attr_fresh by (cbn; tauto). cbn [bind wl_weights wl_attr app]. destruct ub.
    - destruct (A "bias"%string s2) as (w & Aw & Iw & Lw & Sw); [right; left; reflexivity|]. rewrite Aw.
      assert (Hne : v <> w). { intros ->. assert (X : "kernel"%string = "bias"%string); [|discriminate]. apply Inj; [left; reflexivity|right; left; reflexivity|].
        rewrite (ov_some _ _ _ Av), (ov_some _ _ _ Aw). reflexivity. }
      rewrite set_attr_fresh by (cbn; intuition congruence). eexists. split; [reflexivity|]. cbn [wl_weights wl_attr app]. split.
      + split; [reflexivity|]. cbn [wl_weights]. split; [constructor; [intros [?|[]]; congruence|constructor; [intros []|constructor]]|]. rewrite E. split.
        * intros n s [I|[I|[]]]; inversion I; subst; cbn [wl_attr].
          -- exists v. rewrite upd_s_other by discriminate. rewrite upd_s_same. cbn. auto.
          -- exists w. rewrite upd_s_same. cbn. auto.
        * intros n n' [<-|[<-|[]]] [<-|[<-|[]]]; try reflexivity; unfold ov; cbn [wl_attr];
            rewrite ?upd_s_same, ?(upd_s_other _ _ "bias"%string _ "kernel"%string), ?upd_s_same by discriminate; intros; congruence.
      + intros n [<-|[<-|[]]].
        * cbn [fst]. rewrite upd_s_other by discriminate. rewrite upd_s_same. congruence.
        * cbn [fst]. rewrite upd_s_same. congruence.
    - eexists. split; [reflexivity|]. cbn [wl_weights wl_attr app]. split.
      + split; [reflexivity|]. split; [repeat constructor; intros []|]. rewrite E. split.
        * intros n s [I|[]]. inversion I; subst. exists v. cbn [wl_attr]. rewrite upd_s_same. cbn. auto.
        * intros n n' [<-|[]] [<-|[]]. reflexivity.
      + intros n [<-|[]]. cbn [fst]. rewrite upd_s_same. congruence. }
  destruct k as [d u ub|ky kx ci co ub|m c s|]; try discriminate Hs.
  - cbn [share_weights negb]. exact (G ub _ _ eq_refl).
  - cbn [share_weights negb]. destruct (G ub _ _ eq_refl) as (l & E & R1 & R2). exists l. split; [|split; assumption]. destruct ub.
    + rewrite <- E. destruct (share_attr orig "kernel"%string _) as [l1|e]; [|reflexivity]. cbn [bind]. unfold share_attr.
      destruct (A "bias"%string [co]) as (w & Aw & _); [right; left; reflexivity|]. rewrite Aw. reflexivity.
    + rewrite <- E. destruct (share_attr orig "kernel"%string _) as [l1|e]; [|reflexivity]. cbn [bind]. rewrite (O "bias"%string); [reflexivity|].
      cbn. intros [X|[]]. discriminate X.
Qed.

Lemma created_shares : forall k shared, shares k shared = false -> created_weights k shared = build_weights k.
Proof. intros [d u ub|ky kx ci co ub|m c s|] shared E; cbn in *; subst; reflexivity. Qed.
Lemma share_noop : forall k shared orig new, shares k shared = false -> share_weights k shared orig new = Ok new.
Proof. intros [d u ub|ky kx ci co ub|m c s|] shared orig new E; cbn in *; subst; reflexivity. Qed.

Lemma combine_fst : forall A B (a : list A) (b : list B), length b = length a -> map fst (combine a b) = a.
Proof. intros A B a. induction a as [|x a IH]; intros [|y b] H; cbn in *; try discriminate; [reflexivity|]. f_equal. apply IH. lia. Qed.
Lemma combine_snd : forall A B (a : list A) (b : list B), length b = length a -> map snd (combine a b) = b.
Proof. intros A B a. induction a as [|x a IH]; intros [|y b] H; cbn in *; try discriminate; [reflexivity|]. f_equal. apply IH. lia. Qed.

(** what a conversion guarantees *)
Definition converted (h : wheap) (k : wkind) (shared : bool) (orig new : wlayer) (h' : wheap) : Prop :=
  wh_next h <= wh_next h' /\ (forall v, v < wh_next h -> wh_store h' v = wh_store h v) /\
  (forall n, In n (keras_weights_names k) -> has_weight new n /\ ov new n < wh_next h' /\ wh_store h' (ov new n) = wh_store h (ov orig n)) /\
  (shares k shared = true -> forall n, In n (keras_weights_names k) -> ov new n = ov orig n) /\
  (shares k shared = false -> forall n, In n (keras_weights_names k) -> wh_next h <= ov new n).

Theorem to_decomon_ok : forall k shared init orig h, keras_built h k orig -> exists new h',
  to_decomon_weights k shared init orig h = Ok (new, h') /\ converted h k shared orig new h'.
Proof.
  intros k shared init orig h KB. assert (KB' := KB). destruct KB' as (B & A & Inj & O). unfold to_decomon_weights. rewrite B. cbn [negb].
  destruct (shares k shared) eqn:Sh.
  - assert (shared = true) as -> by (destruct k; cbn in Sh; congruence).
    destruct (share_ready k h orig Sh KB) as (l & E & R1 & R2). rewrite E. cbn [bind].
    assert (C : created_weights k true = []) by (destruct k; cbn in Sh |- *; try discriminate; reflexivity). rewrite C. cbn [add_weights].
    unfold build_layer. cbn [foldR bind].
    destruct (reset_ready h k _ orig R1 B) as (st' & E' & F1 & F2).
    { intros n s I. destruct (A n s I) as (v & ? & ? & ? & ?). eauto. }
    rewrite E'. cbn [bind]. eexists _, _. split; [reflexivity|].
    assert (OV : forall n, In n (keras_weights_names k) -> ov (mk_wlayer true (wl_weights l) (wl_attr l)) n = ov orig n).
    { intros n I. unfold ov. cbn [wl_attr]. rewrite R2; [reflexivity|]. apply names_iff. exact I. }
    assert (SAME : forall v, st' v = wh_store h v).
    { intros v. destruct (in_dec Nat.eq_dec v (map (ov (mk_wlayer true (wl_weights l) (wl_attr l))) (keras_weights_names k))) as [I|N].
      - apply in_map_iff in I. destruct I as (n & <- & I). rewrite F1 by exact I. rewrite OV by exact I. reflexivity.
      - apply F2. intros n I <-. apply N. apply in_map. exact I. }
    split; [cbn; lia|]. split; [intros v _; apply SAME|]. split; [|split].
    + intros n I. split; [|split].
      * destruct R1 as (_ & _ & R1 & _). apply names_iff, weight_in in I. destruct I as (s & I). destruct (R1 n s I) as (v & Av & Iv & _). exists v. auto.
      * rewrite OV by exact I. cbn [wh_next]. apply names_iff, weight_in in I. destruct I as (s & I). destruct (A n s I) as (v & Av & _ & Lv & _).
        rewrite (ov_some _ _ _ Av). exact Lv.
      * cbn [wh_store]. apply F1. exact I.
    + intros _. exact OV.
    + intros X. congruence.
  - rewrite share_noop by exact Sh. cbn [bind]. rewrite created_shares by exact Sh.
    destruct (add_weights_spec init (build_weights k) h) as (vs & h1 & E & Hl & ND & Hv & Hn & Ho & Hs). rewrite E.
    assert (Hl' : length vs = length (map fst (build_weights k))) by (rewrite map_length; exact Hl).
    destruct (create_attrs (combine (map fst (build_weights k)) vs) (mk_wlayer false [] (fun _ => None))) as (l & E1 & B1 & W1 & A1 & O1).
    { reflexivity. } { rewrite combine_fst by exact Hl'. apply names_nodup. } { cbn [wl_weights app]. rewrite combine_snd by exact Hl'. exact ND. }
    unfold build_layer. rewrite E1. cbn [bind]. cbn [wl_weights app] in W1. rewrite combine_snd in W1 by exact Hl'.
    set (new := mk_wlayer true (wl_weights l) (wl_attr l)).
    assert (AT : forall n, In n (map fst (build_weights k)) -> exists v, In (n, v) (combine (map fst (build_weights k)) vs)).
    { intros n I. rewrite <- (combine_fst _ _ (map fst (build_weights k)) vs Hl') in I. apply in_map_iff in I. destruct I as ([m v] & Em & I). cbn in Em. subst. eauto. }
    assert (RD : ready h1 k new).
    { split; [reflexivity|]. split; [cbn; rewrite W1; exact ND|]. split.
      - intros n s I. destruct (AT n) as (v & Iv); [apply in_map_iff; exists (n, s); auto|]. exists v. split; [apply A1; exact Iv|]. split.
        + cbn. rewrite W1. apply in_combine_r in Iv. exact Iv.
        + apply (Hs n v s Iv); [apply names_nodup|exact I].
      - intros n n' I I' EQ. destruct (AT n I) as (v & Iv). destruct (AT n' I') as (v' & Iv').
        assert (Ev : ov new n = v) by (apply ov_some, A1, Iv). assert (Ev' : ov new n' = v') by (apply ov_some, A1, Iv').
        assert (v' = v) as -> by congruence. clear - ND Iv Iv'. revert vs ND Iv Iv'. generalize (map fst (build_weights k)).
        intros ns. induction ns as [|a ns IH]; intros [|b vs] ND I1 I2; try (cbn in I1; contradiction). inversion ND; subst.
        destruct I1 as [I1|I1]; destruct I2 as [I2|I2].
        + congruence.
        + inversion I1; subst. apply in_combine_r in I2. contradiction.
        + inversion I2; subst. apply in_combine_r in I1. contradiction.
        + eauto. }
    destruct (reset_ready h1 k new orig RD B) as (st' & E' & F1 & F2).
    { intros n s I. destruct (A n s I) as (v & ? & ? & ? & Sv). exists v. repeat split; auto. rewrite Ho by assumption. exact Sv. }
    rewrite E'. cbn [bind]. eexists _, _. split; [reflexivity|].
    assert (FR : forall n, In n (keras_weights_names k) -> wh_next h <= ov new n < wh_next h1).
    { intros n I. destruct (AT n) as (v & Iv); [apply names_iff; exact I|]. rewrite (ov_some new n v) by (apply A1; exact Iv). apply Hv. apply in_combine_r in Iv. exact Iv. }
    split; [cbn; lia|]. split.
    { intros v Lv. cbn [wh_store]. rewrite F2; [apply Ho; exact Lv|]. intros n I <-. specialize (FR n I). lia. }
    split; [|split].
    + intros n I. split; [|split].
      * destruct RD as (_ & _ & R1 & _). apply names_iff, weight_in in I. destruct I as (s & I). destruct (R1 n s I) as (v & Av & Iv & _). exists v. auto.
      * cbn. apply FR. exact I.
      * cbn [wh_store]. rewrite F1 by exact I. apply Ho. apply names_iff, weight_in in I. destruct I as (s & I). destruct (A n s I) as (v & Av & _ & Lv & _).
        rewrite (ov_some _ _ _ Av). exact Lv.
    + intros X. congruence.
    + intros _ n I. apply FR. exact I.
Qed.

(** ** The layers as functions of the values *)
Lemma layer_at_ext : forall st st' d l l', (forall n, In n (keras_weights_names (ld_kind d)) -> st' (ov l' n) = st (ov l n)) ->
  layer_at st' d l' = layer_at st d l.
Proof.
  intros st st' d l l' H. destruct d as [rows d u ub|g ub|pre k post ax eps c s|L]; cbn [layer_at ld_kind keras_weights_names] in *.
  - unfold entries_if, entries. destruct ub; rewrite ?(H "kernel"%string), ?(H "bias"%string) by (cbn; tauto); reflexivity.
  - unfold entries_if, entries. destruct ub; rewrite ?(H "kernel"%string), ?(H "bias"%string) by (cbn; tauto); reflexivity.
  - unfold entries_if, entries. destruct c, s; rewrite ?(H "moving_mean"%string), ?(H "moving_variance"%string), ?(H "beta"%string), ?(H "gamma"%string) by (cbn; tauto); reflexivity.
  - reflexivity.
Qed.

(** a conversion of several layers *)

Lemma keras_built_later : forall h h' k l, keras_built h k l -> wh_next h <= wh_next h' -> (forall v, v < wh_next h -> wh_store h' v = wh_store h v) -> keras_built h' k l.
Proof.
  intros h h' k l (B & A & I & O) Hn Ho. split; [exact B|]. split; [|split; assumption]. intros n s In_. destruct (A n s In_) as (v & Av & Iv & Lv & Sv).
  exists v. repeat split; auto; [lia|]. rewrite Ho by exact Lv. exact Sv.
Qed.


Theorem convert_ok : forall shared init ds origs h, all_built h ds origs -> exists news h',
  convert_layers shared init (pairs ds origs) h = Ok (news, h') /\ length news = length ds /\ wh_next h <= wh_next h' /\
  (forall v, v < wh_next h -> wh_store h' v = wh_store h v) /\
  (forall i d orig new, nth_error ds i = Some d -> nth_error origs i = Some orig -> nth_error news i = Some new ->
     (forall n, In n (keras_weights_names (ld_kind d)) -> ov new n < wh_next h' /\ wh_store h' (ov new n) = wh_store h (ov orig n)) /\
     (shares (ld_kind d) shared = true -> forall n, In n (keras_weights_names (ld_kind d)) -> ov new n = ov orig n) /\
     (shares (ld_kind d) shared = false -> forall n, In n (keras_weights_names (ld_kind d)) -> wh_next h <= ov new n)).
Proof.
  intros shared init ds. induction ds as [|d ds IH]; intros origs h HB; inversion HB as [|d' o ds' os KB HB' E1 E2]; subst.
  - exists [], h. cbn. repeat split; auto; destruct i; discriminate.
  - unfold pairs. cbn [map combine convert_layers]. destruct (to_decomon_ok (ld_kind d) shared (init (wh_next h)) o h KB) as (new & h1 & E & Hn & Ho & Hw & Hs & Hf).
    rewrite E. cbn [bind fst snd]. destruct (IH os h1) as (news & h' & E' & Hl & Hn' & Ho' & Hw').
    { unfold all_built in *. clear - HB' Hn Ho. induction HB'; constructor; auto. eapply keras_built_later; eauto. }
    unfold pairs in E'. rewrite E'. cbn [bind fst snd]. exists (new :: news), h'. split; [reflexivity|]. split; [cbn; congruence|]. split; [lia|]. split.
    { intros v Lv. rewrite Ho' by lia. apply Ho. exact Lv. }
    intros [|i] d0 orig new0 Ed Eo En; cbn [nth_error] in Ed, Eo, En.
    + inversion Ed; inversion Eo; inversion En; subst. split; [|split; assumption]. intros n I. destruct (Hw n I) as (_ & L1 & V1). split; [lia|]. rewrite Ho' by exact L1. exact V1.
    + destruct (Hw' i d0 orig new0 Ed Eo En) as (P1 & P2 & P3). split; [|split].
      * intros n I. destruct (P1 n I) as [L1 V1]. split; [exact L1|]. rewrite V1. apply Ho.
        assert (KB0 : keras_built h (ld_kind d0) orig).
        { clear - HB' Ed Eo. revert i Ed Eo. induction HB'; intros [|i] Ed Eo; cbn in *; try discriminate; [inversion Ed; inversion Eo; subst; assumption|eauto]. }
        destruct KB0 as (_ & A & _). apply names_iff, weight_in in I. destruct I as (s & I). destruct (A n s I) as (v & Av & _ & Lv & _). rewrite (ov_some _ _ _ Av). exact Lv.
      * exact P2.
      * intros X n I. specialize (P3 X n I). lia.
Qed.
