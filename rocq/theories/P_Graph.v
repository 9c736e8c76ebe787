(** Depths, order of conversion and outputs of a graph of layers. *)
From Coq Require Import String Ascii Reals List Arith Bool ZArith Lia.
From Verif Require Import RLib Spec Spec_Layers Spec_Backward Spec_Convert M_Core M_Utils M_MergeLayers M_Ops M_Layers M_Backward M_Crown M_Convert.
Import ListNotations.

(** parents come first *)
Definition topo {A} (g : fgraph A) : Prop :=
  forall i nod p, nth_error g i = Some nod -> In p (fn_parents nod) -> (p < i)%nat.

(** ** generic list facts *)
Lemma in_nth_error : forall A (l : list A) i a, nth_error l i = Some a -> In a l.
Proof. intros; eapply nth_error_In; eauto. Qed.

Lemma app_split : forall A (l1 l2 pre post : list A) i, l1 ++ l2 = pre ++ i :: post -> ~ In i l1 -> exists pre', pre = l1 ++ pre'.
Proof.
  intros A l1. induction l1 as [|a l1 IH]; intros l2 pre post i H Hn; [exists pre; reflexivity|].
  destruct pre as [|b pre]; cbn in H.
  - injection H; intros _ ->. exfalso; apply Hn; left; reflexivity.
  - injection H; intros H' ->. destruct (IH l2 pre post i H') as (q & ->); [intros Q; apply Hn; right; exact Q|].
    exists q; reflexivity.
Qed.

Lemma order_before : forall K (f : K -> list nat) (key : nat -> K) ka kb i j pre post,
  (forall k i, In i (f k) -> key i = k) -> NoDup (ka ++ key i :: kb) -> In (key j) ka -> In j (f (key j)) ->
  flat_map f (ka ++ key i :: kb) = pre ++ i :: post -> In j pre.
Proof.
  intros K f key ka kb i j pre post Hk Hd Hj Hin E. rewrite flat_map_app in E.
  destruct (app_split _ _ _ _ _ _ E) as (pre' & ->).
  - intros Q. apply in_flat_map in Q. destruct Q as (k & Hka & Hi). apply Hk in Hi. subst k.
    apply NoDup_remove_2 in Hd. apply Hd. apply in_or_app; left; exact Hka.
  - apply in_or_app; left. apply in_flat_map. exists (key j); auto.
Qed.

Lemma NoDup_flat_map : forall K (f : K -> list nat) (key : nat -> K) keys,
  (forall k i, In i (f k) -> key i = k) -> (forall k, NoDup (f k)) -> NoDup keys -> NoDup (flat_map f keys).
Proof.
  intros K f key keys Hk Hf. induction keys as [|k q IH]; intros Hd; cbn; [constructor|].
  inversion Hd as [|? ? Hn Hq]; subst. specialize (IH Hq).
  assert (Hdis : forall i, In i (f k) -> ~ In i (flat_map f q)).
  { intros i Hi Q. apply in_flat_map in Q. destruct Q as (k' & Hk' & Hi'). apply Hk in Hi. apply Hk in Hi'. subst. contradiction. }
  specialize (Hf k). revert Hf Hdis. generalize (f k). intros l. induction l as [|a l IHl]; intros Hf Hdis; cbn; [exact IH|].
  inversion Hf as [|? ? Ha Hl]; subst. constructor.
  - intros Q. apply in_app_or in Q. destruct Q as [Q | Q]; [contradiction|]. apply (Hdis a); [left; reflexivity|exact Q].
  - apply IHl; [exact Hl|intros i Hi; apply Hdis; right; exact Hi].
Qed.

Lemma foldR_ind : forall (S I : Type) (step : S -> I -> result S) (Inv : list I -> S -> Prop) (l : list I) s0,
  (forall pre i post s, l = pre ++ i :: post -> Inv pre s -> exists s', step s i = Ok s' /\ Inv (pre ++ [i]) s') ->
  Inv [] s0 -> exists s, foldR step l s0 = Ok s /\ Inv l s.
Proof.
  intros S I step Inv l s0 Hstep H0.
  assert (G : forall post pre s, l = pre ++ post -> Inv pre s -> exists s', foldR step post s = Ok s' /\ Inv l s').
  { induction post as [|i post IH]; intros pre s E HI.
    - rewrite app_nil_r in E. subst. exists s; split; [reflexivity|exact HI].
    - destruct (Hstep pre i post s E HI) as (s' & Es & HI'). cbn. rewrite Es. cbn.
      apply (IH (pre ++ [i])); [rewrite <- app_assoc; exact E|exact HI']. }
  apply (G l [] s0); auto.
Qed.

Lemma mapR_total : forall A B (f : A -> result B) (Q : A -> B -> Prop) (l : list A),
  (forall a, In a l -> exists b, f a = Ok b /\ Q a b) -> exists bs, mapR f l = Ok bs /\ Forall2 Q l bs.
Proof.
  intros A B f Q. induction l as [|a q IH]; intros H.
  - exists []; split; [reflexivity|constructor].
  - destruct (H a) as (b & Eb & Hb); [left; reflexivity|]. destruct IH as (bs & Es & Hs); [intros; apply H; right; auto|].
    exists (b :: bs). cbn. rewrite Eb. cbn. rewrite Es. cbn. split; [reflexivity|constructor; auto].
Qed.

Lemma mapR_ext : forall A B (f f' : A -> result B) l, (forall a, In a l -> f a = f' a) -> mapR f l = mapR f' l.
Proof.
  intros A B f f'. induction l as [|a q IH]; intros H; [reflexivity|]. cbn. rewrite (H a) by (left; reflexivity).
  rewrite IH by (intros; apply H; right; auto). reflexivity.
Qed.

Lemma mapR_inv : forall A B (f : A -> result B) l bs, mapR f l = Ok bs -> Forall2 (fun a b => f a = Ok b) l bs.
Proof.
  intros A B f. induction l as [|a q IH]; intros bs H.
  - injection H; intros <-. constructor.
  - cbn in H. destruct (f a) as [b|e] eqn:E; [|discriminate H]. cbn in H. destruct (mapR f q) as [r|e] eqn:E2; [|discriminate H].
    cbn in H. injection H; intros <-. constructor; [exact E|apply IH; reflexivity].
Qed.

Lemma max_list_nat_ge : forall l a, In a l -> (a <= max_list_nat l)%nat.
Proof. induction l as [|b l IH]; intros a H; [contradiction|]. change (max_list_nat (b :: l)) with (Nat.max b (max_list_nat l)). destruct H as [-> | H]; [lia|]. specialize (IH a H). lia. Qed.

Lemma max_list_nat_in : forall l, l <> [] -> In (max_list_nat l) l.
Proof.
  induction l as [|a l IH]; intros H; [contradiction|]. change (max_list_nat (a :: l)) with (Nat.max a (max_list_nat l)). destruct l as [|b l]; [left; cbn; lia|].
  specialize (IH ltac:(discriminate)). destruct (Nat.max_spec a (max_list_nat (b :: l))) as [[_ ->] | [_ ->]]; [right; exact IH|left; reflexivity].
Qed.

Lemma upd_eq : forall B (f : nat -> B) k v, upd f k v k = v.
Proof. intros; unfold upd; rewrite Nat.eqb_refl; reflexivity. Qed.
Lemma upd_neq : forall B (f : nat -> B) k v j, j <> k -> upd f k v j = f j.
Proof. intros B f k v j H; unfold upd. destruct (Nat.eqb_spec j k); [contradiction|reflexivity]. Qed.

(** ** Keras depths *)
Lemma raise_mono : forall d ps nd j, (nd j <= raise_parents d ps nd j)%nat.
Proof.
  intros d ps. induction ps as [|p ps IH]; intros nd j; cbn; [lia|]. unfold raise_parents in *.
  specialize (IH (upd nd p (Nat.max (nd p) (S d))) j). destruct (Nat.eq_dec j p) as [E|E].
  - subst j. rewrite upd_eq in IH. lia.
  - rewrite upd_neq in IH by exact E. exact IH.
Qed.

Lemma raise_out : forall d ps nd j, ~ In j ps -> raise_parents d ps nd j = nd j.
Proof.
  intros d ps. induction ps as [|p ps IH]; intros nd j H; cbn; [reflexivity|]. unfold raise_parents in *.
  rewrite IH by (intros Q; apply H; right; exact Q). apply upd_neq. intros ->. apply H; left; reflexivity.
Qed.

Lemma raise_in : forall d ps nd p, In p ps -> (S d <= raise_parents d ps nd p)%nat.
Proof.
  intros d ps. induction ps as [|q ps IH]; intros nd p H; [contradiction|]. cbn.
  destruct (in_dec Nat.eq_dec p ps) as [Q|Q].
  - apply IH; exact Q.
  - destruct H as [-> | H]; [|contradiction].
    pose proof (raise_mono d ps (upd nd p (Nat.max (nd p) (S d))) p) as M. rewrite upd_eq in M. unfold raise_parents in M. lia.
Qed.

Section KDepth.
Context {A : Type}.
Variable g : fgraph A.
Hypothesis Ht : topo g.

Definition kinv (k : nat) (st : (nat -> nat) * (nat -> nat)) : Prop :=
  forall j nod p, (k <= j)%nat -> nth_error g j = Some nod -> In p (fn_parents nod) -> (fst st j < fst st p)%nat.

Lemma kinv_step : forall k st, kinv (S k) st -> kinv k (kdepth_step g st k).
Proof.
  intros k [nd od] H. unfold kdepth_step. destruct (nth_error g k) as [nk|] eqn:Ek.
  2:{ intros j nod p Hj En. destruct (Nat.eq_dec j k) as [E|E]; [subst j; rewrite Ek in En; discriminate En|].
      apply (H j nod p); [lia|exact En]. }
  set (d := Nat.max (nd k) (od (fn_op nk))). intros j nod p Hj En Hp. cbn [fst].
  assert (Hnp : forall q, (k <= q)%nat -> ~ In q (fn_parents nk)) by (intros q Hq Q; pose proof (Ht k nk q Ek Q); lia).
  destruct (Nat.eq_dec j k) as [E|E].
  - subst j. rewrite Ek in En. injection En; intros <-. rewrite raise_out by (apply Hnp; lia). rewrite upd_eq.
    pose proof (raise_in d (fn_parents nk) (upd nd k d) p Hp). lia.
  - rewrite raise_out by (apply Hnp; lia). rewrite upd_neq by exact E.
    pose proof (H j nod p ltac:(lia) En Hp) as Hlt. cbn [fst] in Hlt.
    pose proof (raise_mono d (fn_parents nk) (upd nd k d) p) as M.
    destruct (Nat.eq_dec p k) as [Ep|Ep]; [subst p; rewrite upd_eq in M; lia|rewrite upd_neq in M by exact Ep; lia].
Qed.

Lemma kinv_fold : forall k st, kinv k st -> kinv 0 (fold_left (kdepth_step g) (rev (seq 0 k)) st).
Proof.
  induction k as [|k IH]; intros st H; [exact H|].
  rewrite seq_S, rev_app_distr. cbn [rev app fold_left Nat.add]. apply IH. apply kinv_step. exact H.
Qed.

Lemma kdepth_parent : forall i nod p, nth_error g i = Some nod -> In p (fn_parents nod) -> (kdepths g i < kdepths g p)%nat.
Proof.
  intros i nod p En Hp. unfold kdepths. eapply kinv_fold; [|apply Nat.le_0_l|exact En|exact Hp].
  intros j nd q Hj Ej. assert (j < length g)%nat by (apply nth_error_Some; congruence). lia.
Qed.

Lemma kdepth_le : forall i, (i < length g)%nat -> (kdepths g i <= max_kdepth g)%nat.
Proof. intros i H. apply max_list_nat_ge. apply in_map. apply in_seq. lia. Qed.

(** the nodes by decreasing Keras depth *)
Definition kbucket (k : nat) : list nat := filter (fun i => Nat.eqb (kdepths g i) k) (seq 0 (length g)).
Lemma kbucket_key : forall k i, In i (kbucket k) -> kdepths g i = k.
Proof. intros k i H. apply filter_In in H. apply Nat.eqb_eq. tauto. Qed.
Lemma kbucket_in : forall i, (i < length g)%nat -> In i (kbucket (kdepths g i)).
Proof. intros i H. apply filter_In. split; [apply in_seq; lia|apply Nat.eqb_refl]. Qed.

Lemma by_kdepth_in : forall i, In i (by_kdepth g) <-> (i < length g)%nat.
Proof.
  intros i. unfold by_kdepth. rewrite in_flat_map. split.
  - intros (k & _ & H). apply filter_In in H. destruct H as [H _]. apply in_seq in H. lia.
  - intros H. exists (kdepths g i). split; [apply in_rev; rewrite rev_involutive; apply in_seq; pose proof (kdepth_le i H); lia|apply kbucket_in; exact H].
Qed.

Lemma NoDup_by_kdepth : NoDup (by_kdepth g).
Proof.
  unfold by_kdepth. apply NoDup_flat_map with (key := kdepths g).
  - apply kbucket_key.
  - intros k. apply NoDup_filter, seq_NoDup.
  - apply NoDup_rev, seq_NoDup.
Qed.

Lemma rev_seq_split : forall M k j, (k < j)%nat -> (j <= M)%nat -> exists ka kb, rev (seq 0 (S M)) = ka ++ k :: kb /\ In j ka.
Proof.
  intros M k j H1 H2. exists (rev (seq (S k) (M - k))), (rev (seq 0 k)). split.
  - replace (S M) with (S k + (M - k))%nat by lia. rewrite seq_app, seq_S, rev_app_distr, rev_app_distr. cbn [rev app Nat.add]. reflexivity.
  - apply in_rev. rewrite rev_involutive. apply in_seq. lia.
Qed.

Lemma kparents_before : forall i nod p pre post, nth_error g i = Some nod -> In p (fn_parents nod) ->
  by_kdepth g = pre ++ i :: post -> In p pre.
Proof.
  intros i nod p pre post En Hp E.
  assert (Hi : (i < length g)%nat) by (apply nth_error_Some; congruence).
  pose proof (Ht i nod p En Hp) as Hpi. pose proof (kdepth_parent i nod p En Hp) as Hd.
  assert (Hpl : (p < length g)%nat) by lia.
  destruct (rev_seq_split (max_kdepth g) (kdepths g i) (kdepths g p) Hd (kdepth_le p Hpl)) as (ka & kb & Ek & Hin).
  unfold by_kdepth in E. rewrite Ek in E.
  apply (order_before nat kbucket (kdepths g) ka kb i p pre post kbucket_key); auto.
  - rewrite <- Ek. apply NoDup_rev, seq_NoDup.
  - apply kbucket_in; exact Hpl.
Qed.

(** ** depths of get_depth_dict *)
Lemma min_list_Z_in : forall l a, In (min_list_Z a l) (a :: l).
Proof.
  induction l as [|b l IH]; intros a; [left; reflexivity|]. cbn. destruct (IH (Z.min a b)) as [E | H]; [|right; right; exact H].
  unfold min_list_Z in *. rewrite <- E. destruct (Z.min_spec a b) as [[_ ->] | [_ ->]]; [left; reflexivity|right; left; reflexivity].
Qed.
Lemma min_list_Z_le : forall l a x, In x (a :: l) -> (min_list_Z a l <= x)%Z.
Proof.
  induction l as [|b l IH]; intros a x H; destruct H as [-> | H].
  - unfold min_list_Z; cbn; lia.
  - contradiction.
  - change (min_list_Z x (b :: l)) with (min_list_Z (Z.min x b) l). pose proof (IH (Z.min x b) (Z.min x b) (or_introl eq_refl)). lia.
  - change (min_list_Z a (b :: l)) with (min_list_Z (Z.min a b) l). destruct H as [-> | H].
    + pose proof (IH (Z.min a x) (Z.min a x) (or_introl eq_refl)). lia.
    + apply (IH (Z.min a b) x). right; exact H.
Qed.

(** depth of a node in terms of those of its parents *)
Definition depth_spec (dico : nat -> option Z) (i : nat) (nod : fnode A) : Prop :=
  exists d, dico i = Some d /\
    match fn_parents nod with
    | [] => d = Z.of_nat (max_kdepth g)
    | ps => (forall p, In p ps -> exists e, dico p = Some e /\ (d < e)%Z) /\
            (exists p e, In p ps /\ dico p = Some e /\ e = (d + 1)%Z)
    end.

Definition dinv (pre : list nat) (dico : nat -> option Z) : Prop :=
  (forall i nod, In i pre -> nth_error g i = Some nod -> depth_spec dico i nod) /\
  (forall i, dico i <> None -> In i pre).

Lemma dico_ok : exists dico, dico_depth g = Ok dico /\
  (forall i nod, nth_error g i = Some nod -> depth_spec dico i nod) /\ (forall i, dico i <> None -> (i < length g)%nat).
Proof.
  unfold dico_depth.
  destruct (foldR_ind _ _ (fill_depth g) dinv (by_kdepth g) (fun _ => None)) as (dico & E & H1 & H2).
  - intros pre i post dico E [HI HN].
    assert (Hi : (i < length g)%nat) by (apply by_kdepth_in; rewrite E; apply in_or_app; right; left; reflexivity).
    destruct (nth_error g i) as [nod|] eqn:En; [|apply nth_error_None in En; lia].
    assert (Hpar : forall p, In p (fn_parents nod) -> exists e, dico p = Some e).
    { intros p Hp. pose proof (kparents_before i nod p pre post En Hp E) as Hpp.
      pose proof (Ht i nod p En Hp). destruct (nth_error g p) as [np|] eqn:Ep; [|apply nth_error_None in Ep; lia].
      destruct (HI p np Hpp Ep) as (d & Ed & _). eauto. }
    assert (Hnew : ~ In i pre).
    { pose proof NoDup_by_kdepth as N. rewrite E in N. apply NoDup_remove_2 in N. intros Q; apply N; apply in_or_app; left; exact Q. }
    unfold fill_depth. rewrite En.
    destruct (mapR_total _ _ (fun p => match dico p with Some d => Ok (d - 1)%Z | None => Err KeyError end)
               (fun p d => dico p = Some (d + 1)%Z) (fn_parents nod)) as (ds & Eds & Hds).
    { intros p Hp. destruct (Hpar p Hp) as (e & Ee). exists (e - 1)%Z. rewrite Ee. split; [reflexivity|f_equal; lia]. }
    rewrite Eds. cbn.
    set (dv := match ds with [] => Z.of_nat (max_kdepth g) | d :: q => min_list_Z d q end).
    exists (upd dico i (Some dv)). split; [unfold dv; destruct ds; reflexivity|].
    assert (Hother : forall j, j <> i -> upd dico i (Some dv) j = dico j) by (intros j Hj; apply upd_neq; exact Hj).
    split.
    + intros j nj Hj Ej. apply in_app_or in Hj. destruct Hj as [Hj | [<- | []]].
      * assert (Hji : j <> i) by (intros ->; contradiction).
        destruct (HI j nj Hj Ej) as (d & Ed & Hd). exists d. rewrite (Hother j Hji). split; [exact Ed|].
        destruct (fn_parents nj) as [|p0 ps0] eqn:Eps; [exact Hd|]. destruct Hd as [Ha Hb].
        assert (Hne : forall p e, dico p = Some e -> upd dico i (Some dv) p = Some e).
        { intros p e He. rewrite Hother; [exact He|]. intros ->. apply Hnew. apply HN. congruence. }
        split.
        -- intros p Hp. destruct (Ha p Hp) as (e & He & Hlt). exists e. split; [apply Hne; exact He|exact Hlt].
        -- destruct Hb as (p & e & Hp & He & Hlt). exists p, e. split; [exact Hp|split; [apply Hne; exact He|exact Hlt]].
      * rewrite En in Ej. injection Ej; intros <-. exists dv. rewrite upd_eq. split; [reflexivity|].
        assert (Hpne : forall p, In p (fn_parents nod) -> upd dico i (Some dv) p = dico p).
        { intros p Hp. apply Hother. pose proof (Ht i nod p En Hp). lia. }
        destruct (fn_parents nod) as [|p0 ps0] eqn:Eps.
        -- inversion Hds; subst. reflexivity.
        -- destruct ds as [|d0 q0]; [inversion Hds|]. assert (Edv : dv = min_list_Z d0 q0) by reflexivity. clearbody dv.
           split.
           ++ intros p Hp. rewrite (Hpne p Hp). destruct (Hpar p Hp) as (e & Ee). exists e. split; [exact Ee|].
              assert (Hin : In (e - 1)%Z (d0 :: q0)).
              { clear -Hds Hp Ee. induction Hds as [|a b la lb Hab Hl IH]; [contradiction|]. destruct Hp as [-> | Hp].
                - rewrite Ee in Hab. injection Hab; intros ->. left; lia.
                - right; apply IH; exact Hp. }
              pose proof (min_list_Z_le q0 d0 _ Hin). lia.
           ++ pose proof (min_list_Z_in q0 d0) as Hin. set (mv := min_list_Z d0 q0) in *.
              assert (Hex : exists p, In p (p0 :: ps0) /\ dico p = Some (mv + 1)%Z).
              { clear -Hds Hin. induction Hds as [|a b la lb Hab Hl IH]; [contradiction|]. destruct Hin as [<- | Hin].
                - exists a; split; [left; reflexivity|exact Hab].
                - destruct (IH Hin) as (p & Hp & He). exists p; split; [right; exact Hp|exact He]. }
              destruct Hex as (p & Hp & He). exists p, (mv + 1)%Z. split; [exact Hp|split; [rewrite (Hpne p Hp); exact He|rewrite Edv; reflexivity]].
    + intros j Hj. destruct (Nat.eq_dec j i) as [->|Hji]; [apply in_or_app; right; left; reflexivity|].
      rewrite (Hother j Hji) in Hj. apply in_or_app; left; apply HN; exact Hj.
  - split; [intros i nod []|intros i H; contradiction].
  - exists dico. split; [exact E|]. split.
    + intros i nod En. apply H1; [apply by_kdepth_in; apply nth_error_Some; congruence|exact En].
    + intros i Hi. apply by_kdepth_in. apply H2; exact Hi.
Qed.
End KDepth.

(** ** order of conversion *)
Section Order.
Context {A : Type}.
Variable g : fgraph A.
Hypothesis Ht : topo g.
Variable dico : nat -> option Z.
Hypothesis Hspec : forall i nod, nth_error g i = Some nod -> depth_spec g dico i nod.

Definition key (i : nat) : Z := match dico i with Some d => d | None => 0%Z end.

Lemma key_some : forall i, (i < length g)%nat -> dico i = Some (key i).
Proof.
  intros i H. destruct (nth_error g i) as [nod|] eqn:En; [|apply nth_error_None in En; lia].
  destruct (Hspec i nod En) as (d & Ed & _). unfold key. rewrite Ed. reflexivity.
Qed.

Lemma key_source : forall i nod, nth_error g i = Some nod -> fn_parents nod = [] -> key i = Z.of_nat (max_kdepth g).
Proof. intros i nod En Hp. destruct (Hspec i nod En) as (d & Ed & H). unfold key. rewrite Ed, Hp in *. exact H. Qed.

Lemma key_parent : forall i nod p, nth_error g i = Some nod -> In p (fn_parents nod) -> (key i < key p)%Z.
Proof.
  intros i nod p En Hp. destruct (Hspec i nod En) as (d & Ed & H). destruct (fn_parents nod) as [|p0 ps] eqn:E; [contradiction|].
  destruct H as [H _]. destruct (H p Hp) as (e & Ee & Hlt). unfold key. rewrite Ed, Ee. exact Hlt.
Qed.

Lemma key_some_parent : forall i nod, nth_error g i = Some nod -> fn_parents nod <> [] ->
  exists p, In p (fn_parents nod) /\ key p = (key i + 1)%Z.
Proof.
  intros i nod En Hp. destruct (Hspec i nod En) as (d & Ed & H). destruct (fn_parents nod) as [|p0 ps] eqn:E; [contradiction|].
  destruct H as [_ (p & e & Hin & Ee & He)]. exists p. split; [exact Hin|]. unfold key. rewrite Ed, Ee. exact He.
Qed.

Lemma key_bounds : forall i, (i < length g)%nat -> (Z.of_nat (kdepths g i) <= key i <= Z.of_nat (max_kdepth g))%Z.
Proof.
  induction i as [i IH] using lt_wf_ind. intros H. destruct (nth_error g i) as [nod|] eqn:En; [|apply nth_error_None in En; lia].
  destruct (fn_parents nod) as [|p0 ps] eqn:E.
  - rewrite (key_source i nod En E). pose proof (kdepth_le g i H). lia.
  - destruct (key_some_parent i nod En) as (p & Hp & Ek); [rewrite E; discriminate|].
    pose proof (Ht i nod p En Hp). pose proof (kdepth_parent g Ht i nod p En Hp). specialize (IH p H0 ltac:(lia)). lia.
Qed.

Lemma nodes_at_in : forall d i, In i (nodes_at g dico d) <-> (i < length g)%nat /\ key i = d.
Proof.
  intros d i. unfold nodes_at. rewrite filter_In, (by_kdepth_in g). split.
  - intros [H E]. split; [exact H|]. rewrite (key_some i H) in E. apply Z.eqb_eq; exact E.
  - intros [H E]. split; [exact H|]. rewrite (key_some i H). apply Z.eqb_eq; exact E.
Qed.

Lemma keys_split : forall k j, (0 <= k < j)%Z -> (j <= Z.of_nat (max_kdepth g))%Z ->
  exists ka kb, depth_keys g = ka ++ k :: kb /\ In j ka.
Proof.
  intros k j H1 H2. unfold depth_keys. set (D := max_kdepth g) in *. set (N := (D + length g)%nat).
  set (a := Z.to_nat (Z.of_nat D - k)). set (F := fun k0 : nat => (Z.of_nat D - Z.of_nat k0)%Z).
  exists (map F (seq 0 a)), (map F (seq (S a) (N - a))). split.
  - replace (S N) with (a + S (N - a))%nat by (unfold a, N; lia). rewrite seq_app, map_app. cbn [seq map Nat.add].
    f_equal. f_equal. unfold F, a. lia.
  - apply in_map_iff. exists (Z.to_nat (Z.of_nat D - j)). split; [unfold F; lia|apply in_seq; unfold a; lia].
Qed.

Lemma keys_in : forall k, (0 <= k <= Z.of_nat (max_kdepth g))%Z -> In k (depth_keys g).
Proof.
  intros k H. unfold depth_keys. apply in_map_iff. exists (Z.to_nat (Z.of_nat (max_kdepth g) - k)).
  split; [lia|apply in_seq; lia].
Qed.

Lemma NoDup_keys : NoDup (depth_keys g).
Proof.
  unfold depth_keys. generalize (seq_NoDup (S (max_kdepth g + length g)) 0).
  generalize (seq 0 (S (max_kdepth g + length g))). induction l as [|a l IH]; intros H; cbn; [constructor|].
  inversion H as [|? ? Ha Hl]; subst. constructor; [|apply IH; exact Hl].
  intros Q. apply in_map_iff in Q. destruct Q as (b & Eb & Hb). apply Ha. replace a with b by lia. exact Hb.
Qed.

Lemma nodes_at_key : forall d i, In i (nodes_at g dico d) -> key i = d.
Proof. intros d i H. apply nodes_at_in in H. tauto. Qed.

Lemma NoDup_nodes_at : forall d, NoDup (nodes_at g dico d).
Proof. intros d. apply NoDup_filter, NoDup_by_kdepth. Qed.

Lemma NoDup_order : NoDup (node_order g dico).
Proof. apply NoDup_flat_map with (key := key); [apply nodes_at_key|apply NoDup_nodes_at|apply NoDup_keys]. Qed.

Lemma order_in : forall i, In i (node_order g dico) <-> (i < length g)%nat.
Proof.
  intros i. unfold node_order. rewrite in_flat_map. split.
  - intros (d & _ & H). apply nodes_at_in in H. tauto.
  - intros H. exists (key i). pose proof (key_bounds i H). split; [apply keys_in; lia|apply nodes_at_in; auto].
Qed.

Lemma order_key : forall i j pre post, (i < length g)%nat -> (j < length g)%nat -> (key i < key j)%Z ->
  node_order g dico = pre ++ i :: post -> In j pre.
Proof.
  intros i j pre post Hi Hj Hlt E. pose proof (key_bounds i Hi). pose proof (key_bounds j Hj).
  destruct (keys_split (key i) (key j)) as (ka & kb & Ek & Hin); [lia|lia|].
  unfold node_order in E. rewrite Ek in E.
  apply (order_before Z (nodes_at g dico) key ka kb i j pre post nodes_at_key); auto.
  - rewrite <- Ek. apply NoDup_keys.
  - apply nodes_at_in; auto.
Qed.

(** before a node without parent, only nodes without parent *)
Lemma order_sources : forall i j nod nj pre post, nth_error g i = Some nod -> fn_parents nod = [] ->
  node_order g dico = pre ++ i :: post -> In j pre -> nth_error g j = Some nj -> fn_parents nj = [].
Proof.
  intros i j nod nj pre post En Hp E Hj Ej. destruct (fn_parents nj) as [|p ps] eqn:Eps; [reflexivity|exfalso].
  assert (Hi : (i < length g)%nat) by (apply nth_error_Some; congruence).
  assert (Hjl : (j < length g)%nat) by (apply nth_error_Some; congruence).
  assert (Hlt : (key j < key i)%Z).
  { pose proof (key_parent j nj p Ej) as K. rewrite Eps in K. specialize (K (or_introl eq_refl)).
    rewrite (key_source i nod En Hp). pose proof (Ht j nj p Ej) as T. rewrite Eps in T. specialize (T (or_introl eq_refl)).
    pose proof (key_bounds p ltac:(lia)). lia. }
  apply in_split in Hj. destruct Hj as (p1 & p2 & ->).
  pose proof (order_key j i p1 (p2 ++ i :: post) Hjl Hi Hlt) as Q. rewrite E in Q. rewrite <- app_assoc in Q. specialize (Q eq_refl).
  pose proof NoDup_order as N. rewrite E in N. apply NoDup_remove_2 in N. apply N.
  apply in_or_app; left. apply in_or_app; left. exact Q.
Qed.
End Order.

(** ** values of the nodes *)
Definition node_out {A} (nod : fnode A) (ins : list A) : result (list A) :=
  match fn_kind nod with KInput => Ok ins | KOp op => op ins end.
Definition sources_input {A} (g : fgraph A) : Prop :=
  forall i nod, nth_error g i = Some nod -> fn_parents nod = [] -> fn_kind nod = KInput.
(** [vs i]: what node i produces when it is called on what its parents produce *)
Definition evaluates {A} (g : fgraph A) (om0 : omap A) (its : list A) (vs : nat -> list A) : Prop :=
  forall i nod, nth_error g i = Some nod ->
    match om0 i with
    | Some l => vs i = l
    | None => node_out nod (match fn_parents nod with [] => its | ps => concat (map vs ps) end) = Ok (vs i)
    end.

Lemma convert_nodes_eval : forall A (g : fgraph A) (om0 : omap A) its vs, topo g -> sources_input g ->
  (forall i, om0 i <> None -> (i < length g)%nat) -> evaluates g om0 its vs ->
  exists om, convert_nodes g om0 its = Ok om /\ forall i, (i < length g)%nat -> om i = Some (vs i).
Proof.
  intros A g om0 its vs Ht Hs H0 He. destruct (dico_ok g Ht) as (dico & Ed & Hspec & Hdom).
  unfold convert_nodes. rewrite Ed. cbn [bind].
  set (Inv := fun (pre : list nat) (st : omap A * list A) =>
     (forall i, In i pre -> fst st i = Some (vs i)) /\
     (forall i, ~ In i pre -> fst st i = om0 i) /\
     ((forall j nj, In j pre -> nth_error g j = Some nj -> fn_parents nj = []) -> snd st = its)).
  destruct (foldR_ind _ _ (convert_node g) Inv (node_order g dico) (om0, its)) as (st & E & HI).
  - intros pre i post [om out] E (I1 & I2 & I3). cbn [fst snd] in *.
    assert (Hi : (i < length g)%nat) by (apply (order_in g Ht dico Hspec); rewrite E; apply in_or_app; right; left; reflexivity).
    assert (Hnew : ~ In i pre).
    { pose proof (NoDup_order g dico Hspec) as N. rewrite E in N. apply NoDup_remove_2 in N. intros Q; apply N; apply in_or_app; left; exact Q. }
    destruct (nth_error g i) as [nod|] eqn:En; [|apply nth_error_None in En; lia].
    pose proof (He i nod En) as Hv. unfold convert_node. rewrite (I2 i Hnew). rewrite En.
    destruct (om0 i) as [l0|] eqn:E0.
    + exists (om, out). split; [reflexivity|]. split; [|split]; cbn [fst snd].
      * intros j Hj. apply in_app_or in Hj. destruct Hj as [Hj | [<- | []]]; [apply I1; exact Hj|]. rewrite (I2 i Hnew), E0, Hv. reflexivity.
      * intros j Hj. apply I2. intros Q; apply Hj; apply in_or_app; left; exact Q.
      * intros Hall. apply I3. intros j nj Hj. apply Hall. apply in_or_app; left; exact Hj.
    + set (ins := match fn_parents nod with [] => its | ps => concat (map vs ps) end) in *.
      assert (Eins : match fn_parents nod with
             | [] => Ok out
             | ps => l <- mapR (fun p => match om p with Some o => Ok o | None => Err KeyError end) ps ; Ok (concat l)
             end = Ok ins).
      { unfold ins. destruct (fn_parents nod) as [|p0 ps0] eqn:Eps.
        - rewrite I3; [reflexivity|]. intros j nj Hj Ej. apply (order_sources g Ht dico Hspec i j nod nj pre post En Eps E Hj Ej).
        - assert (Em : mapR (fun p => match om p with Some o => Ok o | None => Err KeyError end) (p0 :: ps0) = Ok (map vs (p0 :: ps0))).
          { assert (Hp : forall p, In p (p0 :: ps0) -> om p = Some (vs p)).
            { intros p Hp. apply I1. rewrite <- Eps in Hp.
              apply (order_key g Ht dico Hspec i p pre post Hi); [pose proof (Ht i nod p En Hp); lia|apply (key_parent g dico Hspec i nod p En Hp)|exact E]. }
            clear -Hp. induction (p0 :: ps0) as [|a q IH]; [reflexivity|]. cbn. rewrite (Hp a) by (left; reflexivity). cbn.
            rewrite IH by (intros; apply Hp; right; auto). reflexivity. }
          rewrite Em. reflexivity. }
      assert (Eins0 : fn_parents nod = [] -> ins = its) by (unfold ins; intros ->; reflexivity).
      clearbody ins. destruct (fn_parents nod) as [|p0 ps0] eqn:Eps.
      * rewrite Eins. cbn. unfold node_out in Hv. rewrite Hv. cbn. eexists; split; [reflexivity|].
        split; [|split]; cbn [fst snd].
        -- intros j Hj. apply in_app_or in Hj. destruct Hj as [Hj | [<- | []]]; [|apply upd_eq].
           rewrite upd_neq by (intros ->; contradiction). apply I1; exact Hj.
        -- intros j Hj. rewrite upd_neq; [apply I2; intros Q; apply Hj; apply in_or_app; left; exact Q|].
           intros ->. apply Hj; apply in_or_app; right; left; reflexivity.
        -- intros _. rewrite (Hs i nod En Eps) in Hv. injection Hv; intros <-. apply Eins0; reflexivity.
      * rewrite Eins. cbn. unfold node_out in Hv. rewrite Hv. cbn. eexists; split; [reflexivity|].
        split; [|split]; cbn [fst snd].
        -- intros j Hj. apply in_app_or in Hj. destruct Hj as [Hj | [<- | []]]; [|apply upd_eq].
           rewrite upd_neq by (intros ->; contradiction). apply I1; exact Hj.
        -- intros j Hj. rewrite upd_neq; [apply I2; intros Q; apply Hj; apply in_or_app; left; exact Q|].
           intros ->. apply Hj; apply in_or_app; right; left; reflexivity.
        -- intros Hall. exfalso. specialize (Hall i nod ltac:(apply in_or_app; right; left; reflexivity) En). rewrite Eps in Hall. discriminate Hall.
  - split; [intros i []|split; [reflexivity|reflexivity]].
  - destruct st as [om out]. rewrite E. cbn. exists om. split; [reflexivity|]. intros i Hi. apply HI.
    apply (order_in g Ht dico Hspec); exact Hi.
Qed.

(** values exist as soon as every operation accepts what it receives *)
Lemma evaluates_build : forall A (g : fgraph A) (om0 : omap A) its (Val : nat -> list A -> Prop), topo g ->
  (forall i nod vs, nth_error g i = Some nod -> evaluates (firstn i g) om0 its vs -> (forall j, (j < i)%nat -> Val j (vs j)) ->
     exists o, match om0 i with
               | Some l => o = l
               | None => node_out nod (match fn_parents nod with [] => its | ps => concat (map vs ps) end) = Ok o
               end /\ Val i o) ->
  exists vs, evaluates g om0 its vs /\ forall i, (i < length g)%nat -> Val i (vs i).
Proof.
  intros A g om0 its Val Ht Hstep.
  assert (G : forall k, (k <= length g)%nat -> exists vs, evaluates (firstn k g) om0 its vs /\ forall i, (i < k)%nat -> Val i (vs i)).
  { induction k as [|k IH]; intros Hk.
    - exists (fun _ => []). split; [intros i nod H; rewrite firstn_O in H; destruct i; discriminate H|intros; lia].
    - destruct (IH ltac:(lia)) as (vs & He & Hv). destruct (nth_error g k) as [nod|] eqn:En; [|apply nth_error_None in En; lia].
      destruct (Hstep k nod vs En He Hv) as (o & Eo & Ho). exists (upd vs k o).
      assert (Hpar : forall i nd, (i <= k)%nat -> nth_error g i = Some nd ->
         match fn_parents nd with [] => its | ps => concat (map (upd vs k o) ps) end = match fn_parents nd with [] => its | ps => concat (map vs ps) end).
      { intros i nd Hi Ei. pose proof (Ht i nd) as T. destruct (fn_parents nd) as [|p0 ps0]; [reflexivity|]. f_equal. apply map_ext_in.
        intros p Hp. apply upd_neq. specialize (T p Ei Hp). lia. }
      assert (Hfn : forall i, nth_error (firstn (S k) g) i = if (i <? S k)%nat then nth_error g i else None).
      { intros i. destruct (Nat.ltb_spec i (S k)); [|apply nth_error_None; rewrite firstn_length; lia].
        rewrite <- (firstn_skipn (S k) g) at 2. rewrite nth_error_app1; [reflexivity|rewrite firstn_length; lia]. }
      assert (Hfn' : forall i, (i < k)%nat -> nth_error (firstn k g) i = nth_error g i).
      { intros i Hi. rewrite <- (firstn_skipn k g) at 2. rewrite nth_error_app1; [reflexivity|rewrite firstn_length; lia]. }
      split.
      + intros i nd Ei. rewrite Hfn in Ei. destruct (Nat.ltb_spec i (S k)) as [Hi|]; [|discriminate Ei].
        rewrite (Hpar i nd ltac:(lia) Ei). destruct (Nat.eq_dec i k) as [->|Hne].
        * rewrite En in Ei. injection Ei; intros <-. rewrite upd_eq. exact Eo.
        * rewrite upd_neq by exact Hne. apply He. rewrite Hfn' by lia. exact Ei.
      + intros i Hi. destruct (Nat.eq_dec i k) as [->|Hne]; [rewrite upd_eq; exact Ho|rewrite upd_neq by exact Hne; apply Hv; lia]. }
  destruct (G (length g) (Nat.le_refl _)) as (vs & He & Hv). rewrite firstn_all in He. exists vs; auto.
Qed.

(** ** outputs *)
Definition parents_of {A} (g : fgraph A) : list (list nat) := map fn_parents g.

Lemma topo_acyclic : forall A (g : fgraph A), acyclic (parents_of g) -> topo g.
Proof.
  intros A g H i nod p En Hp. apply (H i (fn_parents nod) p); [|exact Hp]. unfold parents_of. rewrite nth_error_map, En. reflexivity.
Qed.

Section Outputs.
Context {A : Type}.
Variable g : fgraph A.
Hypothesis Ht : topo g.
Variable lv : nat -> nat.
Hypothesis Hlv : longest_path (parents_of g) lv.

Lemma lv_at : forall i nod, nth_error g i = Some nod ->
  match fn_parents nod with
  | [] => lv i = O
  | ps => (forall p, In p ps -> (lv p < lv i)%nat) /\ (exists p, In p ps /\ lv i = S (lv p))
  end.
Proof.
  intros i nod En. assert (H : nth_error (parents_of g) i = Some (fn_parents nod)) by (unfold parents_of; rewrite nth_error_map, En; reflexivity).
  pose proof (Hlv i _ H) as L. destruct (fn_parents nod); exact L.
Qed.

Lemma key_level : forall dico, (forall i nod, nth_error g i = Some nod -> depth_spec g dico i nod) ->
  forall i, (i < length g)%nat -> key dico i = (Z.of_nat (max_kdepth g) - Z.of_nat (lv i))%Z.
Proof.
  intros dico Hspec. induction i as [i IH] using lt_wf_ind. intros H.
  destruct (nth_error g i) as [nod|] eqn:En; [|apply nth_error_None in En; lia].
  pose proof (lv_at i nod En) as L. destruct (fn_parents nod) as [|p0 ps0] eqn:Eps.
  - rewrite (key_source g dico Hspec i nod En Eps). lia.
  - destruct L as [L1 (pm & Hpm & Lm)]. rewrite <- Eps in L1, Hpm.
    assert (Hpl : forall p, In p (fn_parents nod) -> (p < i)%nat) by (intros p Hp; apply (Ht i nod p En Hp)).
    destruct (key_some_parent g dico Hspec i nod En) as (pk & Hpk & Kk); [rewrite Eps; discriminate|].
    pose proof (key_parent g dico Hspec i nod pm En Hpm) as K1. pose proof (L1 pk Hpk) as L2.
    pose proof (Hpl pk Hpk). pose proof (Hpl pm Hpm).
    pose proof (IH pk ltac:(lia) ltac:(lia)). pose proof (IH pm ltac:(lia) ltac:(lia)). lia.
Qed.

(** Keras depths when no operation is shared *)
Definition unshared : Prop := NoDup (map fn_op g).

Lemma unshared_op : unshared -> forall i j a b, nth_error g i = Some a -> nth_error g j = Some b -> fn_op a = fn_op b -> i = j.
Proof.
  intros Hu i j a b Ei Ej E. unfold unshared in Hu. rewrite NoDup_nth_error in Hu.
  apply Hu; [rewrite map_length; apply nth_error_Some; congruence|]. rewrite !nth_error_map, Ei, Ej. cbn. rewrite E. reflexivity.
Qed.

(** a node of positive depth has a child one level below; depths of the operations come from nodes already seen *)
Definition cinv (k : nat) (st : (nat -> nat) * (nat -> nat)) : Prop :=
  (forall i, fst st i <> O -> exists j nj, (k <= j)%nat /\ nth_error g j = Some nj /\ In i (fn_parents nj) /\ fst st i = S (fst st j)) /\
  (forall o, snd st o <> O -> exists j nj, (k <= j)%nat /\ nth_error g j = Some nj /\ fn_op nj = o).

Lemma raise_cases : forall d ps nd j, raise_parents d ps nd j = nd j \/ (In j ps /\ raise_parents d ps nd j = S d).
Proof.
  intros d ps. induction ps as [|p ps IH]; intros nd j; cbn; [left; reflexivity|]. unfold raise_parents in *.
  destruct (IH (upd nd p (Nat.max (nd p) (S d))) j) as [E | [H E]]; [|right; split; [right; exact H|exact E]].
  rewrite E. destruct (Nat.eq_dec j p) as [->|Hne]; [|left; apply upd_neq; exact Hne]. rewrite upd_eq.
  destruct (Nat.max_spec (nd p) (S d)) as [[_ Q] | [_ Q]]; [right; split; [left; reflexivity|exact Q]|left; exact Q].
Qed.

Lemma cinv_step : unshared -> forall k st, cinv (S k) st -> (k < length g)%nat -> cinv k (kdepth_step g st k).
Proof.
  intros Hu k [nd od] [C1 C2] Hk. unfold kdepth_step. destruct (nth_error g k) as [nk|] eqn:Ek; [|apply nth_error_None in Ek; lia].
  assert (Hod : od (fn_op nk) = O).
  { destruct (Nat.eq_dec (od (fn_op nk)) 0) as [E|E]; [exact E|]. destruct (C2 _ E) as (j & nj & Hj & Ej & Eo).
    pose proof (unshared_op Hu j k nj nk Ej Ek Eo). lia. }
  rewrite Hod, Nat.max_0_r. set (d := nd k).
  assert (Hupd : forall j, upd nd k d j = nd j) by (intros j; unfold upd; destruct (Nat.eqb_spec j k) as [->|]; reflexivity).
  assert (Hge : forall j, (k <= j)%nat -> raise_parents d (fn_parents nk) (upd nd k d) j = nd j).
  { intros j Hj. rewrite raise_out; [apply Hupd|]. intros Q. pose proof (Ht k nk j Ek Q). lia. }
  split; cbn [fst snd].
  - intros i Hi. destruct (raise_cases d (fn_parents nk) (upd nd k d) i) as [E | [Hin E]].
    + rewrite E, Hupd in *. destruct (C1 i Hi) as (j & nj & Hj & Ej & Hin & Ed). exists j, nj. repeat split; auto; [lia|].
      rewrite (Hge j ltac:(lia)). exact Ed.
    + exists k, nk. repeat split; auto. rewrite E, (Hge k ltac:(lia)). reflexivity.
  - intros o Ho. destruct (Nat.eq_dec o (fn_op nk)) as [->|Hne].
    + exists k, nk. auto.
    + rewrite upd_neq in Ho by exact Hne. destruct (C2 o Ho) as (j & nj & Hj & Ej & Eo). exists j, nj. repeat split; auto. lia.
Qed.

Lemma kdepth_child : unshared -> forall i, kdepths g i <> O ->
  exists j nj, nth_error g j = Some nj /\ In i (fn_parents nj) /\ kdepths g i = S (kdepths g j).
Proof.
  intros Hu i Hi.
  assert (G : forall k st, cinv k st -> (k <= length g)%nat -> cinv 0 (fold_left (kdepth_step g) (rev (seq 0 k)) st)).
  { induction k as [|k IH]; intros st H Hk; [exact H|]. rewrite seq_S, rev_app_distr. cbn [rev app fold_left Nat.add].
    apply IH; [apply cinv_step; auto|lia]. }
  destruct (G (length g) (fun _ => O, fun _ => O)) as [C1 _]; [split; cbn; intros ? Q; contradiction|lia|].
  destruct (C1 i Hi) as (j & nj & _ & Ej & Hin & E). exists j, nj. auto.
Qed.

Lemma level_below : unshared -> forall d i, (i < length g)%nat -> kdepths g i = d -> exists j, (j < length g)%nat /\ (lv i + d <= lv j)%nat.
Proof.
  intros Hu. induction d as [|d IH]; intros i Hi E; [exists i; lia|].
  destruct (kdepth_child Hu i) as (j & nj & Ej & Hin & Ed); [lia|].
  assert (Hj : (j < length g)%nat) by (apply nth_error_Some; congruence).
  destruct (IH j Hj ltac:(lia)) as (k & Hk & Hl). exists k. split; [exact Hk|].
  pose proof (lv_at j nj Ej) as L. destruct (fn_parents nj) as [|p0 ps0]; [contradiction|]. destruct L as [L _]. specialize (L i Hin). lia.
Qed.

Lemma max_kdepth_level : unshared -> g <> [] -> (exists i, (i < length g)%nat /\ lv i = max_kdepth g) /\
  (forall i, (i < length g)%nat -> (lv i <= max_kdepth g)%nat).
Proof.
  intros Hu Hg. destruct (dico_ok g Ht) as (dico & _ & Hspec & _).
  assert (Hle : forall i, (i < length g)%nat -> (lv i <= max_kdepth g)%nat).
  { intros i Hi. pose proof (key_level dico Hspec i Hi). pose proof (key_bounds g Ht dico Hspec i Hi). lia. }
  split; [|exact Hle].
  pose proof (max_list_nat_in (map (kdepths g) (seq 0 (length g)))) as M. fold (max_kdepth g) in M.
  assert (Hne : map (kdepths g) (seq 0 (length g)) <> []) by (destruct g; [contradiction|discriminate]).
  specialize (M Hne). apply in_map_iff in M. destruct M as (i & Ei & Hi). apply in_seq in Hi.
  destruct (level_below Hu (max_kdepth g) i ltac:(lia) Ei) as (j & Hj & Hl). exists j. split; [exact Hj|].
  specialize (Hle j Hj). lia.
Qed.

Definition deepestb (i : nat) : bool := Nat.eqb (lv i) (max_list_nat (map lv (seq 0 (length g)))).

Lemma max_level : unshared -> g <> [] -> max_list_nat (map lv (seq 0 (length g))) = max_kdepth g.
Proof.
  intros Hu Hg. destruct (max_kdepth_level Hu Hg) as [(i & Hi & Ei) Hle]. apply Nat.le_antisymm.
  - assert (Hne : map lv (seq 0 (length g)) <> []) by (destruct g; [contradiction|discriminate]).
    apply max_list_nat_in in Hne. apply in_map_iff in Hne. destruct Hne as (j & <- & Hj). apply in_seq in Hj. apply Hle. lia.
  - rewrite <- Ei. apply max_list_nat_ge. apply in_map. apply in_seq. lia.
Qed.

Lemma filter_none : forall (f : nat -> bool) l, (forall i, In i l -> f i = false) -> filter f l = [].
Proof.
  intros f. induction l as [|a l IH]; intros H; [reflexivity|]. cbn. rewrite (H a) by (left; reflexivity).
  apply IH. intros; apply H; right; auto.
Qed.

Lemma filter_single : forall (f : nat -> bool) l o, NoDup l -> (forall i, In i l -> f i = Nat.eqb o i) ->
  (In o l -> filter f l = [o]) /\ (~ In o l -> filter f l = []).
Proof.
  intros f l o. induction l as [|a l IH]; intros Hd Hf; [split; [contradiction|reflexivity]|]. inversion Hd as [|? ? Ha Hl]; subst. cbn.
  rewrite (Hf a) by (left; reflexivity). destruct (IH Hl ltac:(intros; apply Hf; right; auto)) as [I1 I2].
  destruct (Nat.eqb_spec o a) as [E|Hne].
  - subst a. rewrite (I2 Ha). split; [reflexivity|]. intros Q; exfalso; apply Q; left; reflexivity.
  - split.
    + intros [Q | Q]; [congruence|apply I1; exact Q].
    + intros Q. apply I2. intros Q2; apply Q; right; exact Q2.
Qed.

Lemma output_nodes_ok : unshared -> g <> [] -> forall outs, (forall o, In o outs -> (o < length g)%nat) ->
  output_nodes g outs = Ok (filter deepestb outs).
Proof.
  intros Hu Hg outs Ho. destruct (dico_ok g Ht) as (dico & Ed & Hspec & _). unfold output_nodes. rewrite Ed. cbn [bind].
  assert (Hin : forall i, In i (nodes_at g dico 0) <-> (i < length g)%nat /\ deepestb i = true).
  { intros i. rewrite (nodes_at_in g dico Hspec). unfold deepestb. rewrite (max_level Hu Hg), Nat.eqb_eq. split; intros [Hi E]; split; auto.
    - rewrite (key_level dico Hspec i Hi) in E. lia.
    - rewrite (key_level dico Hspec i Hi). lia. }
  destruct (max_kdepth_level Hu Hg) as [(i0 & Hi0 & Ei0) _].
  assert (Hne : In i0 (nodes_at g dico 0)).
  { apply Hin. split; [exact Hi0|]. unfold deepestb. rewrite (max_level Hu Hg). apply Nat.eqb_eq; exact Ei0. }
  assert (E : flat_map (fun o => filter (fun i => same_op g o i) (nodes_at g dico 0)) outs = filter deepestb outs).
  { clear Hne. induction outs as [|o q IH]; [reflexivity|]. cbn [flat_map filter]. rewrite IH by (intros; apply Ho; right; auto).
    assert (Hol : (o < length g)%nat) by (apply Ho; left; reflexivity).
    destruct (filter_single (fun i => same_op g o i) (nodes_at g dico 0) o) as [F1 F2]; [apply NoDup_nodes_at| |].
    2:{ destruct (deepestb o) eqn:Eb.
        - rewrite F1; [reflexivity|apply Hin; auto].
        - rewrite F2; [reflexivity|]. intros Q. apply Hin in Q. destruct Q; congruence. }
    intros i Hi. apply Hin in Hi. destruct Hi as [Hi _]. unfold same_op, op_of.
      destruct (nth_error g o) as [a|] eqn:Ea; [|apply nth_error_None in Ea; lia].
      destruct (nth_error g i) as [b|] eqn:Eb; [|apply nth_error_None in Eb; lia]. cbn.
      destruct (Nat.eqb_spec o i) as [->|Hne].
      + rewrite Ea in Eb. injection Eb; intros <-. apply Nat.eqb_refl.
      + apply Nat.eqb_neq. intros Q. apply Hne. apply (unshared_op Hu o i a b); auto. }
  revert E. clear Hin. destruct (nodes_at g dico 0) as [|a l]; [contradiction|]. intros E. rewrite E. reflexivity.
Qed.
End Outputs.

Lemma convert_forward_eval : forall A (g : fgraph A) (om0 : omap A) its vs outs l, topo g -> sources_input g ->
  (forall i, om0 i <> None -> (i < length g)%nat) -> evaluates g om0 its vs ->
  output_nodes g outs = Ok l -> (forall o, In o l -> (o < length g)%nat) ->
  convert_forward g outs om0 its = Ok (concat (map vs l)).
Proof.
  intros A g om0 its vs outs l Ht Hs H0 He Ho Hl. destruct (convert_nodes_eval A g om0 its vs Ht Hs H0 He) as (om & E & Hom).
  unfold convert_forward. rewrite E. cbn [bind]. rewrite Ho. cbn [bind].
  assert (Em : mapR (fun i => match om i with Some o => Ok o | None => Err KeyError end) l = Ok (map vs l)).
  { clear Ho. induction l as [|a q IH]; [reflexivity|]. cbn. rewrite (Hom a) by (apply Hl; left; reflexivity). cbn.
    rewrite IH by (intros; apply Hl; right; auto). reflexivity. }
  rewrite Em. reflexivity.
Qed.
