(** Proofs about the names of the layers of a converted model (C81) *)
From Coq Require Import DecimalString String Ascii Reals List Arith Bool ZArith Lia.
From Verif Require Import RLib Spec Spec_Layers M_Core M_Utils M_MergeLayers M_Ops M_Layers M_Convert M_State Spec_State P_State P_StateNames M_Names Spec_Names.
Import ListNotations.
Local Open Scope nat_scope.

(** ** The objects called by the preprocessed model *)
Lemma split_cases : forall h r, r < h_next h ->
  (unsplit h r /\ split_obj h r = (h, [r])) \/
  (~ unsplit h r /\ exists h', h_next h < h_next h' /\
     ((exists s, lo_act (h_obj h r) = AName s /\ split_obj h r = (h', [h_next h; S (h_next h)]) /\ h_next h' = S (S (h_next h))) \/
      (exists b, lo_class (h_obj h r) <> CActivation /\ lo_act (h_obj h r) = ALayer b /\ split_obj h r = (h', [h_next h; b])))).
Proof.
  intros h r Hr. unfold split_obj, unsplit. destruct (lo_class (h_obj h r)) eqn:Ec; cbn [is_activation_class];
    try (left; split; [left; reflexivity|reflexivity]);
    (destruct (lo_act (h_obj h r)) as [|s|b] eqn:Ea;
      [left; split; [right; left; reflexivity|reflexivity]| |
       right; split; [intros [X|[X|X]]; discriminate|];
       eexists; split; [|right; exists b; split; [discriminate|split; [reflexivity|reflexivity]]]; cbn; lia]);
    (destruct (String.eqb s "linear") eqn:Es;
      [apply String.eqb_eq in Es; subst; left; split; [right; right; reflexivity|reflexivity]|]);
    (right; split; [intros [X|[X|X]]; try discriminate; injection X as ->; discriminate Es|];
     eexists; split; [|left; exists s; split; [reflexivity|split; [reflexivity|reflexivity]]]; cbn; lia).
Qed.

(** what the loop knows after the nodes [pre] *)
Definition seen (h0 : heap) (pre : list nat) (st : pstate) : Prop :=
  pinv h0 st /\
  (forall r, In r pre -> exists rs, ps_map st r = Some rs /\ forall x, In x rs -> In x (ps_called st)) /\
  (forall r, ~ In r pre -> ps_map st r = None) /\
  (forall x, In x (held h0 pre) -> unsplit h0 x -> In x (ps_called st)) /\
  (forall x, In x (ps_called st) -> h_next h0 <= x \/ In x (held h0 pre)).
Lemma seen_init : forall h, seen h [] (mk_pstate h (fun _ => None) 0 []).
Proof. intros h. split; [apply pinv_init|]. repeat split; cbn; try tauto. Qed.
Lemma held_app : forall h a b, held h (a ++ b) = held h a ++ held h b.
Proof. intros. unfold held. apply flat_map_app. Qed.
Lemma in_holds : forall h r x, In x (holds h r) -> x = r \/ (lo_class (h_obj h r) <> CActivation /\ lo_act (h_obj h r) = ALayer x).
Proof.
  intros h r x H. unfold holds in H. destruct H as [H|H]; [left; congruence|]. right.
  destruct (lo_class (h_obj h r)); try contradiction; destruct (lo_act (h_obj h r)) as [| |b]; try contradiction; destruct H as [<-|[]]; split; auto; discriminate.
Qed.
Lemma holds_act : forall h r b, lo_class (h_obj h r) <> CActivation -> lo_act (h_obj h r) = ALayer b -> In b (holds h r).
Proof. intros h r b Hc Ha. right. rewrite Ha. destruct (lo_class (h_obj h r)); try (left; reflexivity). congruence. Qed.

(** one node: the layers [rs] that are called *)
Lemma seen_step : forall h0 pre st r, obj_wf h0 -> seen h0 pre st -> r < h_next h0 ->
  exists rs, ps_called (split_node st r) = ps_called st ++ rs /\ rs <> [] /\ seen h0 (pre ++ [r]) (split_node st r) /\
    (In r pre -> forall x, In x rs -> In x (ps_called st)) /\
    (unsplit h0 r -> rs = [r]) /\
    (~ unsplit h0 r -> exists a, h_next h0 <= a /\
       ((exists b, h_next h0 <= b /\ rs = [a; b] /\ forall c, lo_act (h_obj h0 r) <> ALayer c) \/
        (exists b, lo_class (h_obj h0 r) <> CActivation /\ lo_act (h_obj h0 r) = ALayer b /\ rs = [a; b]))) /\
    (~ In r pre -> (unsplit h0 r /\ rs = [r]) \/
       (~ unsplit h0 r /\ exists a, h_next (ps_heap st) <= a /\
         ((exists b, a < b /\ rs = [a; b]) \/ (exists b, b < h_next h0 /\ lo_class (h_obj h0 r) <> CActivation /\ lo_act (h_obj h0 r) = ALayer b /\ rs = [a; b])))).
Proof.
  intros h0 pre st r W (I & M & N & U & K) Hr. pose proof I as ((Nx & X) & C & MM).
  destruct (X r Hr) as (Xc & Xa & _).
  assert (Hr' : r < h_next (ps_heap st)) by lia.
  assert (EU : unsplit (ps_heap st) r <-> unsplit h0 r) by (apply ext_unsplit; [split; assumption|exact Hr]).
  destruct (split_node_spec h0 st r W I Hr) as (h & rs & E & SR & RW & Es & I').
  assert (Ec : ps_called (split_node st r) = ps_called st ++ rs) by (rewrite Es; reflexivity).
  assert (Em : ps_map (split_node st r) = upd (ps_map st) r (Some rs)) by (rewrite Es; reflexivity).
  exists rs. split; [exact Ec|].
  assert (Hrs : (In r pre -> forall x, In x rs -> In x (ps_called st)) /\
    (~ In r pre -> (unsplit h0 r /\ rs = [r]) \/
       (~ unsplit h0 r /\ exists a, h_next (ps_heap st) <= a /\
         ((exists b, a < b /\ rs = [a; b]) \/ (exists b, b < h_next h0 /\ lo_class (h_obj h0 r) <> CActivation /\ lo_act (h_obj h0 r) = ALayer b /\ rs = [a; b]))))).
  { split.
    - intros Hin. destruct (M r Hin) as (rs0 & E0 & H0).
      assert (rs0 = rs). { unfold split_node in Em. rewrite E0 in Em. destruct (rename_all _ _ _) in Em. cbn [ps_map] in Em.
        pose proof (f_equal (fun f => f r) Em) as Q. cbn in Q. rewrite !upd_same in Q. congruence. }
      subst rs0. exact H0.
    - intros Hni. specialize (N r Hni). destruct (split_cases (ps_heap st) r Hr') as [[U1 E1]|(NU & h' & Hh & Hcase)].
      + left. split; [apply EU; exact U1|]. unfold split_node in Em. rewrite N, E1 in Em. destruct (rename_all _ _ _) in Em. cbn [ps_map] in Em.
        pose proof (f_equal (fun f => f r) Em) as Q. cbn in Q. rewrite !upd_same in Q. congruence.
      + right. split; [tauto|]. exists (h_next (ps_heap st)). split; [lia|].
        destruct Hcase as [(s & Ea & E1 & _)|(b & Hcb & Ea & E1)].
        * left. exists (S (h_next (ps_heap st))). split; [lia|]. unfold split_node in Em. rewrite N, E1 in Em. destruct (rename_all _ _ _) in Em. cbn [ps_map] in Em.
          pose proof (f_equal (fun f => f r) Em) as Q. cbn in Q. rewrite !upd_same in Q. congruence.
        * right. rewrite Xc in Hcb. rewrite Xa in Ea. exists b. split; [exact (W r b Hr Ea)|]. split; [exact Hcb|]. split; [exact Ea|].
          unfold split_node in Em. rewrite N, E1 in Em. destruct (rename_all _ _ _) in Em. cbn [ps_map] in Em.
          pose proof (f_equal (fun f => f r) Em) as Q. cbn in Q. rewrite !upd_same in Q. congruence. }
  assert (HU : unsplit h0 r -> rs = [r]) by (intros Ur; destruct SR as [[-> _]|[NU _]]; [reflexivity|contradiction]).
  assert (HN : ~ unsplit h0 r -> exists a, h_next h0 <= a /\
       ((exists b, h_next h0 <= b /\ rs = [a; b] /\ forall c, lo_act (h_obj h0 r) <> ALayer c) \/
        (exists b, lo_class (h_obj h0 r) <> CActivation /\ lo_act (h_obj h0 r) = ALayer b /\ rs = [a; b]))).
  { intros NU. destruct SR as [[_ Ur]|(_ & a & b & -> & Ha & [(s & Ea & Hb)|Ea])]; [contradiction| |].
    - exists a. split; [exact Ha|]. left. exists b. split; [exact Hb|]. split; [reflexivity|]. intros c Q. rewrite Q in Ea. discriminate.
    - exists a. split; [exact Ha|]. right. exists b. split; [|split; [exact Ea|reflexivity]]. intros Q. apply NU. left. exact Q. }
  assert (Hne : rs <> []) by (destruct SR as [[-> _]|(_ & a & b & -> & _)]; discriminate).
  split; [exact Hne|]. split; [|split; [apply Hrs|split; [exact HU|split; [exact HN|apply Hrs]]]].
  split; [exact I'|]. rewrite Ec, Em. split; [|split; [|split]].
  - intros q Hq. destruct (Nat.eq_dec q r) as [->|Hne'].
    + exists rs. split; [apply upd_same|]. intros x Hx. apply in_or_app. right. exact Hx.
    + apply in_app_or in Hq. destruct Hq as [Hq|[Hq|[]]]; [|congruence]. destruct (M q Hq) as (rq & Eq & Hrq). exists rq.
      split; [rewrite upd_other by assumption; exact Eq|]. intros x Hx. apply in_or_app. left. apply Hrq. exact Hx.
  - intros q Hq. rewrite upd_other; [apply N; intro Q; apply Hq, in_or_app; left; exact Q|]. intros ->. apply Hq, in_or_app. right. left. reflexivity.
  - intros x Hx Ux. rewrite held_app in Hx. apply in_app_or in Hx. destruct Hx as [Hx|Hx]; [apply in_or_app; left; apply U; assumption|].
    apply in_or_app. right. unfold held in Hx. cbn [flat_map] in Hx. rewrite app_nil_r in Hx. apply in_holds in Hx. destruct Hx as [->|[Hc Ha]].
    + rewrite (HU Ux). left. reflexivity.
    + assert (NU : ~ unsplit h0 r) by (intros [Q|[Q|Q]]; [exact (Hc Q)|rewrite Q in Ha; discriminate|rewrite Q in Ha; discriminate]).
      destruct (HN NU) as (a & _ & [(b & _ & _ & Q)|(b & _ & Eb & ->)]); [exfalso; exact (Q x Ha)|]. right. left. congruence.
  - intros x Hx. apply in_app_or in Hx. rewrite held_app. destruct Hx as [Hx|Hx]; [destruct (K x Hx) as [Q|Q]; [left; exact Q|right; apply in_or_app; left; exact Q]|].
    unfold held at 2. cbn [flat_map]. rewrite app_nil_r.
    destruct SR as [[-> _]|(NU & a & b & -> & Ha & Hb)].
    + destruct Hx as [<-|[]]. right. apply in_or_app. right. left. reflexivity.
    + destruct Hx as [<-|[<-|[]]]; [left; exact Ha|]. destruct Hb as [(s & _ & Hb)|Hb]; [left; exact Hb|]. right. apply in_or_app. right.
      apply holds_act; [|exact Hb]. intros Q. apply NU. left. exact Q.
Qed.

Lemma nodup_app : forall (A : Type) (a b : list A), NoDup a -> NoDup b -> (forall x, In x a -> In x b -> False) -> NoDup (a ++ b).
Proof.
  intros A a b Ha Hb Hd. induction a as [|x q IH]; [exact Hb|]. cbn. inversion Ha; subst. constructor.
  - intros Q. apply in_app_or in Q. destruct Q as [Q|Q]; [contradiction|]. apply (Hd x); [left; reflexivity|exact Q].
  - apply IH; auto. intros y Hy. apply Hd. right. exact Hy.
Qed.
Lemma nodup_app_inv : forall (A : Type) (a b : list A), NoDup (a ++ b) -> NoDup a /\ NoDup b /\ (forall x, In x a -> In x b -> False).
Proof.
  intros A a b. induction a as [|x q IH]; intros H; [split; [constructor|split; [exact H|intros x []]]|]. cbn in H. inversion H; subst.
  destruct (IH H3) as (P1 & P2 & P3). split; [constructor; [intros Q; apply H2, in_or_app; left; exact Q|exact P1]|]. split; [exact P2|].
  intros y [<-|Hy] Hb; [apply H2, in_or_app; right; exact Hb|exact (P3 y Hy Hb)].
Qed.
Lemma fold_last : forall (A B : Type) (f : A -> B -> A) l x a, fold_left f (l ++ [x]) a = f (fold_left f l a) x.
Proof. intros. rewrite fold_left_app. reflexivity. Qed.

Lemma preprocess_seen : forall h ops, obj_wf h -> refs_wf h ops -> seen h ops (preprocess_objs h ops).
Proof.
  intros h ops W. induction ops as [|r ops IH] using rev_ind; intros R; [apply seen_init|]. unfold preprocess_objs in *. rewrite fold_last.
  destruct (seen_step h ops _ r W (IH ltac:(intros q Hq; apply R, in_or_app; left; exact Hq))) as (rs & _ & _ & S & _); [|exact S].
  apply R, in_or_app. right. left. reflexivity.
Qed.

(** every object used once: every layer of the preprocessed model is called once *)
Lemma called_once : forall h ops, obj_wf h -> refs_wf h ops -> NoDup (held h ops) -> NoDup (ps_called (preprocess_objs h ops)).
Proof.
  intros h ops W. induction ops as [|r ops IH] using rev_ind; intros R ND; [constructor|]. rewrite held_app in ND.
  destruct (nodup_app_inv _ _ _ ND) as (N1 & N2 & N3).
  assert (R1 : refs_wf h ops) by (intros q Hq; apply R, in_or_app; left; exact Hq).
  assert (Hr : r < h_next h) by (apply R, in_or_app; right; left; reflexivity).
  pose proof (preprocess_seen h ops W R1) as S. specialize (IH R1 N1). unfold preprocess_objs in *. rewrite fold_last.
  set (st := fold_left split_node ops _) in *.
  destruct (seen_step h ops st r W S Hr) as (rs & Ec & _ & _ & _ & _ & _ & Hn). rewrite Ec.
  destruct S as (((Nx & _) & C & _) & _ & _ & _ & K).
  assert (Hri : In r (held h [r])) by (left; reflexivity).
  assert (Hni : ~ In r ops). { intros Q. apply (N3 r); [|exact Hri]. unfold held. apply in_flat_map. exists r. split; [exact Q|left; reflexivity]. }
  assert (out : forall x, In x (held h [r]) -> x < h_next h -> ~ In x (ps_called st)).
  { intros x Hx Hlt Q. destruct (K x Q) as [Q'|Q']; [lia|]. exact (N3 x Q' Hx). }
  apply nodup_app; [exact IH| |].
  - destruct (Hn Hni) as [(_ & ->)|(_ & a & Ha & [(b & Hab & ->)|(b & Hb & _ & _ & ->)])]; [constructor; [intros []|constructor]| |];
      (constructor; [intros [Q|[]]; lia|constructor; [intros []|constructor]]).
  - intros x Hx Hrs. specialize (C x Hx). destruct (Hn Hni) as [(_ & ->)|(_ & a & Ha & [(b & Hab & ->)|(b & Hb & Hc & Hact & ->)])].
    + destruct Hrs as [<-|[]]. exact (out r Hri Hr Hx).
    + destruct Hrs as [<-|[<-|[]]]; lia.
    + destruct Hrs as [<-|[<-|[]]]; [lia|]. apply (out b); auto. unfold held. cbn [flat_map]. rewrite app_nil_r. apply holds_act; assumption.
Qed.
(** an object used twice: a layer of the preprocessed model is called twice *)
Lemma called_twice : forall h ops, obj_wf h -> refs_wf h ops -> plain_activations h ops -> ~ NoDup (held h ops) -> ~ NoDup (ps_called (preprocess_objs h ops)).
Proof.
  intros h ops W. induction ops as [|r ops IH] using rev_ind; intros R PA ND; [exfalso; apply ND; constructor|]. rewrite held_app in ND.
  assert (R1 : refs_wf h ops) by (intros q Hq; apply R, in_or_app; left; exact Hq).
  assert (PA1 : plain_activations h ops) by (intros q b Hq; apply PA, in_or_app; left; exact Hq).
  assert (Hr : r < h_next h) by (apply R, in_or_app; right; left; reflexivity).
  assert (PAr : forall b, lo_act (h_obj h r) = ALayer b -> unsplit h b) by (intros b; apply PA, in_or_app; right; left; reflexivity).
  pose proof (preprocess_seen h ops W R1) as S. specialize (IH R1 PA1). unfold preprocess_objs in *. rewrite fold_last.
  set (st := fold_left split_node ops _) in *.
  destruct (seen_step h ops st r W S Hr) as (rs & Ec & Hne & _ & Hin & HU & HN & _). rewrite Ec. intros Q.
  destruct (nodup_app_inv _ _ _ Q) as (Q1 & _ & Q3). destruct S as (_ & _ & _ & U & _).
  destruct (ListDec.NoDup_dec Nat.eq_dec (held h ops)) as [N1|N1]; [|exact (IH N1 Q1)].
  apply ND. unfold held at 2. cbn [flat_map]. rewrite app_nil_r. apply nodup_app; [exact N1| |].
  - unfold holds. constructor; [|destruct (lo_class _); try (constructor; fail); destruct (lo_act _); try (constructor; fail); constructor; (intros [] || constructor)].
    intros Hi. assert (Hb : lo_class (h_obj h r) <> CActivation /\ lo_act (h_obj h r) = ALayer r).
    { destruct (lo_class (h_obj h r)); try contradiction; destruct (lo_act (h_obj h r)) as [| |b]; try contradiction; destruct Hi as [->|[]]; split; auto; discriminate. }
    destruct Hb as [Hc Ha]. destruct (PAr r Ha) as [X|[X|X]]; [exact (Hc X)|congruence|congruence].
  - intros x Hx Hr'. apply in_holds in Hr'. destruct Hr' as [->|[Hc Ha]].
    + unfold held in Hx. apply in_flat_map in Hx. destruct Hx as (q & Hq & Hx). apply in_holds in Hx. destruct Hx as [->|[Hcq Haq]].
      * destruct rs as [|x rs]; [congruence|]. apply (Q3 x); [apply Hin; [exact Hq|left; reflexivity]|left; reflexivity].
      * pose proof (PA1 q r Hq Haq) as Ur. rewrite (HU Ur) in Q3. apply (Q3 r); [|left; reflexivity]. apply U; [|exact Ur].
        unfold held. apply in_flat_map. exists q. split; [exact Hq|apply holds_act; assumption].
    + assert (NU : ~ unsplit h r) by (intros [X|[X|X]]; [exact (Hc X)|congruence|congruence]).
      destruct (HN NU) as (a & _ & [(b & _ & _ & X)|(b & _ & Eb & Er)]); [exact (X x Ha)|]. assert (b = x) by congruence. subst b. rewrite Er in Q3.
      apply (Q3 x); [|right; left; reflexivity]. apply U; [exact Hx|apply PAr; exact Ha].
Qed.
