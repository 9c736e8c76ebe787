(** Proofs about the softmax removed by a conversion (C89) *)
From Coq Require Import String Ascii Reals List Arith Bool ZArith Lia Lra.
From Verif Require Import RLib Spec Spec_Layers M_Core M_Utils M_MergeLayers M_Ops M_Layers M_Convert M_State Spec_State P_State P_StateNames M_Names Spec_Names P_Names Spec_Softmax.
Import ListNotations.
Local Open Scope nat_scope.

Section Fn.
  Variable V : Type.
  Variable core : kclass -> V -> V.
  Variable act : string -> V -> V.
  Hypothesis K : keras_activations core act.
  Notation run := (call_model V core act).
  Notation one := (call_obj V core act).

  (** objects without a layer as activation *)
  Definition flat (h : heap) (rs : list nat) : Prop := forall q c, In q rs -> lo_act (h_obj h q) <> ALayer c.

  Lemma run_app : forall h a b x, run h (a ++ b) x = run h b (run h a x).
  Proof. intros. unfold call_model. apply fold_left_app. Qed.
  Lemma one_same : forall h h' q y, lo_class (h_obj h' q) = lo_class (h_obj h q) -> lo_act (h_obj h' q) = lo_act (h_obj h q) ->
    (forall c, lo_act (h_obj h q) <> ALayer c) -> one h' q y = one h q y.
  Proof.
    intros h h' q y C A N. unfold call_obj. rewrite C, A. destruct (lo_act (h_obj h q)) as [|s|b] eqn:E; [reflexivity|reflexivity|]. destruct (N b eq_refl).
  Qed.
  Lemma run_same : forall h h' rs y, (forall q, In q rs -> lo_class (h_obj h' q) = lo_class (h_obj h q) /\ lo_act (h_obj h' q) = lo_act (h_obj h q)) ->
    flat h rs -> run h' rs y = run h rs y.
  Proof.
    intros h h' rs. induction rs as [|r q IH]; intros y H F; [reflexivity|]. unfold call_model in *. cbn [fold_left].
    rewrite (one_same h h' r y); [|apply H; left; reflexivity|apply H; left; reflexivity|intros c; apply F; left; reflexivity].
    apply IH; [intros z Hz; apply H; right; exact Hz|intros z c Hz; apply F; right; exact Hz].
  Qed.
  Lemma run_ext : forall h h' rs, ext h h' -> refs_wf h rs -> flat h rs -> flat h' rs /\ forall y, run h' rs y = run h rs y.
  Proof.
    intros h h' rs [_ X] R F. split.
    - intros q c Hq. destruct (X q (R q Hq)) as (_ & A & _). rewrite A. apply F. exact Hq.
    - intros y. apply run_same; [|exact F]. intros q Hq. destruct (X q (R q Hq)) as (C & A & _). split; assumption.
  Qed.

  (** one layer, and the objects that replace it *)
  Lemma split_function : forall h0 h r, ext h0 h -> obj_wf h0 -> r < h_next h0 -> simple h0 [r] ->
    flat (fst (split_obj h r)) (snd (split_obj h r)) /\ forall y, run (fst (split_obj h r)) (snd (split_obj h r)) y = one h0 r y.
  Proof.
    intros h0 h r [Nx X] W Hr SP. destruct K as [KA KL]. destruct (X r Hr) as (C & A & _). unfold split_obj.
    destruct (is_activation_class (lo_class (h_obj h r))) eqn:Ec.
    - cbn [fst snd]. assert (N : forall c, lo_act (h_obj h0 r) <> ALayer c).
      { intros c E. destruct (SP r c (or_introl eq_refl) E) as [N _]. apply N. rewrite <- C. apply is_act_true. exact Ec. }
      split; [intros q c [<-|[]]; rewrite A; apply N|]. intros y. cbn. apply one_same; assumption.
    - destruct (lo_act (h_obj h r)) as [|s|b] eqn:Ea.
      + cbn [fst snd]. split; [intros q c [<-|[]]; rewrite Ea; discriminate|]. intros y. cbn. apply one_same; [exact C|congruence|]. intros c. rewrite <- A. discriminate.
      + destruct (String.eqb_spec s "linear") as [Es|Es].
        * cbn [fst snd]. split; [intros q c [<-|[]]; rewrite Ea; discriminate|]. intros y. cbn. apply one_same; [exact C|congruence|]. intros c. rewrite <- A. discriminate.
        * cbn [alloc fst snd h_obj h_next].
          assert (E1 : forall u v, upd (upd (h_obj h) (h_next h) u) (S (h_next h)) v (h_next h) = u) by (intros; rewrite upd_other by lia; apply upd_same).
          assert (E2 : forall u v, upd (upd (h_obj h) (h_next h) u) (S (h_next h)) v (S (h_next h)) = v) by (intros; apply upd_same).
          split.
          -- intros q c [<-|[<-|[]]]; cbn [h_obj]; [rewrite E1|rewrite E2]; cbn; discriminate.
          -- intros y. unfold call_model. cbn [fold_left]. unfold call_obj at 1 2. cbn [h_obj]. rewrite !E1, !E2. cbn [lo_act lo_class act_of].
             rewrite KL, KA. unfold call_obj. rewrite <- A, C. reflexivity.
      + cbn [alloc fst snd]. destruct (SP r b (or_introl eq_refl) (eq_sym A)) as [_ Fb]. assert (Hb : b < h_next h0) by (apply (W r b Hr); congruence).
        destruct (X b Hb) as (Cb & Ab & _).
        set (h1 := mk_heap (upd (h_obj h) (h_next h) (mk_lobj (lo_name (h_obj h r) ++ "_wo_activation") (lo_class (h_obj h r)) (AName "linear"))) (S (h_next h))).
        set (h2 := rename h1 b _).
        assert (P : forall q, lo_class (h_obj h2 q) = lo_class (h_obj h1 q) /\ lo_act (h_obj h2 q) = lo_act (h_obj h1 q)) by (intros q; apply rename_class).
        assert (H1 : h_obj h1 (h_next h) = mk_lobj (lo_name (h_obj h r) ++ "_wo_activation") (lo_class (h_obj h r)) (AName "linear")) by (cbn; apply upd_same).
        assert (H2 : h_obj h1 b = h_obj h b) by (cbn; apply upd_other; lia).
        split.
        * intros q c [<-|[<-|[]]]; destruct (P (h_next h)) as [_ ->] || destruct (P b) as [_ ->]; [rewrite H1; discriminate|rewrite H2, Ab; apply Fb].
        * intros y. unfold call_model. cbn [fold_left]. unfold call_obj at 1 2. destruct (P (h_next h)) as [-> ->], (P b) as [-> ->]. rewrite H1, H2. cbn [lo_act lo_class act_of].
          rewrite KL. unfold call_obj. rewrite <- A, C. cbn [act_of]. rewrite Cb, Ab. destruct (lo_act (h_obj h0 b)) as [|s|c] eqn:Eb; [reflexivity|reflexivity|]. destruct (Fb c eq_refl).
  Qed.

  (** the loop *)
  Definition finv (h0 : heap) (pre : list nat) (st : pstate) : Prop :=
    (forall r rs, ps_map st r = Some rs -> flat (ps_heap st) rs /\ forall y, run (ps_heap st) rs y = one h0 r y) /\
    flat (ps_heap st) (ps_called st) /\ forall y, run (ps_heap st) (ps_called st) y = run h0 pre y.

  Lemma finv_step : forall h0 pre st r, obj_wf h0 -> pinv h0 st -> r < h_next h0 -> simple h0 [r] -> finv h0 pre st -> finv h0 (pre ++ [r]) (split_node st r).
  Proof.
    intros h0 pre st r W (E & R & M) Hr S (F1 & F2 & F3). unfold split_node.
    assert (X : exists h rs, match ps_map st r with Some rs => (ps_heap st, rs) | None => split_obj (ps_heap st) r end = (h, rs) /\ ext (ps_heap st) h /\ refs_wf h rs /\
              flat h rs /\ forall y, run h rs y = one h0 r y).
    { destruct (ps_map st r) as [rs|] eqn:Em.
      - exists (ps_heap st), rs. split; [reflexivity|]. split; [apply ext_refl|]. split; [exact (proj2 (M r rs Em))|]. exact (F1 r rs Em).
      - destruct (split_obj_spec0 h0 (ps_heap st) r E W Hr) as (A & _ & D). exists (fst (split_obj (ps_heap st) r)), (snd (split_obj (ps_heap st) r)).
        split; [apply surjective_pairing|]. split; [exact A|]. split; [exact D|]. apply split_function; assumption. }
    destruct X as (h & rs & -> & A & D & FL & FR). pose proof (rename_all_ext rs h (ps_count st)) as Rn. destruct (rename_all h (ps_count st) rs) as [h' c]. cbn [fst] in Rn.
    assert (AR : ext (ps_heap st) h') by (eapply ext_trans; eassumption).
    destruct (run_ext h h' rs Rn D FL) as [G1 G2]. destruct (run_ext _ _ _ AR R F2) as [G3 G4].
    split; [|split]; cbn [ps_heap ps_map ps_called].
    - intros q rs' Hq. unfold upd in Hq. destruct (Nat.eqb_spec q r) as [->|_].
      + injection Hq as <-. split; [exact G1|]. intros y. rewrite G2. apply FR.
      + destruct (F1 q rs' Hq) as [Q1 Q2]. destruct (run_ext _ _ _ AR (proj2 (M q rs' Hq)) Q1) as [Q3 Q4]. split; [exact Q3|]. intros y. rewrite Q4. apply Q2.
    - intros q k Hq. apply in_app_or in Hq. destruct Hq; [apply G3|apply G1]; assumption.
    - intros y. rewrite run_app, G4, F3, G2, FR, run_app. reflexivity.
  Qed.
  Lemma simple_app : forall h a b, simple h (a ++ b) -> simple h a /\ simple h b.
  Proof. intros h a b S. split; intros r c Hr; apply S, in_or_app; auto. Qed.
  Lemma preprocess_function : forall h ops, obj_wf h -> refs_wf h ops -> simple h ops -> finv h ops (preprocess_objs h ops).
  Proof.
    intros h ops W. induction ops as [|r ops IH] using rev_ind; intros R S.
    - split; [discriminate|]. split; [intros q c []|reflexivity].
    - destruct (simple_app _ _ _ S) as [S1 S2]. assert (R1 : refs_wf h ops) by (intros q Hq; apply R, in_or_app; left; exact Hq).
      unfold preprocess_objs in *. rewrite fold_app. cbn [fold_left]. apply finv_step; auto.
      + apply pinv_fold; auto using pinv_init.
      + apply R, in_or_app. right. left. reflexivity.
  Qed.

  (** the last object of the preprocessed model *)
  Lemma last_object : forall h ops l, obj_wf h -> refs_wf h (ops ++ [l]) -> simple h (ops ++ [l]) -> no_softmax h [l] ->
    let st := preprocess_objs h (ops ++ [l]) in exists q b, ps_called st = q ++ [b] /\ lo_class (h_obj (ps_heap st) b) <> CSoftmax /\
      (ends_softmax h l <-> lo_act (h_obj (ps_heap st) b) = AName "softmax").
  Proof.
    intros h ops l W R SP NS. assert (R1 : refs_wf h ops) by (intros q Hq; apply R, in_or_app; left; exact Hq).
    assert (Hl : l < h_next h) by (apply R, in_or_app; right; left; reflexivity).
    assert (G : forall pre, refs_wf h pre -> simple h pre -> forall r rs, ps_map (preprocess_objs h pre) r = Some rs -> r < h_next h -> simple h [r] -> no_softmax h [r] ->
      exists q b, rs = q ++ [b] /\ lo_class (h_obj (ps_heap (preprocess_objs h pre)) b) <> CSoftmax /\
        (ends_softmax h r <-> lo_act (h_obj (ps_heap (preprocess_objs h pre)) b) = AName "softmax")).
    { clear ops l R SP NS R1 Hl. intros pre. induction pre as [|a pre IH] using rev_ind; intros R SP r rs Hm Hr Sr NS; [discriminate|].
      assert (R1 : refs_wf h pre) by (intros q Hq; apply R, in_or_app; left; exact Hq). destruct (simple_app _ _ _ SP) as [S1 _]. specialize (IH R1 S1).
      assert (I : pinv h (preprocess_objs h pre)) by (apply pinv_fold; auto using pinv_init).
      unfold preprocess_objs in *. rewrite fold_app in Hm |- *. cbn [fold_left] in *. set (st := fold_left split_node pre _) in *.
      assert (Ha : a < h_next h) by (apply R, in_or_app; right; left; reflexivity).
      destruct (split_node_spec h st a W I Ha) as (_ & _ & _ & _ & _ & _ & I').
      unfold split_node in *. destruct I as (E & C & M).
      assert (T : forall h1 h2 rs0, ext h1 h2 -> refs_wf h1 rs0 ->
        (exists q b, rs0 = q ++ [b] /\ lo_class (h_obj h1 b) <> CSoftmax /\ (ends_softmax h r <-> lo_act (h_obj h1 b) = AName "softmax")) ->
        exists q b, rs0 = q ++ [b] /\ lo_class (h_obj h2 b) <> CSoftmax /\ (ends_softmax h r <-> lo_act (h_obj h2 b) = AName "softmax")).
      { intros h1 h2 rs0 [_ X] RW (q & b & -> & B1 & B2). exists q, b. split; [reflexivity|]. destruct (X b) as (X1 & X2 & _).
        { apply RW, in_or_app. right. left. reflexivity. } rewrite X1, X2. split; assumption. }
      destruct (ps_map st a) as [rs1|] eqn:Em.
      - pose proof (rename_all_ext rs1 (ps_heap st) (ps_count st)) as Rn. destruct (rename_all _ _ _) as [h' c]. cbn [fst ps_map ps_heap] in *.
        assert (Hm' : ps_map st r = Some rs). { unfold upd in Hm. destruct (Nat.eqb_spec r a) as [->|_]; [congruence|exact Hm]. }
        eapply T; [exact Rn|exact (proj2 (M r rs Hm'))|]. apply IH; assumption.
      - destruct (split_obj_spec0 h (ps_heap st) a E W Ha) as (A & _ & D). destruct (split_obj (ps_heap st) a) as [h1 rs1] eqn:Es. cbn [fst snd] in A, D.
        pose proof (rename_all_ext rs1 h1 (ps_count st)) as Rn. destruct (rename_all h1 (ps_count st) rs1) as [h' c]. cbn [fst ps_map ps_heap] in *.
        unfold upd in Hm. destruct (Nat.eqb_spec r a) as [->|_].
        + injection Hm as <-. eapply T; [exact Rn|exact D|]. destruct E as [Nx X]. destruct (X a Ha) as (Ca & Aa & _).
          assert (NSa : lo_class (h_obj h a) <> CSoftmax) by (apply NS; left; reflexivity).
          unfold split_obj in Es. destruct (is_activation_class (lo_class (h_obj (ps_heap st) a))) eqn:Ec.
          * injection Es as <- <-. exists [], a. split; [reflexivity|]. rewrite Ca, Aa. split; [exact NSa|]. split; [|intros Q; left; exact Q].
            intros [Q|(b & Q & _)]; [exact Q|]. destruct (Sr a b (or_introl eq_refl) Q) as [N _]. destruct N. rewrite <- Ca. apply is_act_true. exact Ec.
          * destruct (lo_act (h_obj (ps_heap st) a)) as [|s|b] eqn:Ea.
            -- injection Es as <- <-. exists [], a. split; [reflexivity|]. rewrite Ca, Ea. split; [exact NSa|]. split; [|discriminate].
               intros [Q|(b & Q & _)]; rewrite <- Aa in Q; discriminate.
            -- destruct (String.eqb_spec s "linear") as [El|El].
               ++ injection Es as <- <-. exists [], a. split; [reflexivity|]. rewrite Ca, Ea. split; [exact NSa|]. split; [|intros Q; left; congruence].
                  intros [Q|(b & Q & _)]; rewrite <- Aa in Q; [exact Q|discriminate].
               ++ injection Es as <- <-. exists [h_next (ps_heap st)], (S (h_next (ps_heap st))). split; [reflexivity|]. cbn [h_obj]. rewrite upd_same. cbn. split; [discriminate|].
                  split; [|intros Q; left; congruence]. intros [Q|(b & Q & _)]; rewrite <- Aa in Q; [exact Q|discriminate].
            -- injection Es as <- <-. exists [h_next (ps_heap st)], b. split; [reflexivity|].
               assert (Hb : b < h_next h) by (apply (W a b Ha); congruence). destruct (X b Hb) as (Cb & Ab & _).
               match goal with |- context [rename ?hh b ?s] => destruct (rename_class hh b s b) as [-> ->] end. cbn [h_obj]. rewrite upd_other by lia. rewrite Cb, Ab. split.
               ++ apply NS. unfold held. cbn [flat_map]. rewrite app_nil_r. apply holds_act; [|congruence]. intros Q. rewrite <- Ca in Q. rewrite Q in Ec. discriminate.
               ++ split; [|intros Q; right; exists b; split; [congruence|exact Q]]. intros [Q|(b' & Q & Q')]; rewrite <- Aa in Q; [discriminate|]. injection Q as <-. exact Q'.
        + eapply T; [eapply ext_trans; [exact A|exact Rn]|exact (proj2 (M r rs Hm))|]. apply IH; assumption. }
    cbn zeta. pose proof (G (ops ++ [l]) R SP l) as G'. pose proof (simple_app _ _ _ SP) as [_ Sl].
    assert (I : pinv h (preprocess_objs h ops)) by (apply pinv_fold; auto using pinv_init).
    unfold preprocess_objs in *. rewrite fold_app in *. cbn [fold_left] in *. set (st := fold_left split_node ops _) in *.
    destruct (split_node_spec h st l W I Hl) as (h2 & rs & _ & _ & _ & Eq & _). rewrite Eq in G' |- *. cbn [ps_map ps_heap ps_called] in *.
    destruct (G' rs) as (q & b & -> & B1 & B2); [apply upd_same|exact Hl|exact Sl|exact NS|].
    exists (ps_called st ++ q), b. rewrite app_assoc. split; [reflexivity|]. split; assumption.
  Qed.

  (** the last object is called once when the objects of the last layer are not used before *)
  Lemma last_once : forall h ops l q b, obj_wf h -> refs_wf h (ops ++ [l]) -> (forall z, In z (held h [l]) -> ~ In z (held h ops)) ->
    ps_called (preprocess_objs h (ops ++ [l])) = q ++ [b] -> ~ In b q.
  Proof.
    intros h ops l q b W R ND Ec. assert (R1 : refs_wf h ops) by (intros z Hz; apply R, in_or_app; left; exact Hz).
    assert (Hl : l < h_next h) by (apply R, in_or_app; right; left; reflexivity).
    pose proof (preprocess_seen h ops W R1) as Se. unfold preprocess_objs in *. rewrite fold_app in Ec. cbn [fold_left] in Ec.
    set (st := fold_left split_node ops _) in *. destruct (seen_step h ops st l W Se Hl) as (rs & Er & _ & _ & _ & _ & _ & Hn). rewrite Ec in Er.
    assert (Hil : In l (held h [l])) by (left; reflexivity).
    assert (Hni : ~ In l ops). { intros Q. apply (ND l Hil). unfold held. apply in_flat_map. exists l. split; [exact Q|left; reflexivity]. }
    destruct Se as (((Nx & _) & C & _) & _ & _ & _ & KK).
    assert (out : forall z, In z (held h [l]) -> z < h_next h -> ~ In z (ps_called st)).
    { intros z Hz Hlt Q. destruct (KK z Q) as [Q'|Q']; [lia|]. exact (ND z Hz Q'). }
    destruct (Hn Hni) as [(_ & ->)|(_ & a & Ha & [(b' & Hab & ->)|(b' & Hb & Hc & Hact & ->)])].
    - apply app_inj_tail in Er. destruct Er as [-> ->]. apply out; assumption.
    - change [a; b'] with ([a] ++ [b']) in Er. rewrite app_assoc in Er. apply app_inj_tail in Er. destruct Er as [-> ->]. intros Q. apply in_app_or in Q.
      destruct Q as [Q|[Q|[]]]; [specialize (C _ Q); lia|lia].
    - change [a; b'] with ([a] ++ [b']) in Er. rewrite app_assoc in Er. apply app_inj_tail in Er. destruct Er as [-> ->]. intros Q. apply in_app_or in Q.
      destruct Q as [Q|[Q|[]]]; [|lia]. revert Q. apply out; [|exact Hb]. unfold held. cbn [flat_map]. rewrite app_nil_r. apply holds_act; assumption.
  Qed.

  (** the converted network is the network, without its final softmax *)
  Lemma logits : forall h ops l, obj_wf h -> refs_wf h (ops ++ [l]) -> simple h (ops ++ [l]) -> no_softmax h [l] -> (forall z, In z (held h [l]) -> ~ In z (held h ops)) ->
    let '(h1, called) := linear_end (ps_heap (preprocess_objs h (ops ++ [l]))) (ps_called (preprocess_objs h (ops ++ [l]))) in
    forall x, (ends_softmax h l -> run h (ops ++ [l]) x = act "softmax" (run h1 called x)) /\ (~ ends_softmax h l -> run h (ops ++ [l]) x = run h1 called x).
  Proof.
    intros h ops l W R S NS ND. destruct (preprocess_function h (ops ++ [l]) W R S) as (_ & F & Fn).
    destruct (last_object h ops l W R S NS) as (q & b & Ec & B1 & B2). pose proof (last_once h ops l q b W R ND Ec) as Nb.
    set (st := preprocess_objs h (ops ++ [l])) in *. unfold linear_end. rewrite Ec in *. rewrite rev_app_distr. cbn [rev app].
    unfold softmax_to_linear. set (hb := ps_heap st) in *. destruct K as [KA KL].
    destruct (lo_act (h_obj hb b)) as [|s|c] eqn:Eb.
    1,3: destruct (lo_class (h_obj hb b)); try contradiction; rewrite rev_involutive; intros x; (split; [intros Q; apply B2 in Q; discriminate|intros _; symmetry; apply Fn]).
    destruct (String.eqb_spec s "softmax") as [->|Ns].
    2: { destruct (lo_class (h_obj hb b)); try contradiction; rewrite rev_involutive; intros x; (split; [intros Q; apply B2 in Q; congruence|intros _; symmetry; apply Fn]). }
    assert (G : forall cl, cl = lo_class (h_obj hb b) -> forall x,
      (ends_softmax h l -> run h (ops ++ [l]) x = act "softmax" (run (set_obj hb b (mk_lobj (lo_name (h_obj hb b)) cl (AName "linear"))) (rev (rev q) ++ [b]) x)) /\
      (~ ends_softmax h l -> run h (ops ++ [l]) x = run (set_obj hb b (mk_lobj (lo_name (h_obj hb b)) cl (AName "linear"))) (rev (rev q) ++ [b]) x)).
    { intros cl -> x. split; [|intros N; destruct N; apply B2; reflexivity]. intros _. rewrite rev_involutive, <- Fn, !run_app.
      set (h1 := set_obj _ _ _). rewrite (run_same hb h1 q x).
      - unfold call_model. cbn [fold_left]. unfold call_obj, h1. cbn [set_obj h_obj]. rewrite upd_same, Eb. cbn [lo_act lo_class act_of]. rewrite KL. reflexivity.
      - intros z Hz. unfold h1. cbn [set_obj h_obj]. rewrite upd_other by congruence. split; reflexivity.
      - intros z k Hz. apply F, in_or_app. left. exact Hz. }
    destruct (lo_class (h_obj hb b)) eqn:Ecl; try contradiction; apply (G _ eq_refl).
  Qed.
End Fn.

(** a layer with softmax called twice: both softmax are removed *)
Definition h_twice (c : nat) : heap := mk_heap (fun q => match q with 0 => mk_lobj "input" CInput ANone | _ => mk_lobj "d" (COther c) (AName "softmax") end) 2.
Lemma twice : forall V core act c, @keras_activations V core act ->
  let '(h1, called) := linear_end (ps_heap (preprocess_objs (h_twice c) [1; 1])) (ps_called (preprocess_objs (h_twice c) [1; 1])) in
  forall x, call_model V core act h1 called x = core (COther c) (core (COther c) x) /\
    call_model V core act (h_twice c) [1; 1] x = act "softmax"%string (core (COther c) (act "softmax"%string (core (COther c) x))).
Proof.
  intros V core act c [KA KL]. lazy -[call_model h_twice].
  intros x. split; [|reflexivity]. lazy. rewrite ?KA, ?KL. reflexivity.
Qed.
Lemma twice_wrong : exists (core : kclass -> R -> R) (act : string -> R -> R), keras_activations core act /\ (forall y, act "softmax"%string y = 1%R) /\
  let '(h1, called) := linear_end (ps_heap (preprocess_objs (h_twice 0) [1; 1])) (ps_called (preprocess_objs (h_twice 0) [1; 1])) in
  exists l, call_model R core act (h_twice 0) [1; 1] 1%R = act "softmax"%string (core (COther 0) l) /\ l = act "softmax"%string (core (COther 0) 1%R) /\
    call_model R core act h1 called 1%R <> core (COther 0) l.
Proof.
  exists (fun k y => match k with COther _ => (2 * y)%R | _ => y end), (fun s y => if String.eqb s "softmax" then 1%R else y).
  assert (K : keras_activations (fun k y => match k with COther _ => (2 * y)%R | _ => y end) (fun s y => if String.eqb s "softmax" then 1%R else y)) by (split; reflexivity).
  split; [exact K|]. split; [reflexivity|]. pose proof (twice R _ _ 0 K) as T.
  destruct (linear_end _ _) as [h1 called]. destruct (T 1%R) as [T1 T2]. exists 1%R. split; [exact T2|]. split; [reflexivity|]. rewrite T1. lra.
Qed.

(** Dense with softmax after Dense with a layer as activation *)
Definition h_two : heap := mk_heap (fun q => match q with 0 => mk_lobj "input" CInput ANone | 1 => mk_lobj "r" (COther 5) ANone | 2 => mk_lobj "d" (COther 1) (ALayer 1) | _ => mk_lobj "e" (COther 2) (AName "softmax") end) 4.
Lemma logits_example : obj_wf h_two /\ refs_wf h_two ([2; 2] ++ [3]) /\ simple h_two ([2; 2] ++ [3]) /\ no_softmax h_two [3] /\ (forall z, In z (held h_two [3]) -> ~ In z (held h_two [2; 2])) /\ ends_softmax h_two 3 /\ ~ ends_softmax h_two 2.
Proof.
  split. { intros r b Hr E. cbn in *. destruct r as [|[|[|r]]]; cbn in E; try discriminate. injection E as <-. lia. }
  split. { intros r [<-|[<-|[<-|[]]]]; cbn; lia. }
  split. { intros r b [<-|[<-|[<-|[]]]] E; cbn in E; try discriminate; (injection E as <-; split; cbn; discriminate). }
  split. { intros x [<-|[]]; discriminate. }
  split. { cbn. intros z [<-|[]]. intuition discriminate. }
  split. { left. reflexivity. }
  intros [Q|(b & Q & Q')]; cbn in Q; [discriminate|]. injection Q as <-. discriminate.
Qed.
Lemma preprocessed : forall V core act, @keras_activations V core act -> forall h ops x, obj_wf h -> refs_wf h ops -> simple h ops ->
  call_model V core act (ps_heap (preprocess_objs h ops)) (ps_called (preprocess_objs h ops)) x = call_model V core act h ops x.
Proof. intros V core act K h ops x W R S. apply (preprocess_function V core act K h ops W R S). Qed.
Lemma twice_refuted : (forall m, get_direction m = FORWARD -> exists names, clone_layers m (h_twice 0) [0] [1; 1] = Ok names) /\
  exists (core : kclass -> R -> R) (act : string -> R -> R), keras_activations core act /\ (forall y, act "softmax"%string y = 1%R) /\
  let '(h1, called) := linear_end (ps_heap (preprocess_objs (h_twice 0) [1; 1])) (ps_called (preprocess_objs (h_twice 0) [1; 1])) in
  exists l, call_model R core act (h_twice 0) [1; 1] 1%R = act "softmax"%string (core (COther 0) l) /\ l = act "softmax"%string (core (COther 0) 1%R) /\
    call_model R core act h1 called 1%R <> core (COther 0) l.
Proof. split; [|exact twice_wrong]. intros [] H; try discriminate H; eexists; vm_compute; reflexivity. Qed.
