(** Proofs about layer objects (C41), names (C42) and freezing (C43) *)
From Coq Require Import String Ascii Reals List Arith Bool ZArith Lia Lra DecimalString Permutation.
From Verif Require Import RLib Spec Spec_Layers M_Core M_Utils M_MergeLayers M_Ops M_Layers M_Convert M_State Spec_State.
Import ListNotations.
Local Open Scope nat_scope.

(** ** Objects: class and activation are kept, names only grow *)
Definition slen := String.length.
Lemma slen_app : forall a b, slen (a ++ b)%string = slen a + slen b.
Proof. induction a; intros; cbn; [reflexivity|]. unfold slen in IHa. rewrite IHa. reflexivity. Qed.

(** h' extends h: same classes and activations of the objects of h *)
Definition ext (h h' : heap) : Prop :=
  h_next h <= h_next h' /\
  forall q, q < h_next h -> lo_class (h_obj h' q) = lo_class (h_obj h q) /\ lo_act (h_obj h' q) = lo_act (h_obj h q) /\
                            slen (lo_name (h_obj h q)) <= slen (lo_name (h_obj h' q)).
Lemma ext_refl : forall h, ext h h.
Proof. intros h. split; [lia|]. intros. repeat split; lia. Qed.
Lemma ext_trans : forall a b c, ext a b -> ext b c -> ext a c.
Proof.
  intros a b c [N1 H1] [N2 H2]. split; [lia|]. intros q Hq. destruct (H1 q Hq) as (C1 & A1 & L1).
  destruct (H2 q ltac:(lia)) as (C2 & A2 & L2). repeat split; [congruence|congruence|lia].
Qed.
Lemma upd_same : forall B (f : nat -> B) k v, upd f k v k = v.
Proof. intros. unfold upd. rewrite Nat.eqb_refl. reflexivity. Qed.
Lemma upd_other : forall B (f : nat -> B) k v j, j <> k -> upd f k v j = f j.
Proof. intros. unfold upd. destruct (Nat.eqb_spec j k); [contradiction|reflexivity]. Qed.
Lemma alloc_ext : forall h o, ext h (fst (alloc h o)).
Proof.
  intros. cbn. split; [cbn; lia|]. intros q Hq. cbn. rewrite upd_other by lia. repeat split; lia.
Qed.
Lemma rename_at : forall h r s, h_obj (rename h r s) r = mk_lobj s (lo_class (h_obj h r)) (lo_act (h_obj h r)).
Proof. intros. cbn. apply upd_same. Qed.
Lemma rename_other : forall h r s q, q <> r -> h_obj (rename h r s) q = h_obj h q.
Proof. intros. cbn. apply upd_other. assumption. Qed.
Lemma rename_class : forall h r s q, lo_class (h_obj (rename h r s) q) = lo_class (h_obj h q) /\ lo_act (h_obj (rename h r s) q) = lo_act (h_obj h q).
Proof.
  intros. destruct (Nat.eq_dec q r) as [E|E]; [subst; rewrite rename_at|rewrite rename_other by assumption]; split; reflexivity.
Qed.
Lemma rename_ext : forall h r s, slen (lo_name (h_obj h r)) <= slen s -> ext h (rename h r s).
Proof.
  intros h r s Hs. split; [cbn; lia|]. intros q Hq. destruct (rename_class h r s q) as [-> ->]. repeat split.
  destruct (Nat.eq_dec q r) as [E|E]; [subst; rewrite rename_at; exact Hs|rewrite rename_other by assumption; lia].
Qed.
Lemma add_count_len : forall s c, slen s < slen (add_count s c).
Proof. intros. unfold add_count. rewrite !slen_app. cbn. lia. Qed.
Lemma rename_all_ext : forall rs h c, ext h (fst (rename_all h c rs)).
Proof.
  induction rs as [|r q IH]; intros; cbn; [apply ext_refl|].
  eapply ext_trans; [|apply IH]. apply rename_ext. apply Nat.lt_le_incl, add_count_len.
Qed.
Lemma rename_all_grows : forall rs h c r, In r rs -> refs_wf h rs -> slen (lo_name (h_obj h r)) < slen (lo_name (h_obj (fst (rename_all h c rs)) r)).
Proof.
  induction rs as [|a q IH]; intros h c r Hin Hwf; [destruct Hin|].
  cbn [rename_all]. set (h' := rename h a (add_count (lo_name (h_obj h a)) c)).
  destruct (Nat.eq_dec a r) as [E|E].
  - subst. pose proof (rename_all_ext q h' (S c)) as [_ X]. destruct (X r) as (_ & _ & L).
    { cbn. apply Hwf. left; reflexivity. }
    eapply Nat.lt_le_trans; [|exact L]. unfold h'. rewrite rename_at. cbn [lo_name]. apply add_count_len.
  - destruct Hin as [Hin|Hin]; [contradiction|].
    replace (h_obj h r) with (h_obj h' r) by (unfold h'; apply rename_other; congruence).
    apply IH; [exact Hin|]. intros x Hx. cbn. apply Hwf. right; exact Hx.
Qed.

(** what split_obj returns for r *)
Definition split_res (h0 : heap) (r : nat) (rs : list nat) : Prop :=
  (rs = [r] /\ unsplit h0 r) \/
  (~ unsplit h0 r /\ exists a b, rs = [a; b] /\ h_next h0 <= a /\
     ((exists s, lo_act (h_obj h0 r) = AName s /\ h_next h0 <= b) \/ lo_act (h_obj h0 r) = ALayer b)).
Lemma is_act_true : forall c, is_activation_class c = true -> c = CActivation.
Proof. intros []; intros; try discriminate; reflexivity. Qed.
Lemma ext_unsplit : forall h h' r, ext h h' -> r < h_next h -> (unsplit h' r <-> unsplit h r).
Proof. intros h h' r [_ X] Hr. destruct (X r Hr) as (C & A & _). unfold unsplit. rewrite C, A. reflexivity. Qed.
Lemma split_res_back : forall h h' r rs, ext h h' -> r < h_next h -> split_res h' r rs -> split_res h r rs.
Proof.
  intros h h' r rs E Hr [[-> U]|(N & a & b & -> & Ha & Hb)].
  - left. split; [reflexivity|]. apply (ext_unsplit h h'); assumption.
  - right. split. { rewrite <- (ext_unsplit h h' r E Hr). exact N. }
    destruct E as [Nx X]. destruct (X r Hr) as (_ & A & _). rewrite A in Hb.
    exists a, b. split; [reflexivity|]. split; [lia|].
    destruct Hb as [(s & Hs & Hb)|Hb]; [left; exists s; split; [exact Hs|lia]|right; exact Hb].
Qed.
Lemma ext_wf : forall h0 h, ext h0 h -> obj_wf h0 -> forall r b, r < h_next h0 -> lo_act (h_obj h r) = ALayer b -> b < h_next h0.
Proof. intros h0 h [_ X] W r b Hr E. destruct (X r Hr) as (_ & A & _). rewrite A in E. exact (W r b Hr E). Qed.

(** split_obj on a heap that extends h0, at a reference of h0 *)
Lemma split_obj_spec0 : forall h0 h r, ext h0 h -> obj_wf h0 -> r < h_next h0 ->
  ext h (fst (split_obj h r)) /\ split_res h0 r (snd (split_obj h r)) /\ refs_wf (fst (split_obj h r)) (snd (split_obj h r)).
Proof.
  intros h0 h r E W Hr.
  assert (G : ext h (fst (split_obj h r)) /\ split_res h r (snd (split_obj h r)) /\ refs_wf (fst (split_obj h r)) (snd (split_obj h r))).
  { destruct (lo_act (h_obj h r)) as [|s|b] eqn:Ea.
    1,2: assert (Hr1 : r < h_next h) by (destruct E; lia).
    all: unfold split_obj.
    - rewrite Ea. destruct (is_activation_class (lo_class (h_obj h r))); cbn [fst snd];
        (split; [apply ext_refl|split; [left; split; [reflexivity|right; left; exact Ea]|intros x [X|[]]; subst; exact Hr1]]).
    - rewrite Ea. destruct (is_activation_class (lo_class (h_obj h r))) eqn:Ec; [|destruct (String.eqb_spec s "linear") as [Es|Es]]; cbn [fst snd alloc].
      + split; [apply ext_refl|split; [left; split; [reflexivity|left; apply is_act_true; exact Ec]|intros x [X|[]]; subst; exact Hr1]].
      + subst s. split; [apply ext_refl|split; [left; split; [reflexivity|right; right; exact Ea]|intros x [X|[]]; subst; exact Hr1]].
      + split; [|split].
        * split; [cbn; lia|]. intros q Hq. cbn. rewrite !upd_other by lia. repeat split; lia.
        * right. split. { intros [U|[U|U]]; [rewrite U in Ec; discriminate|congruence|congruence]. }
          exists (h_next h), (S (h_next h)). split; [reflexivity|]. split; [lia|]. left. exists s. split; [exact Ea|lia].
        * intros x [X|[X|[]]]; subst; cbn; lia.
    - rewrite Ea. pose proof (ext_wf h0 h E W r b Hr Ea) as Hb. assert (Hle : h_next h0 <= h_next h) by (destruct E; assumption).
      destruct (is_activation_class (lo_class (h_obj h r))) eqn:Ec; cbn [fst snd alloc].
      + split; [apply ext_refl|split; [left; split; [reflexivity|left; apply is_act_true; exact Ec]|intros x [X|[]]; subst; lia]].
      + split; [|split].
        * eapply ext_trans; [apply (alloc_ext h (mk_lobj (lo_name (h_obj h r) ++ "_wo_activation")%string (lo_class (h_obj h r)) (AName "linear")))|].
          cbn [alloc fst]. apply rename_ext. rewrite !slen_app. lia.
        * right. split. { intros [U|[U|U]]; [rewrite U in Ec; discriminate|congruence|congruence]. }
          exists (h_next h), b. split; [reflexivity|]. split; [lia|]. right. exact Ea.
        * intros x [X|[X|[]]]; subst; cbn; lia. }
  destruct G as (G1 & G2 & G3). split; [exact G1|]. split; [|exact G3].
  apply (split_res_back h0 h); assumption.
Qed.

(** invariant of the loop on the nodes *)
Definition pinv (h0 : heap) (st : pstate) : Prop :=
  ext h0 (ps_heap st) /\ refs_wf (ps_heap st) (ps_called st) /\
  forall r rs, ps_map st r = Some rs -> split_res h0 r rs /\ refs_wf (ps_heap st) rs.
Lemma refs_ext : forall h h' l, ext h h' -> refs_wf h l -> refs_wf h' l.
Proof. intros h h' l [N _] H r Hr. specialize (H r Hr). lia. Qed.
Lemma refs_app : forall h a b, refs_wf h a -> refs_wf h b -> refs_wf h (a ++ b).
Proof. intros h a b A B r Hr. apply in_app_or in Hr. destruct Hr; auto. Qed.
(** the step, in terms of the layers rs of the node *)
Lemma split_node_spec : forall h0 st r, obj_wf h0 -> pinv h0 st -> r < h_next h0 ->
  exists h rs, ext (ps_heap st) h /\ split_res h0 r rs /\ refs_wf h rs /\
    split_node st r = mk_pstate (fst (rename_all h (ps_count st) rs)) (upd (ps_map st) r (Some rs)) (snd (rename_all h (ps_count st) rs)) (ps_called st ++ rs) /\
    pinv h0 (split_node st r).
Proof.
  intros h0 st r W (E & C & M) Hr. unfold split_node.
  assert (X : exists h rs, match ps_map st r with Some rs => (ps_heap st, rs) | None => split_obj (ps_heap st) r end = (h, rs) /\
            ext (ps_heap st) h /\ split_res h0 r rs /\ refs_wf h rs).
  { destruct (ps_map st r) as [rs|] eqn:Em.
    - exists (ps_heap st), rs. destruct (M r rs Em). split; [reflexivity|]. split; [apply ext_refl|]. split; assumption.
    - destruct (split_obj_spec0 h0 (ps_heap st) r E W Hr) as (A & B & D).
      exists (fst (split_obj (ps_heap st) r)), (snd (split_obj (ps_heap st) r)). split; [apply surjective_pairing|]. auto. }
  destruct X as (h & rs & -> & A & B & D). exists h, rs. split; [exact A|]. split; [exact B|]. split; [exact D|].
  pose proof (rename_all_ext rs h (ps_count st)) as R.
  destruct (rename_all h (ps_count st) rs) as [h' c]. cbn [fst snd] in *. split; [reflexivity|].
  assert (AR : ext (ps_heap st) h') by (eapply ext_trans; eassumption).
  split; [|split]; cbn [ps_heap ps_map ps_called].
  - eapply ext_trans; eassumption.
  - apply refs_app; [exact (refs_ext _ _ _ AR C)|exact (refs_ext _ _ _ R D)].
  - intros q rs' Hq. unfold upd in Hq. destruct (Nat.eqb_spec q r) as [->|Hne].
    + inversion Hq; subst. split; [exact B|exact (refs_ext _ _ _ R D)].
    + destruct (M q rs' Hq) as [M1 M2]. split; [exact M1|exact (refs_ext _ _ _ AR M2)].
Qed.
Lemma pinv_init : forall h, pinv h (mk_pstate h (fun _ => None) 0 []).
Proof. intros h. split; [apply ext_refl|]. split; [intros r []|]. discriminate. Qed.
Lemma pinv_fold : forall h0 ops st, obj_wf h0 -> pinv h0 st -> refs_wf h0 ops -> pinv h0 (fold_left split_node ops st).
Proof.
  intros h0 ops. induction ops as [|r q IH]; intros st W I Hr; [exact I|]. cbn.
  destruct (split_node_spec h0 st r W I (Hr r (or_introl eq_refl))) as (_ & _ & _ & _ & _ & _ & I').
  apply IH; auto. intros x Hx. apply Hr. right; exact Hx.
Qed.
Lemma fold_app : forall A B (f : A -> B -> A) l l' a, fold_left f (l ++ l') a = fold_left f l' (fold_left f l a).
Proof. intros. apply fold_left_app. Qed.
Lemma split_res_last : forall h r rs, split_res h r rs -> exists b, rev rs = b :: rev (removelast rs) /\
  (h_next h <= b \/ (b = r /\ unsplit h r) \/ (~ unsplit h r /\ lo_act (h_obj h r) = ALayer b)).
Proof.
  intros h r rs [[-> U]|(N & a & b & -> & Ha & Hb)].
  - exists r. split; [reflexivity|]. right; left; auto.
  - exists b. split; [reflexivity|]. destruct Hb as [(s & _ & Hb)|Hb]; [left; exact Hb|right; right; auto].
Qed.

(** the last layer called, for a non-empty model *)
Lemma preprocess_last : forall h ops l, obj_wf h -> refs_wf h (ops ++ [l]) ->
  exists b q, rev (ps_called (preprocess_objs h (ops ++ [l]))) = b :: q /\
  (h_next h <= b \/ (b = l /\ unsplit h l) \/ (~ unsplit h l /\ lo_act (h_obj h l) = ALayer b)) /\
  b < h_next (ps_heap (preprocess_objs h (ops ++ [l]))).
Proof.
  intros h ops l W Hr. unfold preprocess_objs. rewrite fold_app. cbn [fold_left].
  assert (I : pinv h (fold_left split_node ops (mk_pstate h (fun _ => None) 0 []))).
  { apply pinv_fold; auto using pinv_init. intros x Hx. apply Hr. apply in_or_app. left; exact Hx. }
  assert (Hl : l < h_next h) by (apply Hr, in_or_app; right; left; reflexivity).
  destruct (split_node_spec h _ l W I Hl) as (h' & rs & A & B & D & E & I').
  destruct (split_res_last h l rs B) as (b & Eb & Cb).
  assert (Ein : In b rs) by (apply in_rev; rewrite Eb; left; reflexivity).
  rewrite E in *. cbn [ps_called ps_heap]. rewrite rev_app_distr, Eb. cbn [app].
  eexists b, _. split; [reflexivity|]. split; [exact Cb|].
  pose proof (rename_all_ext rs h' (ps_count (fold_left split_node ops (mk_pstate h (fun _ => None) 0 [])))) as [N _].
  specialize (D b Ein). lia.
Qed.

(** ** softmax_to_linear *)
Lemma stl_spec : forall h r q, r < h_next h -> q < h_next h ->
  lo_name (h_obj (fst (softmax_to_linear h r)) q) = lo_name (h_obj h q) /\
  lo_class (h_obj (fst (softmax_to_linear h r)) q) = lo_class (h_obj h q) /\
  ((q = r /\ lo_class (h_obj h r) <> CSoftmax /\ lo_act (h_obj h r) = AName "softmax" /\
    lo_act (h_obj (fst (softmax_to_linear h r)) q) = AName "linear") \/
   (~ (q = r /\ lo_class (h_obj h r) <> CSoftmax /\ lo_act (h_obj h r) = AName "softmax") /\
    lo_act (h_obj (fst (softmax_to_linear h r)) q) = lo_act (h_obj h q))).
Proof.
  intros h r q Hr Hq. unfold softmax_to_linear.
  destruct (lo_class (h_obj h r)) eqn:Ec; try (cbn [alloc fst h_obj]; rewrite upd_other by lia;
    repeat split; right; split; [intros (_ & X & _); congruence|reflexivity]);
  (destruct (lo_act (h_obj h r)) as [|s|b] eqn:Ea;
   [cbn [fst]; repeat split; right; split; [intros (_ & _ & X); congruence|reflexivity]
   | destruct (String.eqb_spec s "softmax") as [->|Hs]; cbn [fst]
   | cbn [fst]; repeat split; right; split; [intros (_ & _ & X); congruence|reflexivity]]);
  try (repeat split; right; split; [intros (_ & _ & X); congruence|reflexivity]);
  (destruct (Nat.eq_dec q r) as [->|Hne];
   [cbn [set_obj h_obj]; rewrite upd_same; cbn [lo_name lo_class lo_act]; repeat split; [congruence|]; left; repeat split; discriminate
   |cbn [set_obj h_obj]; rewrite upd_other by assumption; repeat split; right; split; [intros (X & _); contradiction|reflexivity]]).
Qed.

Lemma clone_inv : forall h inputs ops h', clone_objs h inputs ops = Ok h' ->
  h' = match rev (ps_called (preprocess_objs h ops)) with
       | [] => ps_heap (preprocess_objs h ops)
       | r :: _ => fst (softmax_to_linear (ps_heap (preprocess_objs h ops)) r)
       end.
Proof.
  intros h inputs ops h' H. unfold clone_objs in H.
  destruct (keras_model _ _); [|discriminate]. cbn [bind] in H.
  destruct (rev _); inversion H; reflexivity.
Qed.

(** the activations of the user's layers after clone *)
Lemma clone_acts : forall h inputs ops l h' q, obj_wf h -> refs_wf h (ops ++ [l]) ->
  clone_objs h inputs (ops ++ [l]) = Ok h' -> q < h_next h ->
  lo_class (h_obj h' q) = lo_class (h_obj h q) /\
  ((owns_softmax h l q /\ lo_act (h_obj h' q) = AName "linear") \/
   (~ owns_softmax h l q /\ lo_act (h_obj h' q) = lo_act (h_obj h q))).
Proof.
  intros h inputs ops l h' q W Hr H Hq. apply clone_inv in H.
  destruct (preprocess_last h ops l W Hr) as (b & t & Eb & Cb & Hb). rewrite Eb in H. subst h'.
  assert (I : pinv h (preprocess_objs h (ops ++ [l]))) by (apply pinv_fold; auto using pinv_init).
  destruct I as ((Nx & X) & _ & _). set (h1 := ps_heap (preprocess_objs h (ops ++ [l]))) in *.
  destruct (X q Hq) as (Cq & Aq & _).
  destruct (stl_spec h1 b q Hb ltac:(lia)) as (_ & C & A). rewrite Cq in C. split; [exact C|].
  rewrite Aq in A.
  assert (Hl : l < h_next h) by (apply Hr, in_or_app; right; left; reflexivity).
  destruct A as [(Eq & NS & AS & AL)|(N & AL)].
  - subst q. left. split; [|exact AL]. destruct (X b Hq) as (C' & A' & _). rewrite C' in NS. rewrite A' in AS.
    split; [exact NS|]. split; [exact AS|]. destruct Cb as [Cb|[(Eb' & U)|(NU & AL')]]; [lia| |].
    + left. subst b. split; [reflexivity|]. destruct U as [U|[U|U]]; [exact U|congruence|]. rewrite AS in U. discriminate.
    + right. split; [|exact AL']. intro U. apply NU. left; exact U.
  - right. split; [|exact AL]. intros (NS & AS & O). apply N.
    assert (Eb' : q = b).
    { destruct Cb as [Cb|[(Eb' & U)|(NU & AL')]].
      - exfalso. destruct O as [(-> & O)|(O & O')].
        + (* unsplit, so b = l *)
          unfold preprocess_objs in Eb. rewrite fold_app in Eb. cbn [fold_left] in Eb.
          assert (I : pinv h (fold_left split_node ops (mk_pstate h (fun _ => None) 0 []))).
          { apply pinv_fold; auto using pinv_init. intros x Hx. apply Hr, in_or_app. left; exact Hx. }
          destruct (split_node_spec h _ l W I Hl) as (h2 & rs & _ & B & _ & E & _).
          rewrite E in Eb. cbn [ps_called] in Eb. rewrite rev_app_distr in Eb.
          destruct B as [[-> _]|(NU & _)]; [cbn in Eb; inversion Eb; lia|apply NU; left; exact O].
        + unfold preprocess_objs in Eb. rewrite fold_app in Eb. cbn [fold_left] in Eb.
          assert (I : pinv h (fold_left split_node ops (mk_pstate h (fun _ => None) 0 []))).
          { apply pinv_fold; auto using pinv_init. intros x Hx. apply Hr, in_or_app. left; exact Hx. }
          destruct (split_node_spec h _ l W I Hl) as (h2 & rs & _ & B & _ & E & _).
          rewrite E in Eb. cbn [ps_called] in Eb. rewrite rev_app_distr in Eb.
          destruct B as [[-> [U|[U|U]]]|(NU & a & b' & -> & _ & [(s & Hs & _)|Hb'])]; try congruence.
          cbn in Eb. inversion Eb. subst b'. rewrite O' in Hb'. inversion Hb'. lia.
      - subst b. destruct O as [(O & _)|(O & O')]; [exact O|]. destruct U as [U|[U|U]]; congruence.
      - destruct O as [(-> & O)|(O & O')]; [exfalso; apply NU; left; exact O|congruence]. }
    subst q. split; [reflexivity|]. destruct (X b Hq) as (C' & A' & _). rewrite C', A'. split; assumption.
Qed.
