(** Theorems of C81 and examples *)
From Coq Require Import DecimalString String Ascii Reals List Arith Bool ZArith Lia.
From Verif Require Import RLib Spec Spec_Layers M_Core M_Utils M_MergeLayers M_Ops M_Layers M_Convert M_State Spec_State P_State P_StateNames P_StateThm M_Names Spec_Names P_Names.
Import ListNotations.
Local Open Scope nat_scope.

Lemma distinct_inj : forall (f : nat -> string) l, distinct (map f l) = true -> forall a b, In a l -> In b l -> f a = f b -> a = b.
Proof.
  intros f l. induction l as [|x q IH]; intros H a b Ha Hb E; [destruct Ha|]. cbn in H. apply andb_prop in H. destruct H as [H1 H2]. apply negb_true_iff in H1.
  assert (X : forall y, In y q -> f x <> f y).
  { intros y Hy Q. assert (existsb (String.eqb (f x)) (map f q) = true); [|congruence]. apply existsb_exists. exists (f y). split; [apply in_map; exact Hy|apply String.eqb_eq; exact Q]. }
  destruct Ha as [<-|Ha], Hb as [<-|Hb]; auto; [exfalso; exact (X b Hb E)|exfalso; exact (X a Ha (eq_sym E))].
Qed.
Lemma in_dedup_iff : forall l r, In r (dedup l) <-> In r l.
Proof.
  intros l r. split; [apply in_dedup|]. induction l as [|a q IH]; intros H; [exact H|]. cbn. destruct (existsb (Nat.eqb a) q) eqn:E.
  - destruct H as [<-|H]; [|apply IH; exact H]. apply existsb_exists in E. destruct E as (y & Hy & Ey). apply Nat.eqb_eq in Ey. subst. apply IH. exact Hy.
  - destruct H as [<-|H]; [left; reflexivity|right; apply IH; exact H].
Qed.
Lemma keras_model_ok : forall h rs, (forall a b, In a rs -> In b rs -> lo_name (h_obj h a) = lo_name (h_obj h b) -> a = b) -> keras_model h rs = Ok rs.
Proof.
  intros h rs H. unfold keras_model. rewrite distinct_map; [reflexivity|apply dedup_nodup|]. intros a b Ha Hb. apply H; apply in_dedup; assumption.
Qed.
Lemma keras_model_names : forall h rs l, keras_model h rs = Ok l -> l = rs /\ forall a b, In a rs -> In b rs -> lo_name (h_obj h a) = lo_name (h_obj h b) -> a = b.
Proof.
  intros h rs l H. unfold keras_model in H. destruct (distinct _) eqn:E; [|discriminate]. injection H as <-. split; [reflexivity|].
  intros a b Ha Hb. apply (distinct_inj (fun r => lo_name (h_obj h r)) (dedup rs) E); apply in_dedup_iff; assumption.
Qed.
Lemma keras_model_clash : forall h rs a b, In a rs -> In b rs -> a <> b -> lo_name (h_obj h a) = lo_name (h_obj h b) -> keras_model h rs = Err ValueError.
Proof.
  intros h rs a b Ha Hb N E. destruct (keras_model h rs) as [l|e] eqn:K; [exfalso; apply N; exact (proj2 (keras_model_names h rs l K) a b Ha Hb E)|].
  unfold keras_model in K. destruct (distinct _); [discriminate|injection K as <-; reflexivity].
Qed.

(** ** The decomon layers *)
Definition finv (h1 : heap) (st : pstate) : Prop :=
  h_next h1 <= h_next (ps_heap st) /\ (forall q, q < h_next h1 -> h_obj (ps_heap st) q = h_obj h1 q) /\
  (forall x, In x (ps_called st) -> h_next h1 <= x < h_next (ps_heap st)) /\
  (forall r rs, ps_map st r = Some rs -> forall x, In x rs -> h_next h1 <= x < h_next (ps_heap st)) /\
  exists cnt, tags (ps_heap st) (ps_called st) (ps_count st) cnt.
Lemma rename_all_next : forall rs h c, h_next (fst (rename_all h c rs)) = h_next h.
Proof. induction rs as [|a q IH]; intros h c; [reflexivity|]. cbn [rename_all]. rewrite IH. reflexivity. Qed.
Lemma decomon_node_inv : forall h1 st r, finv h1 st -> finv h1 (decomon_node st r).
Proof.
  intros h1 st r (Nx & O & C & M & cnt & T). unfold decomon_node.
  assert (G : forall h rs, h_next (ps_heap st) <= h_next h -> (forall q, q < h_next (ps_heap st) -> h_obj h q = h_obj (ps_heap st) q) ->
            (forall x, In x rs -> h_next h1 <= x < h_next h) -> tags h (ps_called st) (ps_count st) cnt ->
            finv h1 (let '(h', c) := rename_all h (ps_count st) rs in mk_pstate h' (upd (ps_map st) r (Some rs)) c (ps_called st ++ rs))).
  { intros h rs Hn Ho Hrs HT. destruct (rename_all_tags rs h _ _ _ HT) as (cnt' & T'). pose proof (rename_all_next rs h (ps_count st)) as Hnx.
    pose proof (rename_all_other rs h (ps_count st)) as Hot. destruct (rename_all h (ps_count st) rs) as [h' c]. cbn [fst snd] in *.
    split; [|split; [|split; [|split]]]; cbn [ps_heap ps_called ps_map ps_count].
    - lia.
    - intros q Hq. rewrite Hot by (intros Q; specialize (Hrs q Q); lia). rewrite Ho by lia. apply O. exact Hq.
    - intros x Hx. rewrite Hnx. apply in_app_or in Hx. destruct Hx as [Hx|Hx]; [specialize (C x Hx); lia|apply Hrs; exact Hx].
    - intros q rq E x Hx. rewrite Hnx. destruct (Nat.eq_dec q r) as [->|Hne].
      + rewrite upd_same in E. injection E as <-. apply Hrs. exact Hx.
      + rewrite upd_other in E by assumption. specialize (M q rq E x Hx). lia.
    - exists cnt'. exact T'. }
  destruct (ps_map st r) as [rs|] eqn:Em.
  - apply G; auto. exact (M r rs Em).
  - unfold new_decomon, alloc. apply (G (mk_heap _ _)); cbn [h_next h_obj].
    + lia.
    + intros q Hq. rewrite upd_other by lia. reflexivity.
    + intros x [<-|[]]. lia.
    + destruct T as [T1 T2]. split; [|exact T2]. intros x Hx. cbn [h_obj]. specialize (C x Hx). rewrite upd_other by lia. apply T1. exact Hx.
Qed.
Lemma forward_inv : forall h1 called, finv h1 (forward_objs h1 called).
Proof.
  intros h1 called. unfold forward_objs. assert (G : forall l st, finv h1 st -> finv h1 (fold_left decomon_node l st)).
  { induction l as [|r l IH]; intros st H; [exact H|]. cbn. apply IH, decomon_node_inv, H. }
  apply G. split; [cbn; lia|]. split; [reflexivity|]. split; [intros x []|]. split; [discriminate|]. exists (fun _ => 0). split; cbn; intros; contradiction.
Qed.

(** ** The backward layers *)
Lemma backward_spec : forall nodes h acc, (forall r, In r nodes -> r < h_next h) ->
  exists h', fold_left backward_node nodes (h, acc) = (h', acc ++ seq (h_next h) (length nodes)) /\
    h_next h' = h_next h + length nodes /\ (forall q, q < h_next h -> h_obj h' q = h_obj h q) /\
    forall i r, nth_error nodes i = Some r -> lo_name (h_obj h' (h_next h + i)) = (lo_name (h_obj h r) ++ "_backward")%string.
Proof.
  induction nodes as [|r q IH]; intros h acc R.
  - exists h. cbn. rewrite app_nil_r, Nat.add_0_r. repeat split; auto. intros [|i] r H; discriminate H.
  - cbn [fold_left backward_node new_backward alloc]. set (h1 := mk_heap _ _).
    destruct (IH h1 (acc ++ [h_next h])) as (h' & E & N & O & Nm). { intros x Hx. cbn. specialize (R x (or_intror Hx)). lia. }
    exists h'. assert (N1 : h_next h1 = S (h_next h)) by reflexivity. rewrite N1 in *. split; [|split; [|split]].
    + cbn in E. rewrite E. cbn [seq length]. rewrite <- app_assoc. reflexivity.
    + rewrite N. cbn [length]. lia.
    + intros x Hx. rewrite O by lia. cbn. rewrite upd_other by lia. reflexivity.
    + intros [|i] x Hx.
      * cbn in Hx. injection Hx as <-. rewrite Nat.add_0_r, O by lia. cbn. rewrite upd_same. reflexivity.
      * cbn in Hx. rewrite <- Nat.add_succ_comm, (Nm i x Hx). cbn. assert (x < h_next h) by (apply R; right; apply nth_error_In in Hx; exact Hx).
        rewrite upd_other by lia. reflexivity.
Qed.
Lemma sapp_inj : forall a b s : string, (a ++ s = b ++ s)%string -> a = b.
Proof.
  assert (L : forall a b : string, slen (a ++ b)%string = slen a + slen b) by (induction a; intros; cbn; [reflexivity|rewrite IHa; reflexivity]).
  induction a as [|c a IH]; intros [|d b] s E; [reflexivity| | |].
  - exfalso. apply (f_equal slen) in E. cbn in E. rewrite L in E. lia.
  - exfalso. apply (f_equal slen) in E. cbn in E. rewrite L in E. lia.
  - cbn in E. injection E as -> E. rewrite (IH b s E). reflexivity.
Qed.
Lemma backward_not_tagged : forall s c, ~ tagged (s ++ "_backward")%string c.
Proof.
  intros s c (p & E). unfold add_count in E. change "_backward"%string with ("_" ++ "backward")%string in E.
  assert (X : "backward"%string = string_of_nat c).
  { apply (app_us s p); [|apply nat_no_us|exact E]. unfold no_us. cbn. intros Q. repeat (destruct Q as [Q|Q]; [discriminate Q|]). exact Q. }
  unfold string_of_nat in X. assert (Y : NilZero.uint_of_string "backward" = NilZero.uint_of_string (NilZero.string_of_uint (Nat.to_uint c))) by (rewrite <- X; reflexivity).
  rewrite NilZero.usu in Y by apply to_uint_nonnil. cbn in Y. discriminate Y.
Qed.

(** ** The end of the model *)
Lemma linear_end_spec : forall h called, refs_wf h called -> (forall r, In r called -> lo_class (h_obj h r) <> CSoftmax) ->
  exists h', linear_end h called = (h', called) /\ h_next h' = h_next h /\
    forall q, lo_name (h_obj h' q) = lo_name (h_obj h q) /\ lo_class (h_obj h' q) = lo_class (h_obj h q).
Proof.
  intros h called R NS. unfold linear_end. destruct (rev called) as [|r q] eqn:Er; [exists h; repeat split|].
  assert (Ec : called = rev q ++ [r]) by (rewrite <- (rev_involutive called), Er; reflexivity).
  assert (Hr : In r called) by (rewrite Ec; apply in_or_app; right; left; reflexivity). specialize (NS r Hr).
  assert (X : softmax_to_linear h r = (h, r) \/ softmax_to_linear h r = (set_obj h r (mk_lobj (lo_name (h_obj h r)) (lo_class (h_obj h r)) (AName "linear")), r)).
  { unfold softmax_to_linear. destruct (lo_class (h_obj h r)); try congruence; (destruct (lo_act (h_obj h r)) as [|s|b]; auto; destruct (String.eqb s "softmax"); auto). }
  destruct X as [-> | ->]; rewrite <- Ec; eexists; (split; [reflexivity|]); (split; [reflexivity|]).
  - intros x. split; reflexivity.
  - intros x. cbn. destruct (Nat.eq_dec x r) as [->|Hx]; [rewrite upd_same|rewrite upd_other by assumption]; split; reflexivity.
Qed.
Lemma rename_all_class : forall rs h c q, lo_class (h_obj (fst (rename_all h c rs)) q) = lo_class (h_obj h q).
Proof. induction rs as [|a l IH]; intros h c q; [reflexivity|]. cbn [rename_all]. rewrite IH. apply rename_class. Qed.
Lemma split_obj_class : forall h r x, lo_class (h_obj (fst (split_obj h r)) x) <> CSoftmax \/ lo_class (h_obj (fst (split_obj h r)) x) = lo_class (h_obj h x) \/
  lo_class (h_obj (fst (split_obj h r)) x) = lo_class (h_obj h r).
Proof.
  intros h r x. unfold split_obj. destruct (is_activation_class _); [right; left; reflexivity|]. destruct (lo_act (h_obj h r)) as [|s|b]; [right; left; reflexivity| |].
  - destruct (String.eqb s "linear"); [right; left; reflexivity|]. cbn [alloc fst h_obj h_next].
    destruct (Nat.eq_dec x (S (h_next h))) as [->|H1]; [left; rewrite upd_same; discriminate|]. rewrite upd_other by assumption.
    destruct (Nat.eq_dec x (h_next h)) as [->|H2]; [right; right; rewrite upd_same; reflexivity|]. rewrite upd_other by assumption. right; left; reflexivity.
  - cbn [alloc fst]. match goal with |- context [rename ?h1 b ?n] => destruct (rename_class h1 b n x) as [-> _] end. cbn [h_obj].
    destruct (Nat.eq_dec x (h_next h)) as [->|H2]; [right; right; rewrite upd_same; reflexivity|]. rewrite upd_other by assumption. right; left; reflexivity.
Qed.
Lemma split_obj_next : forall h r x, h_next h <= x < h_next (fst (split_obj h r)) -> lo_class (h_obj h r) <> CSoftmax -> lo_class (h_obj (fst (split_obj h r)) x) <> CSoftmax.
Proof.
  intros h r x Hx NS. unfold split_obj in *. destruct (is_activation_class _); [cbn in Hx; lia|]. destruct (lo_act (h_obj h r)) as [|s|b]; [cbn in Hx; lia| |].
  - destruct (String.eqb s "linear"); [cbn in Hx; lia|]. cbn [alloc fst h_obj h_next] in *.
    destruct (Nat.eq_dec x (S (h_next h))) as [->|H1]; [rewrite upd_same; discriminate|]. rewrite upd_other by assumption.
    assert (x = h_next h) by lia. subst x. rewrite upd_same. exact NS.
  - cbn [alloc fst] in *. match goal with |- context [rename ?h1 b ?n] => destruct (rename_class h1 b n x) as [-> _] end. cbn in Hx.
    assert (x = h_next h) by lia. subst x. cbn [h_obj]. rewrite upd_same. exact NS.
Qed.
Lemma preprocess_no_softmax : forall h ops, obj_wf h -> refs_wf h ops -> no_softmax h ops ->
  forall x, h_next h <= x < h_next (ps_heap (preprocess_objs h ops)) -> lo_class (h_obj (ps_heap (preprocess_objs h ops)) x) <> CSoftmax.
Proof.
  intros h ops W. induction ops as [|r ops IH] using rev_ind; intros R NS x Hx; [cbn in Hx; lia|].
  assert (R1 : refs_wf h ops) by (intros q Hq; apply R, in_or_app; left; exact Hq).
  assert (Hr : r < h_next h) by (apply R, in_or_app; right; left; reflexivity).
  assert (NS1 : no_softmax h ops) by (intros q Hq; apply NS; rewrite held_app; apply in_or_app; left; exact Hq).
  assert (NSr : lo_class (h_obj h r) <> CSoftmax) by (apply NS; rewrite held_app; apply in_or_app; right; left; reflexivity).
  specialize (IH R1 NS1). pose proof (preprocess_seen h ops W R1) as (((_ & X) & _) & _). unfold preprocess_objs in *. rewrite fold_last in *.
  set (st := fold_left split_node ops _) in *. destruct (X r Hr) as (Xc & _). unfold split_node in *.
  destruct (ps_map st r) as [rs|].
  - pose proof (rename_all_class rs (ps_heap st) (ps_count st) x) as C. pose proof (rename_all_next rs (ps_heap st) (ps_count st)) as N.
    destruct (rename_all _ _ _) as [h' c]. cbn [fst ps_heap] in *. rewrite C. apply IH. lia.
  - pose proof (split_obj_next (ps_heap st) r x) as SN. pose proof (split_obj_class (ps_heap st) r x) as SC. destruct (split_obj (ps_heap st) r) as [h1 rs]. cbn [fst] in *.
    pose proof (rename_all_class rs h1 (ps_count st) x) as C. pose proof (rename_all_next rs h1 (ps_count st)) as N. destruct (rename_all _ _ _) as [h' c]. cbn [fst ps_heap] in *.
    rewrite C. rewrite Xc in *. destruct (le_lt_dec (h_next (ps_heap st)) x) as [Hl|Hl]; [apply SN; [lia|exact NSr]|].
    destruct SC as [SC|[SC|SC]]; [exact SC|rewrite SC; apply IH; lia|rewrite SC; exact NSr].
Qed.
Lemma called_no_softmax : forall h ops, obj_wf h -> refs_wf h ops -> no_softmax h ops ->
  forall r, In r (ps_called (preprocess_objs h ops)) -> lo_class (h_obj (ps_heap (preprocess_objs h ops)) r) <> CSoftmax.
Proof.
  intros h ops W R NS r Hr. pose proof (preprocess_seen h ops W R) as (((_ & X) & C & _) & _ & _ & _ & K).
  destruct (K r Hr) as [H|H]; [apply (preprocess_no_softmax h ops W R NS); split; [exact H|apply C; exact Hr]|].
  assert (Hlt : r < h_next h).
  { unfold held in H. apply in_flat_map in H. destruct H as (q & Hq & H). apply in_holds in H. destruct H as [->|[_ Ha]]; [apply R; exact Hq|exact (W q r (R q Hq) Ha)]. }
  destruct (X r Hlt) as (-> & _). apply NS. exact H.
Qed.

(** ** Forward methods: the model is always built *)
Lemma clone_checked : forall h inputs ops h', clone_objs h inputs ops = Ok h' ->
  keras_model (ps_heap (preprocess_objs h ops)) (inputs ++ ps_called (preprocess_objs h ops)) = Ok (inputs ++ ps_called (preprocess_objs h ops)).
Proof.
  intros h inputs ops h' H. unfold clone_objs in H. destruct (keras_model _ _) as [l|e] eqn:E; [|discriminate].
  destruct (keras_model_names _ _ _ E) as [-> _]. reflexivity.
Qed.
Lemma forward_built : forall m h inputs ops h', get_direction m = FORWARD -> clone_objs h inputs ops = Ok h' -> exists names, clone_layers m h inputs ops = Ok names /\
  forall s, In s names -> exists p c, s = add_count p c.
Proof.
  intros m h inputs ops h' Hm H. apply clone_checked in H. unfold clone_layers. rewrite H. cbn [bind].
  destruct (linear_end (ps_heap (preprocess_objs h ops)) (ps_called (preprocess_objs h ops))) as [h1 called].
  pose proof (forward_inv h1 called) as (_ & _ & _ & _ & cnt & T1 & T2). set (st := forward_objs h1 called) in *.
  assert (K : keras_model (ps_heap st) (ps_called st ++ []) = Ok (ps_called st ++ [])).
  { apply keras_model_ok. rewrite app_nil_r. intros a b Ha Hb E. apply T2; auto. destruct (T1 a Ha) as [Ta _], (T1 b Hb) as [Tb _]. rewrite E in Ta. apply (tagged_inj _ _ _ Ta Tb). }
  assert (N : forall s, In s (map (fun r => lo_name (h_obj (ps_heap st) r)) (ps_called st ++ [])) -> exists p c, s = add_count p c).
  { rewrite app_nil_r. intros s Hs. apply in_map_iff in Hs. destruct Hs as (r & <- & Hr). destruct (T1 r Hr) as [(p & E) _]. eauto. }
  destruct m; try discriminate Hm; cbn [get_direction]; fold st; rewrite K; cbn [bind]; eexists; (split; [reflexivity|exact N]).
Qed.

(** ** Crown methods: the model is built when every object is used once, and only then *)
Lemma backward_check : forall h2 fs nodes hb bs, (forall r, In r nodes -> r < h_next h2) -> backward_objs h2 nodes = (hb, bs) ->
  (forall x, In x fs -> x < h_next h2) -> (forall x, In x fs -> exists c, tagged (lo_name (h_obj h2 x)) c) ->
  (forall a b, In a fs -> In b fs -> lo_name (h_obj h2 a) = lo_name (h_obj h2 b) -> a = b) ->
  (forall a b, In a nodes -> In b nodes -> lo_name (h_obj h2 a) = lo_name (h_obj h2 b) -> a = b) -> NoDup nodes ->
  keras_model hb (fs ++ bs) = Ok (fs ++ bs) /\ map (fun r => lo_name (h_obj hb r)) (fs ++ bs) = map (fun r => lo_name (h_obj h2 r)) fs ++ map (fun r => (lo_name (h_obj h2 r) ++ "_backward")%string) nodes.
Proof.
  intros h2 fs nodes hb bs R E Hf Ht Hfd Hnd ND. destruct (backward_spec nodes h2 [] R) as (h' & E' & N & O & Nm). unfold backward_objs in E. rewrite E' in E. injection E as <- <-. cbn [app].
  assert (Hseq : forall x, In x (seq (h_next h2) (length nodes)) -> exists i r, x = h_next h2 + i /\ nth_error nodes i = Some r).
  { intros x Hx. apply in_seq in Hx. exists (x - h_next h2). destruct (nth_error nodes (x - h_next h2)) as [r|] eqn:Er; [exists r; split; [lia|reflexivity]|]. apply nth_error_None in Er. lia. }
  split.
  - apply keras_model_ok. intros a b Ha Hb Eq. apply in_app_or in Ha. apply in_app_or in Hb. destruct Ha as [Ha|Ha], Hb as [Hb|Hb].
    + apply Hfd; auto. rewrite !O in Eq by (apply Hf; assumption). exact Eq.
    + exfalso. destruct (Hseq b Hb) as (i & r & -> & Er). rewrite O in Eq by (apply Hf; exact Ha). rewrite (Nm i r Er) in Eq. destruct (Ht a Ha) as [c Tc]. rewrite Eq in Tc. exact (backward_not_tagged _ _ Tc).
    + exfalso. destruct (Hseq a Ha) as (i & r & -> & Er). rewrite (O b) in Eq by (apply Hf; exact Hb). rewrite (Nm i r Er) in Eq. destruct (Ht b Hb) as [c Tc]. rewrite <- Eq in Tc. exact (backward_not_tagged _ _ Tc).
    + destruct (Hseq a Ha) as (i & r & -> & Er), (Hseq b Hb) as (j & q & -> & Eq'). rewrite (Nm i r Er), (Nm j q Eq') in Eq. apply sapp_inj in Eq.
      assert (r = q) by (apply Hnd; [apply nth_error_In in Er; exact Er|apply nth_error_In in Eq'; exact Eq'|exact Eq]). subst q.
      assert (i = j); [|lia]. apply (NoDup_nth_error nodes); [exact ND| |congruence]. apply nth_error_Some. congruence.
  - rewrite map_app. f_equal; [apply map_ext_in; intros x Hx; rewrite O by (apply Hf; exact Hx); reflexivity|].
    clear - Nm. revert Nm. generalize (h_next h2) as k. induction nodes as [|r q IH]; intros k Nm; [reflexivity|]. cbn [length seq map]. f_equal.
    + rewrite <- (Nat.add_0_r k). apply (Nm 0 r). reflexivity.
    + apply (IH (S k)). intros i x Hx. rewrite Nat.add_succ_comm. apply (Nm (S i) x). exact Hx.
Qed.
Lemma backward_clash : forall h2 fs nodes hb bs, (forall r, In r nodes -> r < h_next h2) -> backward_objs h2 nodes = (hb, bs) -> ~ NoDup nodes -> keras_model hb (fs ++ bs) = Err ValueError.
Proof.
  intros h2 fs nodes hb bs R E ND. destruct (backward_spec nodes h2 [] R) as (h' & E' & N & O & Nm). unfold backward_objs in E. rewrite E' in E. injection E as <- <-. cbn [app].
  assert (X : exists i j r, i < j /\ nth_error nodes i = Some r /\ nth_error nodes j = Some r).
  { clear - ND. induction nodes as [|r q IH]; [exfalso; apply ND; constructor|]. destruct (in_dec Nat.eq_dec r q) as [Hi|Hi].
    - apply In_nth_error in Hi. destruct Hi as [j Hj]. exists 0, (S j), r. cbn. auto with arith.
    - destruct IH as (i & j & x & Hij & Ei & Ej); [intros Q; apply ND; constructor; assumption|]. exists (S i), (S j), x. cbn. auto with arith. }
  destruct X as (i & j & r & Hij & Ei & Ej). assert (Hj : j < length nodes) by (apply nth_error_Some; congruence).
  apply (keras_model_clash _ _ (h_next h2 + i) (h_next h2 + j)).
  - apply in_or_app. right. apply in_seq. lia.
  - apply in_or_app. right. apply in_seq. lia.
  - lia.
  - rewrite (Nm i r Ei), (Nm j r Ej). reflexivity.
Qed.

(** the heap and the layers when the backward layers are created *)
Lemma backward_stage : forall m h inputs ops, get_direction m = BACKWARD -> obj_wf h -> refs_wf h ops -> refs_wf h inputs -> no_softmax h ops ->
  let st := preprocess_objs h ops in
  exists h2 fs, (forall x, In x fs -> x < h_next h2) /\ (forall x, In x fs -> exists c, tagged (lo_name (h_obj h2 x)) c) /\
    (forall a b, In a fs -> In b fs -> lo_name (h_obj h2 a) = lo_name (h_obj h2 b) -> a = b) /\
    (forall r, r < h_next (ps_heap st) -> r < h_next h2 /\ lo_name (h_obj h2 r) = lo_name (h_obj (ps_heap st) r)) /\
    clone_layers m h inputs ops = (_ <- keras_model (ps_heap st) (inputs ++ ps_called st) ;
      let '(hb, bs) := backward_objs h2 (inputs ++ ps_called st) in rs <- keras_model hb (fs ++ bs) ; Ok (map (fun r => lo_name (h_obj hb r)) rs)).
Proof.
  intros m h inputs ops Hm W R Ri NS st. pose proof (preprocess_seen h ops W R) as (((Nx & X) & C & _) & _). fold st in C, Nx.
  pose proof (called_no_softmax h ops W R NS) as NC. fold st in NC.
  destruct (linear_end_spec (ps_heap st) (ps_called st) C NC) as (hl & El & Nl & Ol).
  assert (G : forall h1 fs, (forall x, In x fs -> x < h_next h1) -> (forall x, In x fs -> exists c, tagged (lo_name (h_obj h1 x)) c) ->
    (forall a b, In a fs -> In b fs -> lo_name (h_obj h1 a) = lo_name (h_obj h1 b) -> a = b) ->
    (forall r, r < h_next (ps_heap st) -> r < h_next h1 /\ lo_name (h_obj h1 r) = lo_name (h_obj (ps_heap st) r) /\ lo_class (h_obj h1 r) = lo_class (h_obj (ps_heap st) r)) ->
    exists h2, linear_end h1 (ps_called st) = (h2, ps_called st) /\ (forall x, In x fs -> x < h_next h2) /\ (forall x, In x fs -> exists c, tagged (lo_name (h_obj h2 x)) c) /\
    (forall a b, In a fs -> In b fs -> lo_name (h_obj h2 a) = lo_name (h_obj h2 b) -> a = b) /\
    (forall r, r < h_next (ps_heap st) -> r < h_next h2 /\ lo_name (h_obj h2 r) = lo_name (h_obj (ps_heap st) r))).
  { intros h1 fs F1 F2 F3 F4. destruct (linear_end_spec h1 (ps_called st)) as (h2 & E2 & N2 & O2).
    - intros r Hr. apply F4, C, Hr.
    - intros r Hr. destruct (F4 r (C r Hr)) as (_ & _ & ->). apply NC, Hr.
    - exists h2. split; [exact E2|]. rewrite N2. split; [exact F1|]. split; [|split].
      + intros x Hx. destruct (O2 x) as [-> _]. apply F2, Hx.
      + intros a b Ha Hb E. destruct (O2 a) as [E1 _], (O2 b) as [E1' _]. apply F3; auto. congruence.
      + intros r Hr. destruct (F4 r Hr) as (F5 & F6 & _), (O2 r) as [-> _]. split; assumption. }
  unfold clone_layers. fold st. rewrite Hm.
  destruct m; try discriminate Hm.
  - destruct (G (ps_heap st) []) as (h2 & E2 & P1 & P2 & P3 & P4); [intros x []|intros x []|intros a b []|intros r Hr; auto|].
    exists h2, []. repeat (split; [assumption|]). rewrite E2. reflexivity.
  - rewrite El. pose proof (forward_inv hl (ps_called st)) as (F1 & F2 & F3 & _ & cnt & T1 & T2). set (sf := forward_objs hl (ps_called st)) in *.
    destruct (G (ps_heap sf) (ps_called sf)) as (h2 & E2 & P1 & P2 & P3 & P4).
    + intros x Hx. apply F3, Hx.
    + intros x Hx. exists (cnt x). apply T1, Hx.
    + intros a b Ha Hb E. apply T2; auto. destruct (T1 a Ha) as [Ta _], (T1 b Hb) as [Tb _]. rewrite E in Ta. apply (tagged_inj _ _ _ Ta Tb).
    + intros r Hr. rewrite F2 by lia. destruct (Ol r) as [-> ->]. split; [lia|]. split; reflexivity.
    + exists h2, (ps_called sf). repeat (split; [assumption|]). rewrite E2. reflexivity.
  - rewrite El. pose proof (forward_inv hl (ps_called st)) as (F1 & F2 & F3 & _ & cnt & T1 & T2). set (sf := forward_objs hl (ps_called st)) in *.
    destruct (G (ps_heap sf) (ps_called sf)) as (h2 & E2 & P1 & P2 & P3 & P4).
    + intros x Hx. apply F3, Hx.
    + intros x Hx. exists (cnt x). apply T1, Hx.
    + intros a b Ha Hb E. apply T2; auto. destruct (T1 a Ha) as [Ta _], (T1 b Hb) as [Tb _]. rewrite E in Ta. apply (tagged_inj _ _ _ Ta Tb).
    + intros r Hr. rewrite F2 by lia. destruct (Ol r) as [-> ->]. split; [lia|]. split; reflexivity.
    + exists h2, (ps_called sf). repeat (split; [assumption|]). rewrite E2. reflexivity.
  - rewrite El. pose proof (forward_inv hl (ps_called st)) as (F1 & F2 & F3 & _ & cnt & T1 & T2). set (sf := forward_objs hl (ps_called st)) in *.
    destruct (G (ps_heap sf) (ps_called sf)) as (h2 & E2 & P1 & P2 & P3 & P4).
    + intros x Hx. apply F3, Hx.
    + intros x Hx. exists (cnt x). apply T1, Hx.
    + intros a b Ha Hb E. apply T2; auto. destruct (T1 a Ha) as [Ta _], (T1 b Hb) as [Tb _]. rewrite E in Ta. apply (tagged_inj _ _ _ Ta Tb).
    + intros r Hr. rewrite F2 by lia. destruct (Ol r) as [-> ->]. split; [lia|]. split; reflexivity.
    + exists h2, (ps_called sf). repeat (split; [assumption|]). rewrite E2. reflexivity.
Qed.
Lemma crown_built : forall m h inputs ops h', get_direction m = BACKWARD -> obj_wf h -> refs_wf h ops -> (forall i, In i inputs -> apart h ops i) -> NoDup inputs -> no_softmax h ops ->
  NoDup (held h ops) -> clone_objs h inputs ops = Ok h' -> exists names, clone_layers m h inputs ops = Ok names /\
    forall r, In r (inputs ++ ps_called (preprocess_objs h ops)) -> In (lo_name (h_obj (ps_heap (preprocess_objs h ops)) r) ++ "_backward")%string names.
Proof.
  intros m h inputs ops h' Hm W R A ND NS Hh Hc. apply clone_checked in Hc. destruct (keras_model_names _ _ _ Hc) as [_ Inj].
  assert (Ri : refs_wf h inputs) by (intros i Hi; apply A; exact Hi).
  pose proof (preprocess_seen h ops W R) as (((Nx & _) & C & _) & _ & _ & _ & K). pose proof (called_once h ops W R Hh) as NC.
  destruct (backward_stage m h inputs ops Hm W R Ri NS) as (h2 & fs & F1 & F2 & F3 & F4 & ->). set (st := preprocess_objs h ops) in *. rewrite Hc. cbn [bind].
  assert (Nn : NoDup (inputs ++ ps_called st)).
  { apply nodup_app; auto. intros x Hx Hq. destruct (A x Hx) as (Hl & N1 & N2). destruct (K x Hq) as [Q|Q]; [lia|]. unfold held in Q. apply in_flat_map in Q.
    destruct Q as (q & Hq' & Q). apply in_holds in Q. destruct Q as [->|[_ Q]]; [exact (N1 Hq')|exact (N2 q Hq' Q)]. }
  assert (Rn : forall r, In r (inputs ++ ps_called st) -> r < h_next (ps_heap st)).
  { intros r Hr. apply in_app_or in Hr. destruct Hr as [Hr|Hr]; [specialize (Ri r Hr); lia|apply C; exact Hr]. }
  destruct (backward_objs h2 (inputs ++ ps_called st)) as [hb bs] eqn:Eb.
  assert (Ninj : forall a b, In a (inputs ++ ps_called st) -> In b (inputs ++ ps_called st) -> lo_name (h_obj h2 a) = lo_name (h_obj h2 b) -> a = b).
  { intros a b Ha Hb E. apply Inj; auto. destruct (F4 a (Rn a Ha)) as [_ <-], (F4 b (Rn b Hb)) as [_ <-]. exact E. }
  destruct (backward_check h2 fs (inputs ++ ps_called st) hb bs) as [-> Nm]; auto.
  { intros r Hr. apply F4, Rn, Hr. }
  cbn [bind]. eexists. split; [reflexivity|].
  rewrite Nm. intros r Hr. apply in_or_app. right. apply in_map_iff. exists r. split; [|exact Hr]. destruct (F4 r (Rn r Hr)) as [_ ->]. reflexivity.
Qed.
Lemma crown_not_built : forall m h inputs ops, get_direction m = BACKWARD -> obj_wf h -> refs_wf h ops -> refs_wf h inputs -> no_softmax h ops -> plain_activations h ops ->
  ~ NoDup (held h ops) -> clone_layers m h inputs ops = Err ValueError.
Proof.
  intros m h inputs ops Hm W R Ri NS PA Hh. pose proof (called_twice h ops W R PA Hh) as NC.
  pose proof (preprocess_seen h ops W R) as (((Nx & _) & C & _) & _).
  destruct (backward_stage m h inputs ops Hm W R Ri NS) as (h2 & fs & F1 & F2 & F3 & F4 & ->). set (st := preprocess_objs h ops) in *.
  destruct (keras_model (ps_heap st) (inputs ++ ps_called st)) as [l|e] eqn:Ek.
  2:{ unfold keras_model in Ek. destruct (distinct _); [discriminate|injection Ek as <-; reflexivity]. }
  cbn [bind]. destruct (backward_objs h2 (inputs ++ ps_called st)) as [hb bs] eqn:Eb.
  rewrite (backward_clash h2 fs (inputs ++ ps_called st) hb bs); auto.
  - intros r Hr. apply F4. apply in_app_or in Hr. destruct Hr as [Hr|Hr]; [specialize (Ri r Hr); lia|apply C; exact Hr].
  - intros Q. apply NC. apply (nodup_app_inv _ _ _ Q).
Qed.

(** ** Examples *)
Lemma names_forward_example : clone_layers FORWARD_HYBRID h_relu [0] [1; 2; 2] =
  Ok ["d_wo_activation_0_decomon_0"; "d_activation_1_decomon_1"; "e_2_3_decomon_2_3"; "e_2_3_decomon_2_3"]%string.
Proof. reflexivity. Qed.
Lemma names_crown_example : clone_layers CROWN_FORWARD_IBP h_relu [0] [1; 2] =
  Ok ["d_wo_activation_0_decomon_0"; "d_activation_1_decomon_1"; "e_2_decomon_2"; "input_backward"; "d_wo_activation_0_backward"; "d_activation_1_backward"; "e_2_backward"]%string.
Proof. reflexivity. Qed.
Lemma names_shared_example : NoDup (map (fun r => lo_name (h_obj h_relu r)) [0; 1; 2]) /\ (exists h', clone_objs h_relu [0] [1; 2; 2] = Ok h') /\
  obj_wf h_relu /\ refs_wf h_relu [1; 2; 2] /\ no_softmax h_relu [1; 2; 2] /\ plain_activations h_relu [1; 2; 2] /\ ~ NoDup (held h_relu [1; 2; 2]) /\
  clone_layers CROWN h_relu [0] [1; 2; 2] = Err ValueError.
Proof.
  split. { cbn. repeat constructor; cbn; intuition discriminate. }
  split; [eexists; reflexivity|]. split; [exact (proj1 ex_clone)|]. split. { intros r Hr. apply (proj1 (proj2 ex_clone)). cbn in *. tauto. }
  split. { intros x Hx. cbn in Hx. intuition (subst; discriminate). }
  split. { intros r b Hr. cbn in Hr. intuition (subst; discriminate). }
  split; [|reflexivity]. intros Q. cbn in Q. inversion Q as [|? ? _ Q1]; subst. inversion Q1 as [|? ? N _]; subst. apply N. left. reflexivity.
Qed.
(** one activation layer given to two Dense layers *)
Definition h_act : heap := objs [mk_lobj "input" CInput ANone; mk_lobj "a" (COther 1) ANone; mk_lobj "d" (COther 0) (ALayer 1); mk_lobj "e" (COther 0) (ALayer 1)].
Lemma names_activation_example : obj_wf h_act /\ refs_wf h_act [2; 3] /\ NoDup [2; 3] /\ no_softmax h_act [2; 3] /\ plain_activations h_act [2; 3] /\ ~ NoDup (held h_act [2; 3]) /\
  (exists names, clone_layers FORWARD_IBP h_act [0] [2; 3] = Ok names) /\ clone_layers CROWN h_act [0] [2; 3] = Err ValueError.
Proof.
  split. { intros r b Hr E. cbn in Hr. destruct r as [|[|[|[|r]]]]; cbn in E; try discriminate; try (injection E as <-; cbn; lia); lia. }
  split. { intros r Hr. cbn in Hr. cbn. intuition lia. }
  split. { repeat constructor; cbn; intuition discriminate. }
  split. { intros x Hx. cbn in Hx. intuition (subst; discriminate). }
  split. { intros r b Hr E. cbn in Hr. destruct Hr as [<-|[<-|[]]]; cbn in E; injection E as <-; right; left; reflexivity. }
  split. { intros Q. cbn in Q. inversion Q as [|? ? _ Q1]; subst. inversion Q1 as [|? ? N _]; subst. apply N. cbn. tauto. }
  split; [eexists; reflexivity|reflexivity].
Qed.
