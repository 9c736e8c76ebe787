(** Proofs about the names of the layer objects (C41) *)
From Coq Require Import DecimalFacts DecimalString DecimalNat String Ascii Reals List Arith Bool ZArith Lia Lra Permutation.
From Verif Require Import RLib Spec Spec_Layers M_Core M_Utils M_MergeLayers M_Ops M_Layers M_Convert M_State Spec_State P_State.
Import ListNotations.
Local Open Scope nat_scope.

(** ** The function of the user's model *)
Section Fn.
  Variable V : Type.
  Variable core : kclass -> V -> V.
  Variable act : string -> V -> V.
  Lemma call_obj_same : forall h h' r y, obj_wf h -> r < h_next h ->
    (forall q, q < h_next h -> lo_class (h_obj h' q) = lo_class (h_obj h q) /\ lo_act (h_obj h' q) = lo_act (h_obj h q)) ->
    call_obj V core act h' r y = call_obj V core act h r y.
  Proof.
    intros h h' r y W Hr H. unfold call_obj. destruct (H r Hr) as [-> ->]. destruct (lo_act (h_obj h r)) as [|s|b] eqn:E; try reflexivity.
    cbn. destruct (H b (W r b Hr E)) as [-> ->]. reflexivity.
  Qed.
  Lemma call_model_same : forall h h' ops x, obj_wf h -> refs_wf h ops ->
    (forall q, q < h_next h -> lo_class (h_obj h' q) = lo_class (h_obj h q) /\ lo_act (h_obj h' q) = lo_act (h_obj h q)) ->
    call_model V core act h' ops x = call_model V core act h ops x.
  Proof.
    intros h h' ops. induction ops as [|r q IH]; intros x W R H; [reflexivity|]. unfold call_model in *. cbn.
    rewrite (call_obj_same h h' r x W (R r (or_introl eq_refl)) H). apply IH; auto. intros z Hz. apply R. right; exact Hz.
  Qed.
End Fn.

Lemma clone_function : forall V core act h inputs ops l h' x, obj_wf h -> refs_wf h (ops ++ [l]) ->
  clone_objs h inputs (ops ++ [l]) = Ok h' -> (forall b, ~ owns_softmax h l b) ->
  call_model V core act h' (ops ++ [l]) x = call_model V core act h (ops ++ [l]) x.
Proof.
  intros V core act h inputs ops l h' x W R H N. apply call_model_same; auto. intros q Hq.
  destruct (clone_acts h inputs ops l h' q W R H Hq) as [C [[O _]|[_ A]]]; [exfalso; exact (N q O)|]. split; assumption.
Qed.
Lemma clone_empty : forall h inputs h', clone_objs h inputs [] = Ok h' -> h' = h.
Proof. intros h inputs h' H. apply clone_inv in H. exact H. Qed.
Lemma clone_softmax_lost : forall V core act h inputs ops l h' b y, obj_wf h -> refs_wf h (ops ++ [l]) ->
  clone_objs h inputs (ops ++ [l]) = Ok h' -> owns_softmax h l b ->
  exists w, call_obj V core act h l y = act "softmax"%string w /\ call_obj V core act h' l y = act "linear"%string w.
Proof.
  intros V core act h inputs ops l h' b y W R H O.
  assert (Hl : l < h_next h) by (apply R, in_or_app; right; left; reflexivity).
  assert (Hb : b < h_next h). { destruct O as (_ & _ & [(-> & _)|(_ & A)]); [exact Hl|exact (W l b Hl A)]. }
  destruct (clone_acts h inputs ops l h' b W R H Hb) as [Cb [[_ Ab]|[N _]]]; [|contradiction].
  destruct (clone_acts h inputs ops l h' l W R H Hl) as [Cl Al].
  destruct O as (NS & AS & [(-> & Cc)|(Cc & A)]).
  - exists (core (lo_class (h_obj h l)) y). unfold call_obj. rewrite Cb, Ab, AS. split; reflexivity.
  - exists (core (lo_class (h_obj h b)) (core (lo_class (h_obj h l)) y)). unfold call_obj.
    destruct Al as [[O' _]|[_ Al]].
    { exfalso. destruct O' as (_ & X & _). congruence. }
    rewrite Cl, Al, A. cbn. rewrite Cb, Ab, AS. split; reflexivity.
Qed.

(** ** Names only grow, strictly for the layers which are not split *)
Lemma called_grows : forall h0 ops st r, obj_wf h0 -> pinv h0 st -> refs_wf h0 ops -> In r ops -> unsplit h0 r ->
  slen (lo_name (h_obj (ps_heap st) r)) < slen (lo_name (h_obj (ps_heap (fold_left split_node ops st)) r)).
Proof.
  intros h0 ops. induction ops as [|a q IH]; intros st r W I R Hin U; [destruct Hin|]. cbn.
  assert (Ra : a < h_next h0) by (apply R; left; reflexivity).
  assert (Rq : refs_wf h0 q) by (intros z Hz; apply R; right; exact Hz).
  destruct (split_node_spec h0 st a W I Ra) as (h & rs & A & B & D & E & I').
  destruct (Nat.eq_dec a r) as [->|Hne].
  - destruct B as [[-> _]|(NU & _)]; [|contradiction].
    assert (X : slen (lo_name (h_obj (ps_heap st) r)) < slen (lo_name (h_obj (ps_heap (split_node st r)) r))).
    { rewrite E. cbn [ps_heap]. destruct A as [NA A]. destruct I as ((NI & _) & _). destruct (A r ltac:(lia)) as (_ & _ & L).
      eapply Nat.le_lt_trans; [exact L|]. apply rename_all_grows; [left; reflexivity|exact D]. }
    assert (Y : forall l st, pinv h0 st -> refs_wf h0 l -> ext (ps_heap st) (ps_heap (fold_left split_node l st))).
    { clear -W. induction l as [|b l IHl]; intros st I R; [apply ext_refl|]. cbn.
      destruct (split_node_spec h0 st b W I (R b (or_introl eq_refl))) as (h & rs & A & _ & _ & E & I').
      eapply ext_trans; [|apply IHl; [exact I'|intros z Hz; apply R; right; exact Hz]].
      rewrite E. cbn [ps_heap]. eapply ext_trans; [exact A|apply rename_all_ext]. }
    destruct (Y q (split_node st r) I' Rq) as [_ Z]. destruct I' as ((NI' & _) & _).
    destruct (Z r ltac:(lia)) as (_ & _ & L). lia.
  - destruct Hin as [Hin|Hin]; [contradiction|].
    eapply Nat.le_lt_trans; [|apply IH; auto].
    rewrite E. cbn [ps_heap]. destruct I as ((NI & _) & _).
    destruct (ext_trans _ _ _ A (rename_all_ext rs h (ps_count st))) as [_ Z].
    destruct (Z r) as (_ & _ & L); [|exact L]. specialize (Rq r Hin). lia.
Qed.
Lemma clone_heap : forall h inputs ops h', obj_wf h -> refs_wf h ops -> clone_objs h inputs ops = Ok h' ->
  h_next h <= h_next h' /\
  forall q, q < h_next h -> slen (lo_name (h_obj h q)) <= slen (lo_name (h_obj h' q)) /\
    (In q ops -> unsplit h q -> slen (lo_name (h_obj h q)) < slen (lo_name (h_obj h' q))).
Proof.
  intros h inputs ops h' W R H. apply clone_inv in H.
  assert (I : pinv h (preprocess_objs h ops)) by (apply pinv_fold; auto using pinv_init).
  pose proof (fun r => called_grows h ops _ r W (pinv_init h) R) as G.
  change (fold_left split_node ops (mk_pstate h (fun _ => None) 0 [])) with (preprocess_objs h ops) in G. cbn [ps_heap] in G.
  destruct I as ((Nx & X) & C & _).
  destruct (rev (ps_called (preprocess_objs h ops))) as [|b t] eqn:Er.
  - subst h'. split; [exact Nx|]. intros q Hq. destruct (X q Hq) as (_ & _ & L). split; [exact L|]. intros. apply G; assumption.
  - assert (Hb : b < h_next (ps_heap (preprocess_objs h ops))).
    { apply C. apply in_rev. rewrite Er. left; reflexivity. }
    subst h'. split.
    + unfold softmax_to_linear. destruct (lo_class _); cbn; try lia; destruct (lo_act _); cbn; try lia; destruct (String.eqb _ _); cbn; lia.
    + intros q Hq. destruct (stl_spec (ps_heap (preprocess_objs h ops)) b q Hb ltac:(lia)) as (E & _ & _). rewrite E.
      destruct (X q Hq) as (_ & _ & L). split; [exact L|]. intros. apply G; assumption.
Qed.

(** the objects stay well formed *)
Lemma rename_wf : forall h r s, obj_wf h -> obj_wf (rename h r s).
Proof. intros h r s W q b Hq A. destruct (rename_class h r s q) as [_ E]. rewrite E in A. exact (W q b Hq A). Qed.
Lemma alloc_wf : forall h n c a, obj_wf h -> obj_wf (fst (alloc h (mk_lobj n c (AName a)))).
Proof.
  intros h n c a W q b Hq A. cbn in *. destruct (Nat.eq_dec q (h_next h)) as [->|Hne].
  - rewrite upd_same in A. discriminate.
  - rewrite upd_other in A by assumption. specialize (W q b ltac:(lia) A). lia.
Qed.
Lemma rename_all_wf : forall rs h c, obj_wf h -> obj_wf (fst (rename_all h c rs)).
Proof. induction rs; intros; cbn; [assumption|]. apply IHrs, rename_wf. assumption. Qed.
Lemma split_obj_wf : forall h r, obj_wf h -> obj_wf (fst (split_obj h r)).
Proof.
  intros h r W. unfold split_obj. destruct (is_activation_class _); [exact W|]. destruct (lo_act (h_obj h r)) as [|s|b]; [exact W| |].
  - destruct (String.eqb s "linear"); [exact W|].
    pose proof (alloc_wf h (lo_name (h_obj h r) ++ "_wo_activation")%string (lo_class (h_obj h r)) "linear" W) as W1.
    pose proof (alloc_wf _ (lo_name (h_obj h r) ++ "_activation")%string CActivation s W1) as W2. exact W2.
  - pose proof (alloc_wf h (lo_name (h_obj h r) ++ "_wo_activation")%string (lo_class (h_obj h r)) "linear" W) as W1.
    cbn [alloc fst] in *. apply rename_wf. exact W1.
Qed.
Lemma split_node_wf : forall st r, obj_wf (ps_heap st) -> obj_wf (ps_heap (split_node st r)).
Proof.
  intros st r W. unfold split_node.
  destruct (ps_map st r) as [rs|].
  - destruct (rename_all _ _ _) eqn:E. cbn. rewrite <- (f_equal fst E : _ = h). apply rename_all_wf. exact W.
  - pose proof (split_obj_wf (ps_heap st) r W) as W1. destruct (split_obj (ps_heap st) r) as [h rs]. cbn [fst] in W1.
    pose proof (rename_all_wf rs h (ps_count st) W1) as W2. destruct (rename_all h (ps_count st) rs). exact W2.
Qed.
Lemma preprocess_wf : forall ops st, obj_wf (ps_heap st) -> obj_wf (ps_heap (fold_left split_node ops st)).
Proof. induction ops; intros; cbn; [assumption|]. apply IHops, split_node_wf. assumption. Qed.
Lemma stl_wf : forall h r, obj_wf h -> obj_wf (fst (softmax_to_linear h r)).
Proof.
  intros h r W. unfold softmax_to_linear.
  assert (G : forall o, (exists s, lo_act o = AName s) -> obj_wf (set_obj h r o)).
  { intros o (s & Es) q b Hq A. cbn in *. destruct (Nat.eq_dec q r) as [->|Hne].
    - rewrite upd_same in A. congruence.
    - rewrite upd_other in A by assumption. exact (W q b Hq A). }
  destruct (lo_class (h_obj h r)); try exact (alloc_wf h "activation"%string CActivation "linear"%string W);
    (destruct (lo_act (h_obj h r)) as [|s|b]; [exact W| |exact W]; destruct (String.eqb s "softmax"); [|exact W]; apply G; eexists; reflexivity).
Qed.
Lemma clone_wf : forall h inputs ops h', obj_wf h -> clone_objs h inputs ops = Ok h' -> obj_wf h'.
Proof.
  intros h inputs ops h' W H. apply clone_inv in H.
  assert (W1 : obj_wf (ps_heap (preprocess_objs h ops))) by (apply preprocess_wf; exact W).
  destruct (rev _); subst; [exact W1|apply stl_wf, W1].
Qed.
Lemma unsplit_clone : forall h inputs ops h' r, obj_wf h -> refs_wf h ops -> clone_objs h inputs ops = Ok h' -> r < h_next h ->
  unsplit h r -> unsplit h' r.
Proof.
  intros h inputs ops h' r W R H Hr U. destruct ops as [|a q] using rev_ind.
  - apply clone_empty in H. subst. exact U.
  - destruct (clone_acts h inputs _ _ h' r W R H Hr) as [C [[_ A]|[_ A]]]; unfold unsplit; rewrite C, A; [right; right; reflexivity|exact U].
Qed.
Lemma clone_times_names : forall k h inputs ops h' r, obj_wf h -> refs_wf h ops -> clone_times k h inputs ops = Ok h' ->
  In r ops -> unsplit h r -> slen (lo_name (h_obj h r)) + k <= slen (lo_name (h_obj h' r)).
Proof.
  induction k as [|k IH]; intros h inputs ops h' r W R H Hin U; cbn in H.
  - inversion H; subst. lia.
  - destruct (clone_objs h inputs ops) as [h1|] eqn:E; [|discriminate]. cbn [bind] in H.
    destruct (clone_heap h inputs ops h1 W R E) as [Nx G]. destruct (G r (R r Hin)) as [_ G1]. specialize (G1 Hin U).
    assert (R1 : refs_wf h1 ops) by (intros z Hz; specialize (R z Hz); lia).
    pose proof (IH h1 inputs ops h' r (clone_wf _ _ _ _ W E) R1 H Hin (unsplit_clone _ _ _ _ _ W R E (R r Hin) U)). lia.
Qed.
Lemma clone_renames : forall h inputs ops h' r, obj_wf h -> refs_wf h ops -> clone_objs h inputs ops = Ok h' ->
  In r ops -> unsplit h r -> lo_name (h_obj h' r) <> lo_name (h_obj h r).
Proof.
  intros h inputs ops h' r W R H Hin U E. destruct (clone_heap h inputs ops h' W R H) as [_ G].
  destruct (G r (R r Hin)) as [_ G1]. specialize (G1 Hin U). rewrite E in G1. lia.
Qed.

(** ** Clashes of names *)
Definition no_us (s : string) : Prop := ~ In "_"%char (list_ascii_of_string s).
Lemma digits_no_us : forall d, no_us (NilEmpty.string_of_uint d).
Proof. induction d; cbn; unfold no_us in *; cbn; intros H; try exact H; destruct H as [H|H]; try discriminate; auto. Qed.
Lemma nat_no_us : forall n, no_us (string_of_nat n).
Proof.
  intros n. unfold string_of_nat. generalize (Nat.to_uint n). intros d. destruct d.
  1: cbn; unfold no_us; cbn; intros [H|[]]; discriminate.
  all: unfold NilZero.string_of_uint; apply digits_no_us.
Qed.
Lemma to_uint_nonnil : forall n, Nat.to_uint n <> Decimal.Nil.
Proof. intros n. rewrite <- (Unsigned.of_to n) at 1. rewrite Unsigned.to_of. apply DecimalFacts.unorm_nonnil. Qed.
Lemma string_of_nat_inj : forall n m, string_of_nat n = string_of_nat m -> n = m.
Proof.
  intros n m H. unfold string_of_nat in H. apply Unsigned.to_uint_inj.
  assert (X : NilZero.uint_of_string (NilZero.string_of_uint (Nat.to_uint n)) = NilZero.uint_of_string (NilZero.string_of_uint (Nat.to_uint m))) by (rewrite H; reflexivity).
  rewrite !NilZero.usu in X by apply to_uint_nonnil. inversion X. reflexivity.
Qed.
Lemma app_us : forall a b x y, no_us x -> no_us y -> (a ++ "_" ++ x)%string = (b ++ "_" ++ y)%string -> x = y.
Proof.
  induction a as [|c a IH]; intros b x y X Y E.
  - destruct b as [|c b]; cbn in E; inversion E; [reflexivity|]. exfalso. apply X. subst.
    clear. induction b; cbn; [left; reflexivity|right; exact IHb].
  - destruct b as [|c' b]; cbn in E; inversion E.
    + exfalso. apply Y. rewrite <- H1. clear. induction a; cbn; [left; reflexivity|right; exact IHa].
    + exact (IH b x y X Y H1).
Qed.
Definition tagged (s : string) (c : nat) : Prop := exists p, s = add_count p c.
Lemma tagged_inj : forall s c c', tagged s c -> tagged s c' -> c = c'.
Proof.
  intros s c c' (p & E) (p' & E'). unfold add_count in *. apply string_of_nat_inj.
  apply (app_us p p'); [apply nat_no_us|apply nat_no_us|]. rewrite <- E. exact E'.
Qed.
Lemma sapp_assoc : forall a b c : string, ((a ++ b) ++ c = a ++ b ++ c)%string.
Proof. induction a; intros; cbn; [reflexivity|]. rewrite IHa. reflexivity. Qed.
Lemma tagged_prefix : forall a s c, tagged s c -> tagged (a ++ s)%string c.
Proof. intros a s c (p & ->). exists (a ++ p)%string. unfold add_count. rewrite sapp_assoc. reflexivity. Qed.

Definition tags (h : heap) (L : list nat) (c : nat) (cnt : nat -> nat) : Prop :=
  (forall r, In r L -> tagged (lo_name (h_obj h r)) (cnt r) /\ cnt r < c) /\
  (forall r q, In r L -> In q L -> cnt r = cnt q -> r = q).
Lemma rename_all_tags : forall rs h c L cnt, tags h L c cnt ->
  exists cnt', tags (fst (rename_all h c rs)) (L ++ rs) (snd (rename_all h c rs)) cnt'.
Proof.
  induction rs as [|a q IH]; intros h c L cnt [T1 T2]; cbn [rename_all fst snd].
  - exists cnt. rewrite app_nil_r. split; assumption.
  - destruct (IH (rename h a (add_count (lo_name (h_obj h a)) c)) (S c) (L ++ [a]) (upd cnt a c)) as (cnt' & T').
    + split.
      * intros r Hr. destruct (Nat.eq_dec r a) as [->|Hne].
        { rewrite rename_at, upd_same. cbn [lo_name]. split; [eexists; reflexivity|lia]. }
        rewrite rename_other, upd_other by assumption. apply in_app_or in Hr.
        destruct Hr as [Hr|[Hr|[]]]; [|congruence]. destruct (T1 r Hr). split; [assumption|lia].
      * intros r s Hr Hs E. apply in_app_or in Hr. apply in_app_or in Hs.
        destruct (Nat.eq_dec r a) as [Ea|Hna]; destruct (Nat.eq_dec s a) as [Eb|Hnb]; subst; try reflexivity.
        -- rewrite upd_same, upd_other in E by assumption. destruct Hs as [Hs|[Hs|[]]]; [|congruence]. destruct (T1 s Hs). lia.
        -- rewrite upd_same, upd_other in E by assumption. destruct Hr as [Hr|[Hr|[]]]; [|congruence]. destruct (T1 r Hr). lia.
        -- rewrite !upd_other in E by assumption.
           destruct Hr as [Hr|[Hr|[]]]; [|congruence]. destruct Hs as [Hs|[Hs|[]]]; [|congruence]. apply T2; assumption.
    + exists cnt'. rewrite <- app_assoc in T'. exact T'.
Qed.
Lemma split_obj_tags : forall h r L c cnt, refs_wf h L -> tags h L c cnt -> tags (fst (split_obj h r)) L c cnt.
Proof.
  intros h r L c cnt R [T1 T2]. split; [|exact T2]. intros q Hq. destruct (T1 q Hq) as [Tq Lq]. split; [|exact Lq].
  specialize (R q Hq). unfold split_obj. destruct (is_activation_class _); [exact Tq|]. destruct (lo_act (h_obj h r)) as [|s|b]; [exact Tq| |].
  - destruct (String.eqb s "linear"); [exact Tq|]. cbn [alloc fst h_obj h_next]. rewrite !upd_other by lia. exact Tq.
  - cbn [alloc fst].
    set (h1 := mk_heap _ _). destruct (Nat.eq_dec q b) as [->|Hne].
    + rewrite rename_at. cbn [lo_name]. rewrite <- sapp_assoc. apply tagged_prefix. unfold h1. cbn. rewrite upd_other by lia. exact Tq.
    + rewrite rename_other by assumption. unfold h1. cbn. rewrite upd_other by lia. exact Tq.
Qed.
Lemma split_node_tags : forall h0 st r cnt, obj_wf h0 -> pinv h0 st -> r < h_next h0 -> tags (ps_heap st) (ps_called st) (ps_count st) cnt ->
  exists cnt', tags (ps_heap (split_node st r)) (ps_called (split_node st r)) (ps_count (split_node st r)) cnt'.
Proof.
  intros h0 st r cnt W (E & C & M) Hr T. unfold split_node.
  destruct (ps_map st r) as [rs|].
  - destruct (rename_all_tags rs _ _ _ _ T) as (cnt' & T'). exists cnt'. destruct (rename_all _ _ _). exact T'.
  - pose proof (split_obj_tags (ps_heap st) r (ps_called st) _ _ C T) as T1. destruct (split_obj (ps_heap st) r) as [h rs].
    destruct (rename_all_tags rs _ _ _ _ T1) as (cnt' & T'). exists cnt'. cbn [fst] in *. destruct (rename_all h (ps_count st) rs). exact T'.
Qed.
Lemma fold_tags : forall h0 ops st cnt, obj_wf h0 -> pinv h0 st -> refs_wf h0 ops -> tags (ps_heap st) (ps_called st) (ps_count st) cnt ->
  exists cnt', tags (ps_heap (fold_left split_node ops st)) (ps_called (fold_left split_node ops st)) (ps_count (fold_left split_node ops st)) cnt'.
Proof.
  intros h0 ops. induction ops as [|a q IH]; intros st cnt W I R T; [exists cnt; exact T|]. cbn.
  assert (Ra : a < h_next h0) by (apply R; left; reflexivity).
  destruct (split_node_tags h0 st a cnt W I Ra T) as (cnt1 & T1).
  destruct (split_node_spec h0 st a W I Ra) as (_ & _ & _ & _ & _ & _ & I').
  apply (IH _ cnt1); auto. intros z Hz. apply R. right; exact Hz.
Qed.
Lemma preprocess_tags : forall h ops, obj_wf h -> refs_wf h ops ->
  exists cnt, tags (ps_heap (preprocess_objs h ops)) (ps_called (preprocess_objs h ops)) (ps_count (preprocess_objs h ops)) cnt.
Proof.
  intros h ops W R. unfold preprocess_objs. apply (fold_tags h ops _ (fun _ => 0)); auto using pinv_init.
  split; cbn; intros; contradiction.
Qed.

(** an object which is neither called nor the activation of a called layer is left alone *)
Lemma rename_all_other : forall rs h c i, ~ In i rs -> h_obj (fst (rename_all h c rs)) i = h_obj h i.
Proof.
  induction rs as [|a q IH]; intros h c i Hi; [reflexivity|]. cbn [rename_all].
  rewrite IH by (intro X; apply Hi; right; exact X). apply rename_other. intro X. apply Hi. left. congruence.
Qed.
Lemma split_obj_other : forall h r i, i < h_next h -> lo_act (h_obj h r) <> ALayer i -> h_obj (fst (split_obj h r)) i = h_obj h i.
Proof.
  intros h r i Hi N. unfold split_obj. destruct (is_activation_class _); [reflexivity|]. destruct (lo_act (h_obj h r)) as [|s|b] eqn:Ea; [reflexivity| |].
  - destruct (String.eqb s "linear"); [reflexivity|]. cbn. rewrite !upd_other by lia. reflexivity.
  - cbn [alloc fst]. rewrite rename_other by congruence. cbn. rewrite upd_other by lia. reflexivity.
Qed.
Lemma split_res_apart : forall h ops r rs i, apart h ops i -> In r ops -> split_res h r rs -> ~ In i rs.
Proof.
  intros h ops r rs i (Hi & N1 & N2) Hr [[-> _]|(_ & a & b & -> & Ha & Hb)] Hin.
  - destruct Hin as [E|[]]. congruence.
  - destruct Hin as [E|[E|[]]]; subst; [lia|]. destruct Hb as [(s & _ & Hb)|Hb]; [lia|exact (N2 r Hr Hb)].
Qed.
Lemma fold_apart : forall h0 ops l st i, obj_wf h0 -> pinv h0 st -> refs_wf h0 l -> (forall r, In r l -> In r ops) -> apart h0 ops i ->
  ~ In i (ps_called st) ->
  h_obj (ps_heap (fold_left split_node l st)) i = h_obj (ps_heap st) i /\ ~ In i (ps_called (fold_left split_node l st)).
Proof.
  intros h0 ops l. induction l as [|a q IH]; intros st i W I R Sub A NC; [split; [reflexivity|exact NC]|]. cbn.
  assert (Ra : a < h_next h0) by (apply R; left; reflexivity).
  assert (Ia : In a ops) by (apply Sub; left; reflexivity).
  destruct (split_node_spec h0 st a W I Ra) as (_ & _ & _ & _ & _ & _ & I').
  assert (X : h_obj (ps_heap (split_node st a)) i = h_obj (ps_heap st) i /\ ~ In i (ps_called (split_node st a))).
  { destruct I as ((Nx & XX) & C & M). assert (Hi : i < h_next (ps_heap st)) by (destruct A; lia).
    unfold split_node. destruct (ps_map st a) as [rs|] eqn:Em.
    - destruct (M a rs Em) as [Sr _]. pose proof (split_res_apart h0 ops a rs i A Ia Sr) as NI.
      pose proof (rename_all_other rs (ps_heap st) (ps_count st) i NI) as RO. destruct (rename_all _ _ _). cbn in *.
      split; [exact RO|]. intro Y. apply in_app_or in Y. tauto.
    - destruct (split_obj_spec0 h0 (ps_heap st) a (conj Nx XX) W Ra) as (_ & Sr & _).
      pose proof (split_res_apart h0 ops a _ i A Ia Sr) as NI.
      pose proof (split_obj_other (ps_heap st) a i Hi) as SO.
      destruct (XX a Ra) as (_ & Aa & _). rewrite Aa in SO. specialize (SO (proj2 (proj2 A) a Ia)).
      destruct (split_obj (ps_heap st) a) as [h rs]. cbn [fst snd] in *.
      pose proof (rename_all_other rs h (ps_count st) i NI) as RO. destruct (rename_all _ _ _). cbn in *.
      split; [congruence|]. intro Y. apply in_app_or in Y. tauto. }
  destruct X as [X1 X2]. destruct (IH (split_node st a) i W I') as [Y1 Y2]; auto.
  { intros z Hz. apply R. right; exact Hz. } { intros z Hz. apply Sub. right; exact Hz. }
  split; [congruence|exact Y2].
Qed.
Lemma distinct_map : forall (f : nat -> string) l, NoDup l -> (forall a b, In a l -> In b l -> f a = f b -> a = b) -> distinct (map f l) = true.
Proof.
  intros f l. induction l as [|a q IH]; intros ND Inj; [reflexivity|]. cbn. inversion ND; subst.
  rewrite IH; auto. 2:{ intros; apply Inj; auto; right; assumption. } rewrite andb_true_r. apply negb_true_iff.
  destruct (existsb (String.eqb (f a)) (map f q)) eqn:E; [|reflexivity]. exfalso.
  apply existsb_exists in E. destruct E as (s & Hs & Es). apply String.eqb_eq in Es. subst. apply in_map_iff in Hs. destruct Hs as (b & Eb & Hb).
  assert (a = b) by (apply Inj; [left; reflexivity|right; exact Hb|congruence]). subst. contradiction.
Qed.
Lemma in_dedup : forall l r, In r (dedup l) -> In r l.
Proof. induction l as [|a q IH]; intros r H; [exact H|]. cbn in H. destruct (existsb _ _); [right; auto|]. destruct H as [->|H]; [left; reflexivity|right; auto]. Qed.
Lemma dedup_nodup : forall l, NoDup (dedup l).
Proof.
  induction l as [|a q IH]; cbn; [constructor|]. destruct (existsb (Nat.eqb a) q) eqn:E; [exact IH|]. constructor; [|exact IH].
  intro H. apply in_dedup in H. assert (existsb (Nat.eqb a) q = true); [|congruence]. apply existsb_exists. exists a. split; [exact H|apply Nat.eqb_refl].
Qed.
Lemma clone_ok : forall h inputs ops, obj_wf h -> refs_wf h ops ->
  (forall i, In i inputs -> apart h ops i) ->
  (forall i j, In i inputs -> In j inputs -> lo_name (h_obj h i) = lo_name (h_obj h j) -> i = j) ->
  (forall i c p, In i inputs -> lo_name (h_obj h i) <> add_count p c) ->
  exists h', clone_objs h inputs ops = Ok h'.
Proof.
  intros h inputs ops W R A D NT. unfold clone_objs.
  destruct (preprocess_tags h ops W R) as (cnt & T1 & T2).
  assert (K : forall i, In i inputs -> h_obj (ps_heap (preprocess_objs h ops)) i = h_obj h i /\ ~ In i (ps_called (preprocess_objs h ops))).
  { intros i Hi. apply (fold_apart h ops ops _ i W (pinv_init h) R (fun r H => H) (A i Hi)). intros []. }
  unfold keras_model. rewrite distinct_map.
  - cbn [bind]. destruct (rev _); eexists; reflexivity.
  - apply dedup_nodup.
  - intros a b Ha Hb E. apply in_dedup, in_app_or in Ha. apply in_dedup, in_app_or in Hb.
    destruct Ha as [Ha|Ha], Hb as [Hb|Hb].
    + destruct (K a Ha) as [Ka _], (K b Hb) as [Kb _]. rewrite Ka, Kb in E. apply D; assumption.
    + exfalso. destruct (K a Ha) as [Ka _]. destruct (T1 b Hb) as [(p & Tb) _]. rewrite Ka, Tb in E. exact (NT a _ p Ha E).
    + exfalso. destruct (K b Hb) as [Kb _]. destruct (T1 a Ha) as [(p & Ta) _]. rewrite Kb, Ta in E. exact (NT b _ p Hb (eq_sym E)).
    + apply T2; [exact Ha|exact Hb|]. destruct (T1 a Ha) as [Ta _], (T1 b Hb) as [Tb _]. rewrite E in Ta. exact (tagged_inj _ _ _ Ta Tb).
Qed.
