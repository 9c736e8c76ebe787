(** Proofs about the name tables (C42) and the freezing of weights (C43) *)
From Coq Require Import String Ascii Reals List Arith Bool ZArith Lia Lra Permutation.
From Verif Require Import RLib Spec Spec_Layers M_Core M_Utils M_MergeLayers M_Ops M_Layers M_Convert M_State Spec_State.
Import ListNotations.
Local Open Scope nat_scope.

(** ** C42 *)
Lemma found_in : forall l s, found l s = true <-> In s l.
Proof.
  intros l s. unfold found. rewrite existsb_exists. split.
  - intros (x & Hx & E). apply String.eqb_eq in E. subst. exact Hx.
  - intros H. exists s. split; [exact H|apply String.eqb_refl].
Qed.
Lemma to_decomon_spec : forall built cls a ok,
  match to_decomon built cls a ok with
  | Ok (c, act) => built <> Some false /\ In cls decomon_names /\ c = ("Decomon" ++ cls)%string /\ (cls = "Activation"%string -> act = a)
  | Err ValueError => built = Some false
  | Err NotImplementedError => built <> Some false /\ (~ In cls decomon_names \/ ok = false)
  | Err _ => False
  end.
Proof.
  intros built cls a ok. unfold to_decomon.
  assert (G : forall b, built = b -> b <> Some false -> match (if (found decomon_names cls && ok)%bool then Ok (("Decomon" ++ cls)%string, if String.eqb cls "Activation" then a else None) else Err NotImplementedError) with
     | Ok (c, act) => built <> Some false /\ In cls decomon_names /\ c = ("Decomon" ++ cls)%string /\ (cls = "Activation"%string -> act = a)
     | Err ValueError => built = Some false
     | Err NotImplementedError => built <> Some false /\ (~ In cls decomon_names \/ ok = false)
     | Err _ => False end).
  { intros b E N. subst b. destruct (found decomon_names cls) eqn:F, ok; cbn [andb].
    - repeat split; auto. { apply found_in; exact F. } intros ->. reflexivity.
    - auto.
    - split; auto. left. intro X. apply found_in in X. congruence.
    - auto. }
  destruct built as [[|]|]; [apply (G _ eq_refl); discriminate|reflexivity|apply (G _ eq_refl); discriminate].
Qed.
Lemma names_same : forall c, In c decomon_names <-> In c backward_names.
Proof. intros c. cbn. tauto. Qed.
Lemma strip_decomon : forall c, In c backward_names -> strip 0 ("Decomon" ++ c)%string = c.
Proof. intros c H. cbn in H. repeat (destruct H as [<-|H]; [reflexivity|]). destruct H. Qed.
Lemma prefix_names : forall c, In c backward_names -> prefix "Decomon" c = false.
Proof. intros c H. cbn in H. repeat (destruct H as [<-|H]; [reflexivity|]). destruct H. Qed.
Lemma prefix_app : forall a b, prefix a (a ++ b)%string = true.
Proof.
  induction a; intros; cbn; [destruct b; reflexivity|]. destruct (ascii_dec a a); [apply IHa|congruence].
Qed.
Lemma to_backward_decomon : forall built cls a ok c act, to_decomon built cls a ok = Ok (c, act) ->
  to_backward c = Ok ("Backward" ++ cls)%string /\ to_backward cls = Ok ("Backward" ++ cls)%string.
Proof.
  intros built cls a ok c act H. pose proof (to_decomon_spec built cls a ok) as S. rewrite H in S. destruct S as (_ & I & -> & _).
  apply names_same in I. unfold to_backward. rewrite prefix_app, strip_decomon, prefix_names by exact I.
  apply found_in in I. rewrite I. split; reflexivity.
Qed.
(** what to_backward accepts *)
Lemma strip_len : forall s k, String.length (strip k s) <= String.length s.
Proof.
  induction s as [|c q IH]; intros k; [destruct k; cbn; lia|].
  destruct k; [|cbn [strip String.length]; specialize (IH k); lia].
  change (String.length (if prefix "Decomon" (String c q) then strip 6 q else String c (strip 0 q)) <= S (String.length q)).
  destruct (prefix "Decomon" (String c q)); [specialize (IH 6); lia|cbn [String.length]; specialize (IH 0); lia].
Qed.
Lemma to_backward_spec : forall cls b, prefix "Decomon" cls = false ->
  (to_backward cls = Ok b <-> In cls backward_names /\ b = ("Backward" ++ cls)%string).
Proof.
  intros cls b P. unfold to_backward. rewrite P. destruct (found backward_names cls) eqn:F; split.
  - intros H; inversion H; split; [apply found_in; exact F|reflexivity].
  - intros [_ ->]. reflexivity.
  - discriminate.
  - intros [I _]. apply found_in in I. congruence.
Qed.

Lemma lookup_spec : forall t s a, NoDup (map fst t) -> (lookup t s = Ok a <-> In (s, a) t).
Proof.
  intros t s a ND. unfold lookup. split.
  - destruct (find _ t) as [p|] eqn:E; [|discriminate]. intros H; inversion H; subst. apply find_some in E. destruct E as [I E].
    apply String.eqb_eq in E. destruct p; cbn in *. subst. exact I.
  - intros I. induction t as [|[n f] q IH]; [destruct I|]. cbn. inversion ND; subst. destruct (String.eqb s n) eqn:E.
    + apply String.eqb_eq in E. subst. destruct I as [I|I]; [inversion I; reflexivity|]. exfalso. apply H1. apply (in_map fst) in I. exact I.
    + destruct I as [I|I]; [inversion I; subst; rewrite String.eqb_refl in E; discriminate|]. apply IH; assumption.
Qed.
Lemma nodup_tables : NoDup (map fst forward_table) /\ NoDup (map fst backward_table).
Proof. split; repeat (constructor; [cbn; intuition discriminate|]); constructor. Qed.
Lemma lower_no_G : forall s q, lower s <> String "G" q.
Proof.
  intros [|c s] q H; [discriminate|]. cbn in H. inversion H as [[E _]]. clear H.
  destruct c as [[|] [|] [|] [|] [|] [|] [|] [|]]; vm_compute in E; discriminate.
Qed.
Lemma deserialize_spec : forall s a, deserialize s = Ok a <-> In (lower s, a) forward_table /\ a <> GroupSort2.
Proof.
  intros s a. unfold deserialize. rewrite lookup_spec by apply nodup_tables. split; [|tauto]. intros H. split; [exact H|]. intros ->.
  cbn in H. repeat (destruct H as [H|H]; [inversion H|]); try exact H. exact (lower_no_G s _ (eq_sym H1)).
Qed.
Lemma backward_deserialize_spec : forall s a, backward_deserialize s = Ok a <-> deserialize s = Ok a \/ (lower s = "relu_"%string /\ a = Relu).
Proof.
  intros s a. rewrite deserialize_spec. unfold backward_deserialize. rewrite lookup_spec by apply nodup_tables. cbn. split.
  - intros H. repeat (destruct H as [H|H]; [inversion H; subst; first [left; split; [tauto|discriminate]|right; split; reflexivity]|]). destruct H.
  - intros [[H N]|[E ->]]; [|rewrite E; tauto]. repeat (destruct H as [H|H]; [inversion H; subst; first [congruence|tauto]|]). destruct H.
Qed.
Lemma groupsort_refuted : In ("GroupSort2"%string, GroupSort2) forward_table /\ forall s, deserialize s <> Ok GroupSort2 /\ backward_deserialize s <> Ok GroupSort2.
Proof.
  split; [cbn; tauto|]. intros s. assert (A : deserialize s <> Ok GroupSort2) by (intros H; apply deserialize_spec in H; tauto).
  split; [exact A|]. intros H. apply backward_deserialize_spec in H. destruct H as [H|[_ H]]; [exact (A H)|discriminate].
Qed.
Lemma get_activation_spec : forall i a, get_activation deserialize i = Ok a ->
  get_activation backward_deserialize i = Ok a.
Proof. intros [|s|f|] a H; cbn in *; auto. apply backward_deserialize_spec. left; exact H. Qed.
(** nothing, a name, a function, anything else *)
Lemma get_activation_cases : forall d, (d = deserialize \/ d = backward_deserialize) ->
  get_activation d INone = Ok Linear /\ (forall s, get_activation d (IStr s) = d s) /\
  (forall f, get_activation d (ICallable f) = Ok f) /\ get_activation d IOther = Err ValueError /\ get_activation d INone = d "linear"%string.
Proof. intros d [-> | ->]; repeat split; reflexivity. Qed.
Lemma activation_dropped_refuted : exists built cls a, a <> None /\ to_decomon built cls a true = Ok ("DecomonDense"%string, None).
Proof. exists (Some true), "Dense"%string, (Some "relu"%string). split; [discriminate|reflexivity]. Qed.

(** ** C43 *)
Lemma run_fdense : forall os (b fr : bool),
  run fdense_step os (mk_fdense b (if fr then [] else if b then [Kernel; Bias] else [Kernel]) fr) =
  mk_fdense b (if frozen_after FreezeW UnfreezeW os fr then [] else if b then [Kernel; Bias] else [Kernel]) (frozen_after FreezeW UnfreezeW os fr).
Proof.
  induction os as [|o q IH]; intros b fr; [reflexivity|]. unfold run in *. cbn [fold_left frozen_after].
  rewrite <- IH. f_equal. destruct o, fr, b; reflexivity.
Qed.
Lemma run_fact : forall os (ft : bool) m k (fr : bool),
  run fact_step os (mk_fact ft m k (if fr then [] else if (ft && not_ibp m)%bool then betas k else []) fr) =
  mk_fact ft m k (if frozen_after FreezeA UnfreezeA os fr then [] else if (ft && not_ibp m)%bool then betas k else []) (frozen_after FreezeA UnfreezeA os fr).
Proof.
  induction os as [|o q IH]; intros ft m k fr; [reflexivity|]. unfold run in *. cbn [fold_left frozen_after].
  rewrite <- IH. f_equal. destruct o, fr, ft, m; reflexivity.
Qed.
Lemma fwd_run : forall os l, forward_init l ->
  exists l', foldR (fun st o => flayer_step o st) os l = Ok l' /\ flayer_tw l' = expected_tw os l.
Proof.
  intros os l [[b ->]|[(ft & m & k & ->)|[tw ->]]].
  - exists (LDense (run fdense_step os (fdense_init b))). split.
    + generalize (fdense_init b). induction os as [|o q IH]; intros d; [reflexivity|]. cbn. apply IH.
    + cbn [flayer_tw expected_tw]. unfold fdense_init, weights_frozen. rewrite (run_fdense os b false). reflexivity.
  - exists (LAct (run fact_step os (fact_init ft m k))). split.
    + generalize (fact_init ft m k). induction os as [|o q IH]; intros d; [reflexivity|]. cbn. apply IH.
    + cbn [flayer_tw expected_tw]. unfold fact_init, alpha_frozen. rewrite (run_fact os ft m k false). reflexivity.
  - exists (LOther tw). split; [|reflexivity]. induction os; [reflexivity|]. cbn. exact IHos.
Qed.
Lemma mapR_cons_ok : forall A B (f : A -> result B) a l b m, f a = Ok b -> mapR f l = Ok m -> mapR f (a :: l) = Ok (b :: m).
Proof. intros A B f a l b m E F. cbn. rewrite E, F. reflexivity. Qed.
(** the layers of a model evolve separately *)
Lemma model_run_cons : forall os a ls a' ls', foldR (fun st o => flayer_step o st) os a = Ok a' -> model_run os ls = Ok ls' -> model_run os (a :: ls) = Ok (a' :: ls').
Proof.
  induction os as [|o q IH]; intros a ls a' ls' Ea El.
  - inversion Ea; inversion El; subst. reflexivity.
  - unfold model_run in *. cbn [foldR] in *. destruct (flayer_step o a) as [a1|] eqn:E1; [|discriminate]. destruct (model_step o ls) as [l1|] eqn:E2; [|discriminate].
    cbn [bind] in *. unfold model_step in *. rewrite (mapR_cons_ok _ _ _ _ _ _ _ E1 E2). cbn [bind]. apply IH; assumption.
Qed.
Lemma model_run_forward : forall ls os, Forall forward_init ls ->
  exists ls', model_run os ls = Ok ls' /\ map flayer_tw ls' = map (expected_tw os) ls.
Proof.
  induction ls as [|a q IH]; intros os F.
  - exists []. split; [|reflexivity]. induction os; [reflexivity|]. unfold model_run in *. cbn. exact IHos.
  - inversion F; subst. destruct (fwd_run os a H1) as (a' & Ea & Ta). destruct (IH os H2) as (q' & Eq & Tq).
    exists (a' :: q'). split; [apply model_run_cons; assumption|]. cbn. rewrite Ta, Tq. reflexivity.
Qed.
(** freeze then unfreeze restores the weights, whatever happened before *)
Lemma frozen_after_app : forall f u os os' b, frozen_after f u (os ++ os') b = frozen_after f u os' (frozen_after f u os b).
Proof. induction os; intros; cbn; [reflexivity|apply IHos]. Qed.
Lemma model_unfreeze : forall ls os, Forall forward_init ls ->
  exists ls', model_run (os ++ [UnfreezeW; UnfreezeA]) ls = Ok ls' /\ map flayer_tw ls' = map flayer_tw ls.
Proof.
  intros ls os F. destruct (model_run_forward ls (os ++ [UnfreezeW; UnfreezeA]) F) as (ls' & E & T). exists ls'. split; [exact E|]. rewrite T.
  apply map_ext. intros [d|a|d|a|tw]; cbn; try reflexivity; unfold weights_frozen, alpha_frozen; rewrite frozen_after_app; reflexivity.
Qed.

(** backward layers *)
Lemma bdense_frozen_empty : forall os l, (bd_tw l = [] \/ bd_frozen l = false) -> (bd_tw l = [] \/ In FreezeW os) -> bd_tw (run bdense_step os l) = [].
Proof.
  induction os as [|o q IH]; intros l I [E|F]; try (destruct F; fail); [exact E| |].
  - unfold run in *. cbn [fold_left]. assert (X : bd_tw (bdense_step o l) = []) by (destruct o; cbn; [destruct (bd_frozen l)|destruct (bd_frozen l)| |]; cbn; auto).
    apply IH; left; exact X.
  - unfold run in *. cbn [fold_left]. destruct F as [->|F].
    + assert (X : bd_tw (bdense_step FreezeW l) = []). { cbn. destruct I as [I|I]; [destruct (bd_frozen l); cbn; auto|rewrite I; reflexivity]. }
      apply IH; left; exact X.
    + apply IH; [|right; exact F]. destruct I as [I|I].
      * left. destruct o; cbn; try exact I; destruct (bd_frozen l); cbn; auto.
      * destruct o; cbn; rewrite ?I; cbn; auto.
Qed.
Lemma bdense_refuted : forall b os, In FreezeW os -> bd_tw (bdense_init b) <> [] /\ bd_tw (run bdense_step os (bdense_init b)) = [].
Proof. intros b os H. split; [destruct b; discriminate|]. apply bdense_frozen_empty; [right; reflexivity|right; exact H]. Qed.
(** the wrapped layer does follow *)
Lemma bdense_layer : forall os b, fd_tw (bd_layer (run bdense_step os (bdense_init b))) = if weights_frozen os then [] else fd_tw (fdense_init b).
Proof.
  intros os b.
  assert (G : forall os l, bd_frozen l = fd_frozen (bd_layer l) -> bd_layer (run bdense_step os l) = run fdense_step os (bd_layer l)).
  { clear. induction os as [|o q IH]; intros l E; [reflexivity|]. unfold run in *. cbn [fold_left].
    assert (X : bd_layer (bdense_step o l) = fdense_step o (bd_layer l) /\ bd_frozen (bdense_step o l) = fd_frozen (bd_layer (bdense_step o l))).
    { destruct l as [tw fr [b t f]]. cbn in E. subst fr. destruct o, f; cbn; auto. }
    destruct X as [X1 X2]. rewrite IH by exact X2. rewrite X1. reflexivity. }
  rewrite G by reflexivity. cbn [bd_layer bdense_init]. unfold fdense_init. rewrite (run_fdense os b false). reflexivity.
Qed.
Lemma bact_error_refuted : forall ls m k, In (LBAct (bact_init false m k)) ls -> model_step FreezeA ls = Err AttributeError /\ model_step UnfreezeA ls = Err AttributeError.
Proof.
  intros ls m k H. unfold model_step.
  assert (S : forall o l, (exists l', flayer_step o l = Ok l') \/ flayer_step o l = Err AttributeError).
  { intros o [d|a|d|a|tw]; cbn; eauto. unfold bact_step. destruct o; cbn [bind]; eauto; destruct (ba_frozen a) as [[|]|]; cbn [bind]; eauto.
    destruct (_ && _)%bool; cbn [bind]; eauto. }
  split; induction ls as [|a q IH]; try (destruct H; fail); cbn [mapR].
  - destruct H as [->|H]; [reflexivity|]. destruct (S FreezeA a) as [[a' ->]| ->]; [|reflexivity]. cbn [bind]. rewrite (IH H). reflexivity.
  - destruct H as [->|H]; [reflexivity|]. destruct (S UnfreezeA a) as [[a' ->]| ->]; [|reflexivity]. cbn [bind]. rewrite (IH H). reflexivity.
Qed.
Lemma bact_ibp_refuted : forall os k, foldR (fun st o => bact_step o st) os (bact_init true IBP k) = Ok (bact_init true IBP k).
Proof. induction os as [|o q IH]; intros k; [reflexivity|]. cbn [foldR]. replace (bact_step o (bact_init true IBP k)) with (Ok (bact_init true IBP k)) by (destruct o; reflexivity). cbn [bind]. apply IH. Qed.
Lemma bact_run : forall os m k tw fr, not_ibp m = true -> (fr = true -> tw = []) -> (fr = false -> Permutation tw (alphas k)) ->
  exists tw', foldR (fun st o => bact_step o st) os (mk_bact true m k [] tw (Some fr) false) = Ok (mk_bact true m k [] tw' (Some (frozen_after FreezeA UnfreezeA os fr)) false) /\
    (frozen_after FreezeA UnfreezeA os fr = true -> tw' = []) /\ (frozen_after FreezeA UnfreezeA os fr = false -> Permutation tw' (alphas k)).
Proof.
  induction os as [|o q IH]; intros m k tw fr M H1 H2; [exists tw; auto|]. cbn [foldR frozen_after].
  destruct o; cbn [bact_step fop_eqb ba_frozen ba_finetune ba_mode ba_grid ba_tw ba_kind ba_frozen_grid bind].
  - apply IH; auto.
  - apply IH; auto.
  - destruct fr; cbn [bind].
    + apply IH; auto.
    + rewrite M. cbn [andb bind]. apply IH; auto. discriminate.
  - destruct fr; cbn [bind].
    + rewrite M. cbn [andb bind]. rewrite (H1 eq_refl). apply IH; auto. discriminate.
    + apply IH; auto.
Qed.
Lemma bact_init_run : forall os m k, not_ibp m = true ->
  exists l, foldR (fun st o => bact_step o st) os (bact_init true m k) = Ok l /\
    (alpha_frozen os = true -> ba_tw l = []) /\ (alpha_frozen os = false -> Permutation (ba_tw l) (ba_tw (bact_init true m k))).
Proof.
  intros os m k M. assert (P : Permutation (ba_tw (bact_init true m k)) (alphas k)) by (destruct k; cbn; auto; apply perm_swap).
  destruct (bact_run os m k (ba_tw (bact_init true m k)) false M ltac:(discriminate) (fun _ => P)) as (tw & E & A & B).
  exists (mk_bact true m k [] tw (Some (alpha_frozen os)) false). split; [exact E|]. cbn [ba_tw]. split; [exact A|].
  intros F. transitivity (alphas k); [exact (B F)|symmetry; exact P].
Qed.
(** a grid domain: freeze_alpha keeps alpha and drops a grid variable *)
Lemma bact_grid_refuted : forall m, not_ibp m = true -> exists l,
  bact_step FreezeA (bact_init_grid true m) = Ok l /\ In AlphaL (ba_tw l) /\ In GridPos (ba_tw (bact_init_grid true m)) /\ ~ In GridPos (ba_tw l).
Proof. intros [| |] M; try discriminate; (eexists; split; [reflexivity|]; cbn; intuition discriminate). Qed.

(** reset_finetuning *)
Lemma reset_spec : forall ft m k v x, reset_finetuning (LAct (fact_init ft m k)) v x = if in_dec var_eq_dec x (fa_tw (fact_init ft m k)) then 1%R else v x.
Proof. intros ft m k v x. destruct ft, m, k, x; reflexivity. Qed.
Lemma reset_backward_refuted : exists l v, In AlphaL (flayer_tw l) /\ reset_finetuning l v AlphaL <> 1%R.
Proof. exists (LBAct (bact_init true HYBRID ARelu)), (fun _ => 0%R). split; [left; reflexivity|]. cbn. lra. Qed.
