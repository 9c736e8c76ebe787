(** Options of the layers through get_config and from_config (C77) *)
From Coq Require Import String List Bool ZArith Reals Lia Lra.
From Verif Require Import RLib Spec Spec_Config Spec_Network M_Core M_Network M_Domain M_Config P_Core.
Import ListNotations.

(** ** dictionaries *)
Lemma lookup_app : forall k a b, lookup k (a ++ b) = match lookup k a with Some v => Some v | None => lookup k b end.
Proof. intros k a b. induction a as [|[k' v] a IH]; [reflexivity|]. cbn. destruct (String.eqb k k'); [reflexivity|exact IH]. Qed.
Lemma lookup_drop : forall k ks d, lookup k (drop ks d) = if mem k ks then None else lookup k d.
Proof.
  intros k ks d. unfold drop. induction d as [|[k' v] d IH]; cbn; [destruct (mem k ks); reflexivity|].
  destruct (mem k' ks) eqn:E; cbn [negb lookup].
  - destruct (String.eqb k k') eqn:Q; [|exact IH]. apply String.eqb_eq in Q. subst k'. rewrite E in IH |- *. exact IH.
  - destruct (String.eqb k k') eqn:Q; [|exact IH]. apply String.eqb_eq in Q. subst k'. rewrite E. reflexivity.
Qed.
Lemma mem_keys : forall k e, mem k (List.map fst e) = match lookup k e with Some _ => true | None => false end.
Proof. intros k e. induction e as [|[k' v] e IH]; [reflexivity|]. cbn. destruct (String.eqb k k'); [reflexivity|exact IH]. Qed.
Lemma lookup_update : forall k d e, lookup k (update d e) = match lookup k e with Some v => Some v | None => lookup k d end.
Proof.
  intros k d e. unfold update. rewrite lookup_app, lookup_drop, mem_keys.
  destruct (lookup k e) eqn:E; [reflexivity|]. destruct (lookup k d); [reflexivity|]. reflexivity.
Qed.
Lemma lookup_params : forall k (f : string -> cval) P, lookup k (List.map (fun p => (p, f p)) P) = if mem k P then Some (f k) else None.
Proof.
  intros k f P. induction P as [|p P IH]; [reflexivity|]. cbn. destruct (String.eqb k p) eqn:Q; [|exact IH].
  apply String.eqb_eq in Q. subst p. reflexivity.
Qed.
Lemma mem_in : forall k l, mem k l = true <-> In k l.
Proof.
  intros k l. unfold mem. rewrite existsb_exists. split.
  - intros (x & H & E). apply String.eqb_eq in E. subst x. exact H.
  - intros H. exists k. split; [exact H|apply String.eqb_refl].
Qed.
Lemma in_lookup : forall kv d, In kv d -> lookup (fst kv) d <> None.
Proof.
  intros kv d. induction d as [|[k v] d IH]; intros H; [contradiction|]. destruct H as [<-|H]; cbn.
  - rewrite String.eqb_refl. discriminate.
  - destruct (String.eqb (fst kv) k); [discriminate|exact (IH H)].
Qed.
Lemma lookup_in : forall k v d, lookup k d = Some v -> In (k, v) d.
Proof.
  intros k v d. induction d as [|[k' v'] d IH]; cbn; intros H; [discriminate|].
  destruct (String.eqb k k') eqn:Q; [|right; exact (IH H)]. apply String.eqb_eq in Q. injection H as ->. subst. left. reflexivity.
Qed.

(** ** Keras *)
Lemma keras_ok : forall P Rq kw k, keras_init P Rq kw = Ok k <->
  (forall r, In r Rq -> lookup r kw <> None) /\ (forall x, lookup x kw <> None -> In x P) /\ k = List.map (fun p => (p, arg p VNone kw)) P.
Proof.
  intros P Rq kw k. unfold keras_init.
  destruct (forallb (fun k => match lookup k kw with Some _ => true | None => false end) Rq) eqn:A; cbn [negb].
  - assert (A' : forall r, In r Rq -> lookup r kw <> None).
    { intros r Hr Q. rewrite forallb_forall in A. specialize (A r Hr). rewrite Q in A. discriminate. }
    destruct (forallb (fun kv => mem (fst kv) P) kw) eqn:B.
    + split.
      * intros E. injection E as <-. split; [exact A'|]. split; [|reflexivity]. intros x Hx. destruct (lookup x kw) as [v|] eqn:E; [|congruence].
        apply lookup_in in E. rewrite forallb_forall in B. apply mem_in. exact (B _ E).
      * intros (_ & _ & ->). reflexivity.
    + split; [discriminate|]. intros (_ & H & _). exfalso.
      assert (forallb (fun kv => mem (fst kv) P) kw = true) as Q; [|congruence].
      apply forallb_forall. intros kv Hk. apply mem_in, H, in_lookup, Hk.
  - split; [discriminate|]. intros (H & _). exfalso.
    assert (forallb (fun k => match lookup k kw with Some _ => true | None => false end) Rq = true) as Q; [|congruence].
    apply forallb_forall. intros r Hr. specialize (H r Hr). destruct (lookup r kw); congruence.
Qed.
(** the parameters given again, with other keys that are removed *)
Lemma keras_again : forall P Rq X kw k d, keras_init P Rq (drop X kw) = Ok k ->
  (forall p, mem p X = false -> lookup p d = lookup p k) ->
  keras_init P Rq (drop X d) = Ok k.
Proof.
  intros P Rq X kw k d H Hd. pose proof H as H0. apply keras_ok in H. destruct H as (A & B & E). apply keras_ok.
  assert (Q : forall p, lookup p (drop X d) = if mem p X then None else if mem p P then Some (arg p VNone (drop X kw)) else None).
  { intros p. rewrite lookup_drop. destruct (mem p X) eqn:M; [reflexivity|]. rewrite (Hd p M), E. apply lookup_params. }
  split; [|split].
  - intros r Hr. specialize (A r Hr). rewrite lookup_drop in A. rewrite Q. destruct (mem r X) eqn:M; [congruence|].
    assert (mem r P = true) as ->; [|discriminate]. apply mem_in, B. rewrite lookup_drop, M. exact A.
  - intros x. rewrite Q. destruct (mem x X); [congruence|]. destruct (mem x P) eqn:M; [|congruence]. intros _. apply mem_in, M.
  - rewrite E. apply map_ext_in. intros p Hp. f_equal. unfold arg at 2. rewrite Q. apply mem_in in Hp. rewrite Hp.
    destruct (mem p X) eqn:M; [|reflexivity]. unfold arg. rewrite lookup_drop, M. reflexivity.
Qed.

(** ** the constructor, by its results *)
Definition c_extra (c : lclass) : list string := List.map fst (own_params c) ++ popped c ++ common.
Definition radius_ok (c : lclass) (mode : fmode) (D : domain) : Prop := c = CRadiusRobust -> mode <> IBP /\ D = Box.
Lemma layer_init_ok : forall c kw a, layer_init c kw = Ok a <-> exists k D dc mode ft sh fs own,
  keras_init (keras_params c) (keras_required c) (drop (c_extra c) kw) = Ok k /\
  as_domain (arg "perturbation_domain" VNone kw) = Ok D /\ as_bool (arg "dc_decomp" (VBool false) kw) = Ok dc /\
  as_mode (arg "mode" (VMode HYBRID) kw) = Ok mode /\ as_bool (arg "finetune" (VBool false) kw) = Ok ft /\
  as_bool (arg "shared" (VBool false) kw) = Ok sh /\ as_bool (arg "fast" (VBool true) kw) = Ok fs /\ own_init c kw = Ok own /\
  radius_ok c mode D /\ a = mk_attrs c k D dc mode ft sh fs own (dc, mode, D).
Proof.
  intros c kw a. unfold layer_init. fold (c_extra c). split.
  - intros H. repeat match type of H with bind ?r _ = _ => let v := fresh "v" in let E := fresh "E" in destruct r as [v|] eqn:E; [cbn [bind] in H|discriminate H] end.
    exists v, v0, v1, v2, v3, v4, v5, v6. fold (c_extra c) in E.
    assert (radius_ok c v2 v0 /\ a = mk_attrs c v v0 v1 v2 v3 v4 v5 v6 (v1, v2, v0)) as [Hr Ha].
    { split.
      - intros ->. destruct v2, v0; try discriminate H; split; congruence.
      - destruct c, v2, v0; congruence. }
    do 8 (split; [reflexivity|]). split; assumption.
  - intros (k & D & dc & mode & ft & sh & fs & own & -> & -> & -> & -> & -> & -> & -> & -> & Hr & ->). cbn [bind].
    destruct c; try reflexivity. destruct (Hr eq_refl) as [Hm ->]. destruct mode; [congruence|reflexivity|reflexivity].
Qed.

(** own options *)
Lemma own_again : forall k v v', own_value k v = Ok v' -> own_value k v' = Ok v'.
Proof.
  intros k v v'. unfold own_value. destruct (String.eqb k "slope").
  - destruct (as_slope v) as [s|]; cbn; [|discriminate]. intros E. injection E as <-. reflexivity.
  - destruct (as_bool v) as [s|]; cbn; [|discriminate]. intros E. injection E as <-. reflexivity.
Qed.
Lemma own_keys : forall c kw own, own_init c kw = Ok own -> List.map fst own = List.map fst (own_params c).
Proof.
  intros c kw own. unfold own_init. generalize (own_params c). intros l. revert own. induction l as [|p l IH]; intros own; cbn.
  - intros E. injection E as <-. reflexivity.
  - destruct (own_value _ _) as [v|]; cbn; [|discriminate]. destruct (mapR _ l) as [r|]; cbn; [|discriminate]. intros E. injection E as <-. cbn. f_equal. apply IH. reflexivity.
Qed.
Lemma own_lookup : forall c kw own k, own_init c kw = Ok own -> mem k (List.map fst (own_params c)) = false -> lookup k own = None.
Proof. intros c kw own k H Q. rewrite <- (own_keys _ _ _ H), mem_keys in Q. destruct (lookup k own); [discriminate|reflexivity]. Qed.
Lemma own_init_again : forall c kw own d, own_init c kw = Ok own ->
  (forall k, mem k (List.map fst (own_params c)) = true -> lookup k d = lookup k own) -> own_init c d = Ok own.
Proof.
  intros c kw own d H Hd. destruct c; try exact H.
  - specialize (Hd "slope"%string eq_refl). unfold own_init in H |- *. cbn [own_params mapR fst snd] in H |- *. destruct (own_value "slope" (arg "slope" (VSlope V_SLOPE) kw)) as [v|] eqn:E; [|discriminate H]. cbn [bind] in H. injection H as <-.
    cbn [lookup String.eqb Ascii.eqb Bool.eqb] in Hd. unfold arg. rewrite Hd. rewrite (own_again _ _ _ E). reflexivity.
  - pose proof (Hd "asymptotic"%string eq_refl) as H1. pose proof (Hd "backward"%string eq_refl) as H2. unfold own_init in H |- *. cbn [own_params mapR fst snd] in H |- *.
    destruct (own_value "asymptotic" (arg "asymptotic" (VBool false) kw)) as [v|] eqn:E; [|discriminate H]. cbn [bind] in H. destruct (own_value "backward" (arg "backward" (VBool false) kw)) as [v'|] eqn:E'; [|discriminate H]. cbn [bind] in H. injection H as <-.
    cbn [lookup String.eqb Ascii.eqb Bool.eqb] in H1, H2. unfold arg. rewrite H1, H2, (own_again _ _ _ E). cbn [bind]. rewrite (own_again _ _ _ E'). reflexivity.
  - specialize (Hd "backward"%string eq_refl). unfold own_init in H |- *. cbn [own_params mapR fst snd] in H |- *. destruct (own_value "backward" (arg "backward" (VBool false) kw)) as [v|] eqn:E; [|discriminate H]. cbn [bind] in H. injection H as <-.
    cbn [lookup String.eqb Ascii.eqb Bool.eqb] in Hd. unfold arg. rewrite Hd. rewrite (own_again _ _ _ E). reflexivity.
Qed.

(** ** from_config of get_config, with another domain in the attribute (D = at_domain a: no change) *)
Definition default_own (c : lclass) (own : dict) : dict := match c with CActivation => [("slope"%string, VSlope V_SLOPE)] | _ => own end.
Lemma common_extra : forall c k, mem k common = true -> mem k (c_extra c) = true.
Proof. intros c k H. apply mem_in. unfold c_extra. apply in_or_app. right. apply in_or_app. right. apply mem_in, H. Qed.
Lemma own_extra : forall c k, mem k (List.map fst (own_params c)) = true -> mem k (c_extra c) = true.
Proof. intros c k H. apply mem_in. unfold c_extra. apply in_or_app. left. apply mem_in, H. Qed.
Lemma common_not_own : forall c k, mem k common = true -> mem k (List.map fst (own_params c)) = false.
Proof.
  intros c k H. apply mem_in in H. cbn in H. destruct H as [<-|[<-|[<-|[<-|[<-|[<-|[]]]]]]]; destruct c; reflexivity.
Qed.
Lemma keras_lookup_common : forall c kw k p, keras_init (keras_params c) (keras_required c) kw = Ok k -> mem p (List.map fst (own_params c) ++ common) = true -> lookup p k = None.
Proof.
  intros c kw k p H Hp. apply keras_ok in H. destruct H as (_ & _ & ->). rewrite lookup_params.
  assert (mem p (keras_params c) = false) as ->; [|reflexivity].
  apply mem_in, in_app_or in Hp. destruct Hp as [Hp|Hp].
  - destruct c; cbn in Hp; repeat (destruct Hp as [<-|Hp]; [reflexivity|]); contradiction.
  - cbn in Hp. destruct Hp as [<-|[<-|[<-|[<-|[<-|[<-|[]]]]]]]; destruct c; reflexivity.
Qed.

Lemma rebuild_domain : forall c kw a D, layer_init c kw = Ok a -> radius_ok c (at_mode a) D ->
  rebuild (with_domain a D) = Ok (mk_attrs c (at_keras a) D (at_dc a) (at_mode a) (at_finetune a) (at_shared a) (at_fast a) (default_own c (at_own a)) (at_dc a, at_mode a, D)).
Proof.
  intros c kw a D' H Hr'. apply layer_init_ok in H.
  destruct H as (k & D & dc & mode & ft & sh & fs & own & Hk & _ & _ & _ & _ & _ & _ & Ho & _ & ->). cbn [at_mode] in Hr'.
  unfold rebuild, from_config, with_domain. cbn [at_class at_keras at_dc at_mode at_finetune at_shared at_fast at_own at_spec].
  set (a := mk_attrs c k D' dc mode ft sh fs own (dc, mode, D)). set (d := layer_config a).
  assert (Q : forall x, lookup x (own_config a) = if mem x (List.map fst (own_params c)) then lookup x (own_config a) else None).
  { intros x. destruct (mem x _) eqn:M; [reflexivity|]. unfold own_config. cbn [a at_class at_own]. destruct c; try reflexivity; eapply own_lookup; eauto. }
  assert (Hl : forall x, lookup x d = match lookup x (own_config a) with Some v => Some v | None => match lookup x (common_config a) with Some v => Some v | None => lookup x k end end).
  { intros x. unfold d, layer_config. rewrite !lookup_update. reflexivity. }
  assert (Hc : forall x, mem x common = true -> lookup x d = lookup x (common_config a)).
  { intros x Hx. rewrite Hl, Q, (common_not_own c x Hx). rewrite (keras_lookup_common _ _ _ x Hk); [destruct (lookup x (common_config a)); reflexivity|].
    apply mem_in, in_or_app. right. apply mem_in, Hx. }
  clearbody d. apply layer_init_ok. exists k, D', dc, mode, ft, sh, fs, (default_own c own).
  unfold arg. rewrite !Hc by reflexivity. cbn [a common_config lookup at_dc at_mode at_domain at_finetune at_shared at_fast String.eqb Ascii.eqb Bool.eqb].
  cbn. repeat match goal with |- _ /\ _ => split; [try reflexivity|] end; [| |exact Hr'|reflexivity].
  - eapply keras_again; [exact Hk|]. intros p Hp. rewrite Hl.
    assert (mem p (List.map fst (own_params c)) = false) as M.
    { destruct (mem p (List.map fst (own_params c))) eqn:M; [|reflexivity]. apply own_extra in M. congruence. }
    rewrite Q, M. assert (lookup p (common_config a) = None) as ->; [|reflexivity].
    assert (mem p common = false) as N. { destruct (mem p common) eqn:N; [|reflexivity]. apply (common_extra c) in N. congruence. }
    destruct (lookup p (common_config a)) eqn:E; [|reflexivity]. exfalso.
    assert (mem p (List.map fst (common_config a)) = true) as W by (rewrite mem_keys, E; reflexivity).
    apply mem_in in W. assert (In p common) as W'; [|apply mem_in in W'; congruence]. cbn in W. cbn. tauto.
  - destruct c; try (cbn [default_own]; eapply own_init_again; [exact Ho|]; intros x Hx; rewrite Hl; change (own_config a) with own;
      destruct (lookup x own) eqn:E; [reflexivity|];
      assert (mem x (List.map fst own) = true) as W by (rewrite (own_keys _ _ _ Ho); exact Hx); rewrite mem_keys, E in W; discriminate W).
    (* Activation *)
    assert (W : lookup "slope" d = None).
    { rewrite Hl. change (lookup "slope" (own_config a)) with (@None cval). change (lookup "slope" (common_config a)) with (@None cval).
      exact (keras_lookup_common _ _ _ "slope"%string Hk eq_refl). }
    unfold own_init. cbn [own_params mapR fst snd]. unfold arg. rewrite W. reflexivity.
Qed.

Lemma radius_own : forall c kw a, layer_init c kw = Ok a -> radius_ok c (at_mode a) (at_domain a).
Proof. intros c kw a H. apply layer_init_ok in H. destruct H as (k & D & dc & mode & ft & sh & fs & own & _ & _ & _ & _ & _ & _ & _ & _ & Hr & ->). exact Hr. Qed.
Lemma init_class : forall c kw a, layer_init c kw = Ok a -> at_class a = c /\ coherent a.
Proof. intros c kw a H. apply layer_init_ok in H. destruct H as (k & D & dc & mode & ft & sh & fs & own & _ & _ & _ & _ & _ & _ & _ & _ & Hr & ->). split; reflexivity. Qed.
Lemma with_same : forall a, with_domain a (at_domain a) = a.
Proof. intros []. reflexivity. Qed.

Theorem rebuild_same : forall c kw a, layer_init c kw = Ok a -> c <> CActivation -> exists b, rebuild a = Ok b /\ same_options a b.
Proof.
  intros c kw a H Hc. exists a. split; [|reflexivity]. rewrite <- (with_same a) at 1. rewrite (rebuild_domain _ _ _ _ H (radius_own _ _ _ H)).
  destruct (init_class _ _ _ H) as [<- Hs]. unfold coherent in Hs. rewrite <- Hs. clear H. revert Hc. destruct a as [c' k D dc m ft sh fs own sp]. cbn. destruct c'; intros Hc; solve [reflexivity|congruence].
Qed.
Theorem rebuild_activation : forall kw a, layer_init CActivation kw = Ok a ->
  exists b, rebuild a = Ok b /\ same_but_own a b /\ at_own b = [("slope"%string, VSlope V_SLOPE)].
Proof.
  intros kw a H. pose proof (rebuild_domain _ _ _ _ H (radius_own _ _ _ H)) as Q. rewrite with_same in Q. rewrite Q. eexists. split; [reflexivity|]. clear Q.
  destruct (init_class _ _ _ H) as [Hc Hs]. unfold same_but_own. cbn. split; [|reflexivity]. rewrite Hs, Hc. auto 12.
Qed.
Theorem rebuild_slope_kept : forall kw a, layer_init CActivation kw = Ok a -> (rebuild a = Ok a <-> slope_attr a = V_SLOPE).
Proof.
  intros kw a H. pose proof H as H0. apply layer_init_ok in H0. destruct H0 as (k & D & dc & mode & ft & sh & fs & own & _ & _ & _ & _ & _ & _ & _ & Ho & _ & E).
  destruct (rebuild_activation kw a H) as (b & Hb & Hsame & Hown). rewrite Hb.
  assert (exists s, at_own a = [("slope"%string, VSlope s)]) as [s Hs].
  { subst a. cbn. unfold own_init in Ho. cbn in Ho. unfold own_value in Ho. cbn in Ho. destruct (as_slope _) as [s|]; [|discriminate Ho]. cbn in Ho. injection Ho as <-. exists s. reflexivity. }
  unfold slope_attr. rewrite Hs. cbn. split.
  - intros Q. injection Q as ->. rewrite Hs in Hown. injection Hown as ->. reflexivity.
  - intros ->. f_equal. destruct Hsame as (A1 & A2 & A3 & A4 & A5 & A6 & A7 & A8 & A9). rewrite <- Hs in Hown. destruct a, b; cbn in *; congruence.
Qed.
(** twice *)
Theorem rebuild_stable : forall c kw a b, layer_init c kw = Ok a -> rebuild a = Ok b -> rebuild b = Ok b.
Proof.
  intros c kw a b H Hb. assert (Q : layer_init c (layer_config a) = Ok b). { destruct (init_class _ _ _ H) as [<- _]. exact Hb. }
  destruct (match c with CActivation => true | _ => false end) eqn:E.
  - assert (c = CActivation) as -> by (destruct c; congruence). apply (rebuild_slope_kept _ _ Q).
    destruct (rebuild_activation _ _ H) as (b' & Hb' & _ & Ho). assert (b = b') as -> by congruence. unfold slope_attr. rewrite Ho. reflexivity.
  - destruct (rebuild_same c _ b Q) as (b' & -> & ->); [|reflexivity]. intros ->. discriminate E.
Qed.
(** after set_domain *)
Theorem rebuild_set_domain : forall c kw a D, layer_init c kw = Ok a -> c <> CActivation -> (c = CRadiusRobust -> D = Box) ->
  rebuild (with_domain a D) = Ok (for_domain a D) /\ coherent (for_domain a D).
Proof.
  intros c kw a D H Hc Hr. split; [|reflexivity]. rewrite (rebuild_domain _ _ _ _ H).
  - destruct (init_class _ _ _ H) as [Q _]. unfold for_domain. rewrite Q. destruct c; solve [reflexivity|congruence].
  - intros Q. destruct (radius_own _ _ _ H Q) as [A _]. split; [exact A|exact (Hr Q)].
Qed.

(** ** to_decomon *)
Definition requested (o : toptions) : domain := match to_domain o with Some D => D | None => Box end.
Definition honours (c : lclass) (o : toptions) (name : cval) (a : attrs) : Prop :=
  at_class a = c /\ at_domain a = requested o /\ at_dc a = to_dc o /\ at_mode a = get_mode (to_ibp o) (to_affine o) /\
  at_finetune a = to_finetune o /\ at_shared a = to_shared o /\ at_fast a = to_fast o /\ coherent a /\ lookup "name" (at_keras a) = Some name /\
  (c = CActivation -> as_slope (to_slope o) = Ok (slope_attr a)).
Definition keras_class (c : lclass) : Prop := c <> CLossFusion /\ c <> CRadiusRobust.
Lemma keras_popped : forall c, mem "name" (c_extra c) = false /\ mem "name" (keras_params c) = true.
Proof. intros []; split; reflexivity. Qed.
Lemma required_kept : forall c r, In r (keras_required c) -> mem r (c_extra c) = false /\ mem r (keras_params c) = true /\ mem r ["name"; "dc_decomp"; "perturbation_domain"; "mode"; "finetune"; "slope"; "shared"; "fast"] = false.
Proof. intros [] r; cbn; intros H; repeat (destruct H as [<-|H]; [repeat split; reflexivity|]); contradiction. Qed.

Lemma to_decomon_lookup : forall c k name o x, lookup x (to_decomon_config c k name o) =
  if match c with CActivation => false | _ => String.eqb x "activation" end then None
  else match lookup x [("name", name); ("dc_decomp", VBool (to_dc o)); ("perturbation_domain", VDomain (requested o));
     ("mode", VMode (get_mode (to_ibp o) (to_affine o))); ("finetune", VBool (to_finetune o)); ("slope", to_slope o); ("shared", VBool (to_shared o));
     ("fast", VBool (to_fast o))]%string with Some v => Some v | None => lookup x k end.
Proof.
  intros c k name o x. unfold to_decomon_config. fold (requested o). destruct c; cbv zeta beta iota; rewrite ?lookup_drop; cbn [mem existsb]; rewrite ?orb_false_r, lookup_update; reflexivity.
Qed.
Lemma name_slope_activation : forall c r, In r (keras_required c) -> match c with CActivation => false | _ => String.eqb r "activation" end = false.
Proof. intros [] r; cbn; intros H; repeat (destruct H as [<-|H]; [reflexivity|]); try contradiction; reflexivity. Qed.

Theorem to_decomon_ok : forall c kw k name o, keras_class c -> keras_init (keras_params c) (keras_required c) kw = Ok k ->
  (c = CActivation -> exists s, as_slope (to_slope o) = Ok s) ->
  exists a, to_decomon_attrs true c k name o = Ok a /\ honours c o name a /\
    forall p, In p (keras_params c) -> ~ In p (popped c) -> p <> "name"%string -> (p = "activation"%string -> c = CActivation) -> lookup p (at_keras a) = lookup p k.
Proof.
  intros c kw k name o [Hc1 Hc2] Hk Hs. pose proof Hk as Hk'. apply keras_ok in Hk'. destruct Hk' as (A & B & E).
  set (d := to_decomon_config c k name o). assert (Hl := to_decomon_lookup c k name o). fold d in Hl.
  assert (Hkp : forall x, lookup x k = if mem x (keras_params c) then Some (arg x VNone kw) else None) by (intros; rewrite E; apply lookup_params).
  assert (Hcom : forall x v, lookup x [("dc_decomp", VBool (to_dc o)); ("perturbation_domain", VDomain (requested o));
     ("mode", VMode (get_mode (to_ibp o) (to_affine o))); ("finetune", VBool (to_finetune o)); ("slope", to_slope o); ("shared", VBool (to_shared o));
     ("fast", VBool (to_fast o))]%string = Some v -> lookup x d = Some v).
  { intros x v H. rewrite Hl. assert (match c with CActivation => false | _ => String.eqb x "activation" end = false) as ->.
    { destruct (String.eqb x "activation") eqn:Q; [|destruct c; reflexivity]. apply String.eqb_eq in Q. subst x. discriminate H. }
    cbn [lookup] in H |- *. destruct (String.eqb x "name") eqn:Q; [|rewrite H; reflexivity]. apply String.eqb_eq in Q. subst x. discriminate H. }
  assert (Ho : exists own, own_init c d = Ok own /\ (c = CActivation -> exists s, as_slope (to_slope o) = Ok s /\ own = [("slope"%string, VSlope s)])).
  { destruct c; try (exists []; split; [reflexivity|congruence]); try congruence. destruct (Hs eq_refl) as [s Es]. exists [("slope"%string, VSlope s)]. split; [|intros _; exists s; auto].
    unfold own_init. cbn [own_params mapR fst snd]. unfold arg. rewrite (Hcom "slope"%string _ eq_refl). unfold own_value. cbn [String.eqb Ascii.eqb Bool.eqb]. rewrite Es. reflexivity. }
  destruct Ho as (own & Ho & Hs').
  set (k' := List.map (fun p => (p, arg p VNone (drop (c_extra c) d))) (keras_params c)).
  assert (Hki : keras_init (keras_params c) (keras_required c) (drop (c_extra c) d) = Ok k').
  { apply keras_ok. split; [|split; [|reflexivity]].
    - intros r Hr. destruct (required_kept c r Hr) as (M & M' & N). rewrite lookup_drop, M, Hl, (name_slope_activation c r Hr).
      destruct (lookup r _) eqn:Q; [discriminate|]. rewrite Hkp, M'. discriminate.
    - intros x. rewrite lookup_drop. destruct (mem x (c_extra c)) eqn:M; [congruence|]. rewrite Hl.
      destruct (match c with CActivation => false | _ => String.eqb x "activation" end); [congruence|].
      destruct (String.eqb x "name") eqn:Q.
      + intros _. apply String.eqb_eq in Q. subst x. apply mem_in, (keras_popped c).
      + destruct (mem x common) eqn:N; [apply (common_extra c) in N; congruence|].
        assert (String.eqb x "slope" = false) as W.
        { destruct (String.eqb x "slope") eqn:W; [|reflexivity]. apply String.eqb_eq in W. subst x. destruct c; discriminate M. }
        cbn [mem existsb common] in N. cbn [lookup]. rewrite Q, W.
        repeat match type of N with (?a || _)%bool = false => apply orb_false_elim in N; destruct N as [-> N] end.
        rewrite Hkp. destruct (mem x (keras_params c)) eqn:Z; [|congruence]. intros _. apply mem_in, Z. }
  assert (Ha : layer_init c d = Ok (mk_attrs c k' (requested o) (to_dc o) (get_mode (to_ibp o) (to_affine o)) (to_finetune o) (to_shared o) (to_fast o) own
     (to_dc o, get_mode (to_ibp o) (to_affine o), requested o))).
  { apply layer_init_ok. exists k', (requested o), (to_dc o), (get_mode (to_ibp o) (to_affine o)), (to_finetune o), (to_shared o), (to_fast o), own.
    unfold arg. rewrite (Hcom "perturbation_domain"%string _ eq_refl), (Hcom "dc_decomp"%string _ eq_refl), (Hcom "mode"%string _ eq_refl), (Hcom "finetune"%string _ eq_refl),
      (Hcom "shared"%string _ eq_refl), (Hcom "fast"%string _ eq_refl). cbn [as_domain as_bool as_mode].
    split; [exact Hki|]. do 6 (split; [reflexivity|]). split; [exact Ho|]. split; [|reflexivity]. intros Q. congruence. }
  eexists. unfold to_decomon_attrs, from_config. cbn [negb]. fold d. rewrite Ha. split; [reflexivity|]. split.
  - unfold honours. cbn [at_class at_domain at_dc at_mode at_finetune at_shared at_fast at_keras]. do 7 (split; [reflexivity|]). split; [reflexivity|]. split.
    + unfold k'. rewrite lookup_params. destruct (keras_popped c) as [M M']. rewrite M'. unfold arg. rewrite lookup_drop, M, Hl. destruct c; reflexivity.
    + intros Q. destruct (Hs' Q) as (s & -> & ->). reflexivity.
  - intros p Hp Hn Hname Hact. cbn [at_keras]. unfold k'. rewrite lookup_params. apply mem_in in Hp. rewrite Hp, Hkp, Hp. f_equal.
    unfold arg at 1. rewrite lookup_drop.
    assert (mem p (c_extra c) = false) as M.
    { destruct (mem p (c_extra c)) eqn:M; [|reflexivity]. exfalso. apply mem_in in M. unfold c_extra in M. apply in_app_or in M. destruct M as [M|M].
      - assert (lookup p k = None) as Q by (eapply keras_lookup_common; [exact Hk|]; apply mem_in, in_or_app; left; exact M). rewrite Hkp, Hp in Q. discriminate Q.
      - apply in_app_or in M. destruct M as [M|M]; [exact (Hn M)|].
        assert (lookup p k = None) as Q by (eapply keras_lookup_common; [exact Hk|]; apply mem_in, in_or_app; right; exact M). rewrite Hkp, Hp in Q. discriminate Q. }
    rewrite M, Hl. assert (match c with CActivation => false | _ => String.eqb p "activation" end = false) as ->.
    { destruct (String.eqb p "activation") eqn:Q; [|destruct c; reflexivity]. apply String.eqb_eq in Q. rewrite (Hact Q). reflexivity. }
    assert (lookup p [("name", name); ("dc_decomp", VBool (to_dc o)); ("perturbation_domain", VDomain (requested o));
     ("mode", VMode (get_mode (to_ibp o) (to_affine o))); ("finetune", VBool (to_finetune o)); ("slope", to_slope o); ("shared", VBool (to_shared o));
     ("fast", VBool (to_fast o))]%string = None) as ->.
    { destruct (mem p common) eqn:N; [apply (common_extra c) in N; congruence|].
      assert (String.eqb p "slope" = false) as W.
      { destruct (String.eqb p "slope") eqn:W; [|reflexivity]. apply String.eqb_eq in W. subst p. destruct c; discriminate M. }
      assert (String.eqb p "name" = false) as W' by (apply String.eqb_neq; exact Hname).
      cbn [mem existsb common] in N. cbn [lookup]. rewrite W, W'.
      repeat match type of N with (?a || _)%bool = false => apply orb_false_elim in N; destruct N as [-> N] end. reflexivity. }
    rewrite Hkp, Hp. reflexivity.
Qed.
(** the slope is checked on activations only, and the message does not tell it *)
Theorem to_decomon_slope : forall c kw k name o, keras_class c -> keras_init (keras_params c) (keras_required c) kw = Ok k ->
  (forall s, as_slope (to_slope o) <> Ok s) ->
  (c = CActivation -> to_decomon_attrs true c k name o = Err NotImplementedError) /\
  (c <> CActivation -> exists a, to_decomon_attrs true c k name o = Ok a /\ honours c o name a).
Proof.
  intros c kw k name o Hc Hk Hs. split.
  - intros ->. unfold to_decomon_attrs, from_config. cbn [negb]. destruct (layer_init CActivation _) as [a|] eqn:E; [exfalso|reflexivity].
    apply layer_init_ok in E. destruct E as (k' & D & dc & mode & ft & sh & fs & own & _ & _ & _ & _ & _ & _ & _ & Ho & _). unfold own_init in Ho. cbn [own_params mapR fst snd] in Ho.
    unfold arg in Ho. rewrite to_decomon_lookup in Ho. cbn [lookup String.eqb Ascii.eqb Bool.eqb] in Ho. unfold own_value in Ho. cbn [String.eqb Ascii.eqb Bool.eqb] in Ho.
    destruct (as_slope (to_slope o)) as [s|] eqn:Q; [exact (Hs s eq_refl)|discriminate Ho].
  - intros Hn. destruct (to_decomon_ok c kw k name o Hc Hk) as (a & Ea & Ha & _); [congruence|]. exists a. auto.
Qed.
Theorem to_decomon_not_built : forall c k name o, to_decomon_attrs false c k name o = Err ValueError.
Proof. reflexivity. Qed.
