(** Configurations of the backward layers, of the layers of the conversion and of the domains; bounds of rebuilt layers (C77) *)
From Coq Require Import String List Bool ZArith Reals Lia Lra.
From Verif Require Import RLib Spec Spec_Config Spec_Layers M_Core M_State M_Utils M_MergeLayers M_Layers M_Ops M_Pool M_Network M_Domain M_Config P_Core P_Utils P_Ops P_Network P_Domain P_Config.
From Verif Require Import Spec_Network Spec_Config.
Import ListNotations.

(** ** layers of the backward pass *)
Definition from_init (w : wrapped) : Prop :=
  match w with
  | WKeras c k => exists kw, keras_init (keras_params c) (keras_required c) kw = Ok k
  | WDecomon a => exists kw, layer_init (at_class a) kw = Ok a
  end.
(** what the rebuilt wrapped layer is: the slope of an activation goes back to its default value *)
Definition wrapped_again (w : wrapped) : wrapped :=
  match w with
  | WKeras c k => WKeras c k
  | WDecomon a => WDecomon (mk_attrs (at_class a) (at_keras a) (at_domain a) (at_dc a) (at_mode a) (at_finetune a) (at_shared a) (at_fast a) (default_own (at_class a) (at_own a)) (at_spec a))
  end.
Lemma keras_config_again : forall P Rq kw k, keras_init P Rq kw = Ok k -> keras_init P Rq k = Ok k.
Proof.
  intros P Rq kw k H.
  assert (E : forall d : dict, drop [] d = d). { intros d. unfold drop. induction d as [|q d IH]; cbn; [reflexivity|]. f_equal. exact IH. }
  rewrite <- (E k) at 1. apply (keras_again P Rq [] kw); [rewrite E; exact H|]. reflexivity.
Qed.
Lemma wrapped_rebuilt : forall w, from_init w -> rebuild_wrapped w = Ok (wrapped_again w).
Proof.
  intros [c k|a] [kw H].
  - cbn [rebuild_wrapped wrapped_again]. rewrite (keras_config_again _ _ _ _ H). reflexivity.
  - cbn [rebuild_wrapped wrapped_again]. pose proof (rebuild_domain _ _ _ _ H (radius_own _ _ _ H)) as Q. rewrite with_same in Q. rewrite Q.
    destruct (init_class _ _ _ H) as [_ Hs]. cbn [bind]. rewrite <- Hs. reflexivity.
Qed.

Lemma to_decomon_init : forall c k name o a, to_decomon_attrs true c k name o = Ok a -> exists kw, layer_init (at_class a) kw = Ok a.
Proof.
  intros c k name o a H. unfold to_decomon_attrs, from_config in H. cbn in H. destruct (layer_init c _) as [b|] eqn:E; [|discriminate H]. injection H as ->.
  destruct (init_class _ _ _ E) as [<- _]. eexists. exact E.
Qed.
Definition converts (c : bclass) : bool := match c with BDense | BConv2D => true | _ => false end.
(** dc_decomp of a layer made from a Keras layer and converted at its construction *)
Definition dc_lost (w : wrapped) (b : battrs) : bool := match w with WKeras _ _ => converts (bt_class b) | WDecomon _ => false end.
Definition b_extra (c : bclass) : list string := bown c ++ bcommon.
Lemma b_common : forall c x, mem x bcommon = true -> mem x (b_extra c) = true.
Proof. intros c x H. apply mem_in, in_or_app. right. apply mem_in, H. Qed.
Lemma b_keras : forall c kw k x, keras_init base_params [] (drop (b_extra c) kw) = Ok k -> mem x bcommon = true -> lookup x k = None.
Proof.
  intros c kw k x H Hx. apply keras_ok in H. destruct H as (_ & _ & ->). rewrite lookup_params.
  apply mem_in in Hx. cbn in Hx. repeat (destruct Hx as [<-|Hx]; [reflexivity|]). contradiction.
Qed.
Theorem backward_rebuilt : forall c w name kw b name', from_init w -> backward_init c w name kw = Ok b ->
  backward_rebuild name' b = Ok (mk_battrs c (wrapped_again (bt_layer b)) (bt_keras b) (bt_rec b) (bt_mode b) (bt_domain b) (if dc_lost w b then false else bt_dc b) (bt_own b)
    (if dc_lost w b then false else bt_dc b, bt_mode b, bt_domain b)).
Proof.
  intros c w name kw b name' Hw H. unfold backward_init in H. fold (b_extra c) in H.
  destruct (keras_init _ _ _) as [k|] eqn:Ek; [cbn [bind] in H|discriminate H].
  destruct (as_int _) as [rec|] eqn:Er; [cbn [bind] in H|discriminate H].
  match type of H with bind ?r _ = _ => destruct r as [[[mode D] dc]|] eqn:Em; [cbn [bind] in H|discriminate H] end.
  match type of H with bind ?r _ = _ => destruct r as [w'|] eqn:Ew; [cbn [bind] in H|discriminate H] end.
  match type of H with bind ?r _ = _ => destruct r as [own|] eqn:Eo; [cbn [bind] in H|discriminate H] end.
  assert (c <> BMaxPooling2D /\ b = mk_battrs c w' k rec mode D dc own (dc, mode, D)) as [Hp ->].
  { destruct c; try discriminate H; injection H as <-; split; congruence. }
  clear H. unfold backward_rebuild. cbn [bt_layer bt_class bt_keras bt_rec bt_mode bt_domain bt_dc bt_own].
  assert (Hw' : from_init w').
  { destruct c, w as [lc kl|a]; try (injection Ew as <-; exact Hw);
      destruct (to_decomon_attrs true lc kl name _) as [a|] eqn:Q; try discriminate Ew; injection Ew as <-; exact (to_decomon_init _ _ _ _ _ Q). }
  rewrite (wrapped_rebuilt w' Hw'). cbn [bind].
  set (b := mk_battrs _ _ _ _ _ _ _ _ _). set (d := backward_config b).
  assert (Hl : forall x, lookup x d = match lookup x (match own with Some (s, ft) => [("slope"%string, VSlope s); ("finetune"%string, VBool ft)] | None => [] end) with Some v => Some v | None =>
     match lookup x [("rec", VInt rec); ("mode", VMode mode); ("perturbation_domain", VDomain D); ("dc_decomp", VBool dc)]%string with Some v => Some v | None => lookup x k end end).
  { intros x. unfold d, backward_config. rewrite !lookup_update. reflexivity. }
  assert (Hnone : forall x v, lookup x (match own with Some (s, ft) => [("slope"%string, VSlope s); ("finetune"%string, VBool ft)] | None => [] end) = Some v -> x = "slope"%string \/ x = "finetune"%string).
  { intros x v. destruct own as [[s ft]|]; cbn; [|discriminate]. destruct (String.eqb x "slope") eqn:A; [apply String.eqb_eq in A; auto|].
    destruct (String.eqb x "finetune") eqn:B; [apply String.eqb_eq in B; auto|discriminate]. }
  assert (Hc : lookup "rec" d = Some (VInt rec) /\ lookup "mode" d = Some (VMode mode) /\ lookup "perturbation_domain" d = Some (VDomain D) /\ lookup "dc_decomp" d = Some (VBool dc)).
  { rewrite !Hl. destruct own as [[s ft]|]; repeat split; reflexivity. }
  destruct Hc as (Lr & Lm & LD & Ldc).
  assert (Lo : forall s ft, own = Some (s, ft) -> lookup "slope" d = Some (VSlope s) /\ lookup "finetune" d = Some (VBool ft)).
  { intros s ft ->. rewrite !Hl. split; reflexivity. }
  assert (Kd : keras_init base_params [] (drop (b_extra c) d) = Ok k).
  { eapply keras_again; [exact Ek|]. intros p Hq. rewrite Hl.
    assert (mem p bcommon = false) as N. { destruct (mem p bcommon) eqn:N; [|reflexivity]. apply (b_common c) in N. congruence. }
    cbn [bcommon mem existsb] in N.
    repeat match type of N with (?a || _)%bool = false => let W := fresh "W" in apply orb_false_elim in N; destruct N as [W N] end.
    destruct own as [[s ft]|]; cbn [lookup]; rewrite ?W, ?W0, ?W1, ?W2, ?W3, ?W4; reflexivity. }
  clearbody d. clear Hl Hnone.
  unfold backward_init. fold (b_extra c). rewrite Kd. cbn [bind]. unfold arg. rewrite Lr, Lm, LD, Ldc. cbn [as_int as_mode as_domain as_bool bind].
  assert (Eo' : match c with BActivation => s <- as_slope (match lookup "slope" d with Some v => v | None => VSlope V_SLOPE end) ;
             ft <- as_bool (match lookup "finetune" d with Some v => v | None => VBool false end) ; Ok (Some (s, ft)) | _ => Ok None end = Ok own).
  { destruct c; try exact Eo. destruct (as_slope (arg "slope" (VSlope V_SLOPE) kw)) as [s|]; [|discriminate Eo]. cbn in Eo. destruct (as_bool (arg "finetune" (VBool false) kw)) as [ft|]; [|discriminate Eo]. cbn in Eo. injection Eo as <-.
    destruct (Lo s ft eq_refl) as [-> ->]. reflexivity. }
  unfold dc_lost. cbn [bt_class b].
  destruct w' as [lc kl|a]; cbn [wrapped_again at_mode at_domain at_dc bind].
  - (* a Keras layer, not converted *)
    assert (w = WKeras lc kl /\ converts c = false) as [-> Hcv].
    { destruct c, w as [lc' kl'|a]; try (injection Ew as -> ->; split; reflexivity); try discriminate Ew; destruct (to_decomon_attrs _ _ _ _ _); discriminate Ew. }
    rewrite Hcv. destruct c; try discriminate Hcv; try congruence; cbn [bind]; first [injection Eo' as <-; reflexivity | rewrite Eo'; reflexivity].
  - (* a decomon layer *)
    assert (Q : (at_mode a, at_domain a, at_dc a) = (mode, D, if dc_lost w b then false else dc)).
    { destruct w as [lc kl|a0].
      - destruct (converts c) eqn:Hcv; unfold dc_lost; cbn [bt_class b]; rewrite Hcv.
        + assert (exists a1, to_decomon_attrs true lc kl name (mk_toptions (VSlope V_SLOPE) false (Some D) false (get_ibp mode) (get_affine mode) true false) = Ok a1 /\ a1 = a) as (a1 & Q & ->).
          { destruct c; try discriminate Hcv; destruct (to_decomon_attrs _ _ _ _ _) as [a1|] eqn:Q; try discriminate Ew; injection Ew as <-; exists a1; auto. }
          destruct Hw as [kw0 Hw]. unfold to_decomon_attrs, from_config in Q. cbn [negb] in Q.
          destruct (layer_init lc _) as [a2|] eqn:Q2; [|discriminate Q]. injection Q as ->. apply layer_init_ok in Q2.
          destruct Q2 as (k2 & D2 & dc2 & mode2 & ft2 & sh2 & fs2 & own2 & _ & A1 & A2 & A3 & _ & _ & _ & _ & _ & ->). unfold arg in A1, A2, A3. rewrite to_decomon_lookup in A1, A2, A3.
          destruct lc; cbn in A1, A2, A3; injection A1 as <-; injection A2 as <-; injection A3 as <-; cbn; destruct mode; reflexivity.
        + destruct c; try discriminate Hcv; discriminate Ew.
      - assert (a0 = a) as -> by (destruct c; congruence). injection Em as <- <- <-. reflexivity. }
    unfold dc_lost in Q. cbn [bt_class b] in Q. injection Q as -> -> ->.
    destruct c; try congruence; cbn [bind]; first [injection Eo' as <-; reflexivity | rewrite Eo'; reflexivity].
Qed.

(** [w] is kept unless it is an activation with another slope *)
Definition default_slope (w : wrapped) : Prop := match w with WDecomon a => at_class a = CActivation -> slope_attr a = V_SLOPE | WKeras _ _ => True end.
Lemma again_same : forall w, from_init w -> default_slope w -> wrapped_again w = w.
Proof.
  intros [c k|a] [kw H] Hs; cbn; [reflexivity|]. cbn in Hs. f_equal.
  destruct (match at_class a with CActivation => true | _ => false end) eqn:E.
  - assert (at_class a = CActivation) as Q by (destruct (at_class a); congruence). rewrite Q in H.
    pose proof (proj2 (rebuild_slope_kept _ _ H) (Hs Q)) as W. pose proof (wrapped_rebuilt (WDecomon a)) as W'. cbn [rebuild_wrapped] in W'. rewrite W in W'. cbn [bind] in W'.
    assert (from_init (WDecomon a)) as W2 by (exists kw; rewrite Q; exact H). specialize (W' W2). cbn in W'. congruence.
  - destruct a as [c' ? ? ? ? ? ? ? ? ?]. cbn in *. destruct c'; reflexivity || congruence.
Qed.
Lemma layer_from_init : forall c w name kw b, from_init w -> backward_init c w name kw = Ok b -> from_init (bt_layer b) /\ bt_class b = c /\ bt_spec b = (bt_dc b, bt_mode b, bt_domain b).
Proof.
  intros c w name kw b Hw H. unfold backward_init in H.
  destruct (keras_init _ _ _) as [k|]; [cbn [bind] in H|discriminate H]. destruct (as_int _) as [rec|]; [cbn [bind] in H|discriminate H].
  match type of H with bind ?r _ = _ => destruct r as [[[mode D] dc]|]; [cbn [bind] in H|discriminate H] end.
  match type of H with bind ?r _ = _ => destruct r as [w'|] eqn:Ew; [cbn [bind] in H|discriminate H] end.
  match type of H with bind ?r _ = _ => destruct r as [own|]; [cbn [bind] in H|discriminate H] end.
  assert (b = mk_battrs c w' k rec mode D dc own (dc, mode, D)) as -> by (destruct c; try discriminate H; injection H as <-; reflexivity).
  cbn. split; [|split; reflexivity].
  destruct c, w as [lc kl|a]; try (injection Ew as <-; exact Hw);
    destruct (to_decomon_attrs true lc kl name _) as [a|] eqn:Q; try discriminate Ew; injection Ew as <-; exact (to_decomon_init _ _ _ _ _ Q).
Qed.
Theorem backward_same : forall c w name kw b name', from_init w -> backward_init c w name kw = Ok b -> default_slope (bt_layer b) -> (bt_dc b = false \/ dc_lost w b = false) ->
  backward_rebuild name' b = Ok b.
Proof.
  intros c w name kw b name' Hw H Hs Hdc. rewrite (backward_rebuilt c w name kw b name' Hw H). destruct (layer_from_init _ _ _ _ _ Hw H) as (A & B & C).
  rewrite (again_same _ A Hs). assert ((if dc_lost w b then false else bt_dc b) = bt_dc b) as -> by (destruct Hdc as [->| ->]; [destruct (dc_lost w b)|]; reflexivity).
  destruct b. cbn in *. congruence.
Qed.
Theorem backward_slope_kept : forall w name kw b name', from_init w -> backward_init BActivation w name kw = Ok b ->
  exists b', backward_rebuild name' b = Ok b' /\ bt_own b' = bt_own b /\ bt_mode b' = bt_mode b /\ bt_domain b' = bt_domain b /\ bt_dc b' = bt_dc b /\ bt_rec b' = bt_rec b.
Proof.
  intros w name kw b name' Hw H. eexists. split; [exact (backward_rebuilt _ _ _ _ _ name' Hw H)|]. cbn. destruct (layer_from_init _ _ _ _ _ Hw H) as (_ & B & _).
  unfold dc_lost. rewrite B. destruct w; auto 8.
Qed.
Theorem backward_pool : forall w name kw b, backward_init BMaxPooling2D w name kw <> Ok b.
Proof.
  intros w name kw b H. unfold backward_init in H. destruct (keras_init _ _ _); [cbn [bind] in H|discriminate H]. destruct (as_int _); [cbn [bind] in H|discriminate H].
  match type of H with bind ?r _ = _ => destruct r as [[[mode D] dc]|]; [cbn [bind] in H|discriminate H] end. discriminate H.
Qed.

(** a decomon layer decides alone of the mode and the domain: to_backward does not use what it is given *)
Theorem to_backward_inherits : forall c a name dtype sl mode D ft b, from_init (WDecomon a) -> to_backward_attrs c (WDecomon a) name dtype sl mode D ft [] = Ok b ->
  bt_mode b = at_mode a /\ bt_domain b = at_domain a /\ bt_dc b = at_dc a /\ bt_layer b = WDecomon a.
Proof.
  intros c a name dtype sl mode D ft b _ H. unfold to_backward_attrs, backward_init in H.
  destruct (keras_init _ _ _); [cbn [bind] in H|discriminate H]. destruct (as_int _); [cbn [bind] in H|discriminate H].
  match type of H with bind ?r _ = _ => destruct r as [w'|] eqn:Ew; [cbn [bind] in H|discriminate H] end.
  match type of H with bind ?r _ = _ => destruct r as [own|]; [cbn [bind] in H|discriminate H] end.
  assert (w' = WDecomon a) as -> by (destruct c; injection Ew as <-; reflexivity).
  destruct c; try discriminate H; injection H as <-; repeat split.
Qed.
Theorem to_backward_ok : forall c lc k name dtype sl m D ft s, c <> BMaxPooling2D -> keras_class lc -> from_init (WKeras lc k) -> as_mode m = Ok s ->
  (c = BActivation -> exists q, as_slope sl = Ok q) -> (converts c = true -> lc <> CActivation) ->
  exists b, to_backward_attrs c (WKeras lc k) name dtype sl m D ft [] = Ok b /\ bt_class b = c /\ bt_mode b = s /\ bt_domain b = (match D with Some D => D | None => Box end) /\ bt_dc b = false /\
    bt_rec b = 1%Z /\ (forall q, c = BActivation -> as_slope sl = Ok q -> bt_own b = Some (q, ft)) /\ lookup "name" (bt_keras b) = Some name /\ lookup "dtype" (bt_keras b) = Some dtype.
Proof.
  intros c lc k name dtype sl m D ft s Hp Hlc [kw0 Hk] Hm Hsl Hcv. unfold to_backward_attrs, update. change (drop (map fst []) ?d) with (drop [] d).
  set (DD := match D with Some D => D | None => Box end).
  set (d := (drop [] _ ++ [])%list). assert (Hd : d = [("slope", sl); ("mode", m); ("perturbation_domain", VDomain DD); ("finetune", VBool ft); ("dtype", dtype); ("name", name)]%string) by reflexivity.
  rewrite Hd. clear d Hd. unfold backward_init. 
  assert (Ek : keras_init base_params [] (drop (bown c ++ bcommon) [("slope", sl); ("mode", m); ("perturbation_domain", VDomain DD); ("finetune", VBool ft); ("dtype", dtype); ("name", name)]%string)
    = Ok [("name", name); ("trainable", VNone); ("dtype", dtype)]%string) by (destruct c; reflexivity).
  rewrite Ek. cbn [bind]. unfold arg. cbn [lookup String.eqb Ascii.eqb Bool.eqb as_int as_domain as_bool bind]. rewrite Hm. cbn [bind].
  destruct (converts c) eqn:Hc.
  - destruct (to_decomon_ok lc kw0 k name (mk_toptions (VSlope V_SLOPE) false (Some DD) false (get_ibp s) (get_affine s) true false) Hlc Hk) as (a & Ea & _); [intros Q; exists V_SLOPE; reflexivity|].
    destruct c; try discriminate Hc; rewrite Ea; cbn [bind]; eexists; (split; [reflexivity|]); cbn; repeat split; intros; congruence.
  - destruct (match c with BActivation => true | _ => false end) eqn:Q.
    + assert (c = BActivation) as -> by (destruct c; congruence). destruct (Hsl eq_refl) as [q Eq]. cbn [bind]. rewrite Eq. cbn [bind].
      eexists. split; [reflexivity|]. cbn. repeat split. intros q' _ E. congruence.
    + destruct c; try discriminate Hc; try discriminate Q; try congruence; cbn [bind]; eexists; (split; [reflexivity|]); cbn; repeat split; intros; congruence.
Qed.

(** ** layers of the conversion *)
Definition outside (X : list string) (base : dict) : Prop := forall x, lookup x base <> None -> In x base_params /\ mem x X = false.
Lemma base_kept : forall X base e, outside X base -> (forall x, lookup x e <> None -> mem x X = true) ->
  exists k, keras_init base_params [] (drop X (update base e)) = Ok k.
Proof.
  intros X base e Hb He. eexists. apply keras_ok. split; [intros r []|]. split; [|reflexivity]. intros x. rewrite lookup_drop. destruct (mem x X) eqn:M; [congruence|].
  rewrite lookup_update. destruct (lookup x e) eqn:E; [|intros H; apply Hb, H]. assert (W : lookup x e <> None) by congruence. apply He in W. congruence.
Qed.
(** Convert2Mode: all but the dimension of the input *)
Theorem convert2mode_rebuilt : forall kw base a, convert2mode_init kw = Ok a -> outside ["mode_from"; "mode_to"; "perturbation_domain"; "input_dim"] base ->
  convert2mode_init (convert2mode_config base a) = Ok (mk_cattrs (ct_from a) (ct_to a) (ct_domain a) (-1)).
Proof.
  intros kw base a _ Hb. unfold convert2mode_init, convert2mode_config.
  match goal with |- context [update base ?e] => destruct (base_kept ["mode_from"; "mode_to"; "perturbation_domain"; "input_dim"]%string base e Hb) as [k Hk] end.
  { intros x. cbn. destruct (String.eqb x "mode_from"); [reflexivity|]. destruct (String.eqb x "mode_to"); [reflexivity|]. destruct (String.eqb x "perturbation_domain"); [reflexivity|congruence]. }
  rewrite Hk. cbn [bind]. unfold arg. rewrite !lookup_update. cbn [lookup String.eqb Ascii.eqb Bool.eqb as_mode bind].
  destruct (lookup "input_dim" base) eqn:E; [|reflexivity]. exfalso. assert (W : lookup "input_dim" base <> None) by congruence. apply Hb in W. destruct W as [_ W]. discriminate W.
Qed.
Theorem convert2backward_rebuilt : forall kw base a, convert2backward_init kw = Ok a -> outside ["mode"; "perturbation_domain"] base ->
  convert2backward_init (convert2backward_config base a) = Ok a.
Proof.
  intros kw base [m D] _ Hb. unfold convert2backward_init, convert2backward_config.
  match goal with |- context [update base ?e] => destruct (base_kept ["mode"; "perturbation_domain"]%string base e Hb) as [k Hk] end.
  { intros x. cbn. destruct (String.eqb x "mode"); [reflexivity|]. destruct (String.eqb x "perturbation_domain"); [reflexivity|congruence]. }
  rewrite Hk. cbn [bind]. rewrite !lookup_update. reflexivity.
Qed.
Theorem metric_rebuilt : forall kw base a, metric_init kw = Ok a -> outside ["ibp"; "affine"; "mode"; "perturbation_domain"] base ->
  metric_init (metric_config base a) = Ok a.
Proof.
  intros kw base [[[i f] m] D] _ Hb. unfold metric_init, metric_config.
  match goal with |- context [update base ?e] => destruct (base_kept ["ibp"; "affine"; "mode"; "perturbation_domain"]%string base e Hb) as [k Hk] end.
  { intros x. cbn. destruct (String.eqb x "ibp"); [reflexivity|]. destruct (String.eqb x "affine"); [reflexivity|]. destruct (String.eqb x "mode"); [reflexivity|].
    destruct (String.eqb x "perturbation_domain"); [reflexivity|congruence]. }
  rewrite Hk. cbn [bind]. rewrite !lookup_update. reflexivity.
Qed.

(** ** domains *)
Definition made (D : pdomain) : Prop := exists kw, domain_init D kw = Ok D.
Theorem domain_rebuilt : forall D, made D -> domain_init D (domain_config D) = Ok D.
Proof.
  intros [o|e p o] [kw H]; cbn [domain_init domain_config] in *; [reflexivity|].
  unfold ball_init in H |- *. cbn. destruct p as [k|]; [|reflexivity]. cbn.
  assert (0 < k)%nat as Hk.
  { destruct (match List.find _ kw with Some q => Some (snd q) | None => None end) as [[]|] in H; try discriminate H.
    match type of H with bind ?r _ = _ => destruct r; [cbn [bind] in H|discriminate H] end.
    match type of H with bind ?r _ = _ => destruct r as [q|] eqn:E; [cbn [bind] in H|discriminate H] end. injection H as -> -> ->.
    match type of E with match ?r with _ => _ end = _ => destruct r as [[z| | | |]|] end; try discriminate E.
    - destruct (z <=? 0)%Z eqn:Z; [discriminate E|]. apply Z.leb_gt in Z. injection E as <-. lia.
    - injection E as <-. lia. }
  destruct (Z.of_nat k <=? 0)%Z eqn:Z; [apply Z.leb_le in Z; lia|]. cbn. rewrite Nat2Z.id. reflexivity.
Qed.
Theorem ball_made : forall e p o, made (PBall e p o) <-> p <> Pnum 0.
Proof.
  intros e p o. split.
  - intros H. apply domain_rebuilt in H. intros ->. discriminate H.
  - intros H. exists (domain_config (PBall e p o)). cbn. unfold ball_init. cbn. destruct p as [k|]; [|reflexivity]. destruct (Z.of_nat k <=? 0)%Z eqn:Z.
    + apply Z.leb_le in Z. assert (k = 0%nat) as -> by lia. congruence.
    + cbn. rewrite Nat2Z.id. reflexivity.
Qed.

(** ** bounds of the rebuilt layer *)
Local Open Scope R_scope.
Theorem rebuilt_call : forall c kw a D b ke n L ft ts, layer_init c kw = Ok a -> rebuild (with_domain a D) = Ok b ->
  attr_call ke n L ft b ts = decomon_layer ke (mk_spec (at_dc a) (at_mode a) D n) (attr_opts b ft) L ts /\ at_fast b = at_fast a /\ at_finetune b = at_finetune a.
Proof.
  intros c kw a D b ke n L ft ts H Hb.
  assert (Hr : radius_ok c (at_mode a) D).
  { intros ->. destruct (radius_own _ _ _ H eq_refl) as [A _]. split; [exact A|]. unfold rebuild, from_config in Hb.
    destruct (init_class _ _ _ H) as [Hc _]. cbn [at_class with_domain] in Hb. rewrite Hc in Hb. apply layer_init_ok in Hb.
    destruct Hb as (k' & D' & dc & mode & f & sh & fs & own & _ & HD & _ & _ & _ & _ & _ & _ & Hr & _).
    destruct (Hr eq_refl) as [_ ->]. unfold arg, layer_config in HD. rewrite !lookup_update in HD.
    assert (lookup "perturbation_domain" (own_config (with_domain a D)) = None) as Q.
    { unfold own_config. cbn [with_domain at_class at_own]. rewrite Hc. pose proof H as H'. apply layer_init_ok in H'.
      destruct H' as (k2 & D2 & dc2 & mode2 & ft2 & sh2 & fs2 & own2 & _ & _ & _ & _ & _ & _ & _ & Ho & _ & ->). cbn [at_own]. eapply own_lookup; [exact Ho|reflexivity]. }
    rewrite Q in HD. cbn in HD. injection HD as ->. reflexivity. }
  rewrite (rebuild_domain _ _ _ _ H Hr) in Hb. injection Hb as <-. unfold attr_call. cbn [at_spec at_dc at_mode at_domain at_fast at_finetune].
  split; [|split; reflexivity]. rewrite layer_domains_same. reflexivity.
Qed.
Theorem rebuilt_sound : forall c kw a D b ke n L ft, layer_init c kw = Ok a -> rebuild (with_domain a D) = Ok b -> 0 < ke -> (0 < n)%nat -> at_dc a = false ->
  dom_ok D (at_mode a) -> nl_ok (at_mode a) (at_fast a) L -> ft_ok (nl_out L) (Some ft) ->
  forall (S : vec -> Prop) gs tss g, let sp := mk_spec false (at_mode a) D n in
    (at_mode a = IBP \/ exists z, S z) -> Forall2 (fun mg ts => op_sp sp S (fst mg) (snd mg) ts) (combine (nl_in L) gs) tss -> length gs = length (nl_in L) ->
    nl_gaps ke sp (attr_opts b ft) L (concat tss) -> (forall z, computes L (map (fun h => h z) gs) (g z)) ->
    exists out, attr_call ke n L ft b (concat tss) = Ok out /\ op_sp sp S (nl_out L) g out.
Proof.
  intros c kw a D b ke n L ft H Hb Hke Hn Hdc Hd Hok Hft S gs tss g sp HS HF Hl HG HC.
  destruct (rebuilt_call c kw a D b ke n L ft (concat tss) H Hb) as (E & E1 & E2). rewrite E, Hdc.
  refine (layer_sound ke sp (attr_opts b ft) L Hke Hn Hd eq_refl _ _ S gs tss g HS HF Hl HG HC).
  - cbn. rewrite E1. exact Hok.
  - cbn. destruct (at_finetune b); [exact Hft|exact I].
Qed.
(** outside relu and softplus in affine and hybrid modes, the slope which is lost does not change the bounds *)
Definition reads_slope (mode : fmode) (act : activation) : Prop := (act = Arelu \/ act = Asoftplus) /\ mode <> IBP.
Theorem rebuilt_activation_bounds : forall kw a b ke n act m ft ts, layer_init CActivation kw = Ok a -> rebuild a = Ok b -> ~ reads_slope (at_mode a) act \/ slope_attr a = V_SLOPE ->
  attr_call ke n (NActivation act m) ft b ts = attr_call ke n (NActivation act m) ft a ts.
Proof.
  intros kw a b ke n act m ft ts H Hb Hn. destruct (rebuild_activation _ _ H) as (b' & Eb & Hsame & Ho). assert (b' = b) as -> by congruence.
  destruct Hsame as (A1 & A2 & A3 & A4 & A5 & A6 & A7 & A8 & A9). destruct (init_class _ _ _ H) as [_ Hs].
  unfold attr_call, attr_opts. rewrite <- A9, Hs, <- A3, <- A4, <- A5, <- A6, <- A8.
  assert (slope_attr b = V_SLOPE) as -> by (unfold slope_attr; rewrite Ho; reflexivity).
  destruct Hn as [Hn|Hn]; [|rewrite Hn; reflexivity].
  cbn [layer_domains decomon_layer]. destruct act; try reflexivity;
    (assert (at_mode a = IBP) as E by (destruct (at_mode a); [reflexivity|exfalso; apply Hn; split; [auto|congruence]..])); rewrite E; cbn [decomon_activation].
  - unfold relu_. destruct (get_fullinputs _ true true ts) as [r|]; reflexivity.
  - unfold op_softplus. destruct (get_fullinputs _ true true ts) as [r|]; reflexivity.
Qed.
