(** Soundness of the conversion of whole networks with a backward method. *)
From Coq Require Import Reals List Arith Bool ZArith Lra Lia Psatz Sorting.Permutation.
From Verif Require Import RLib Spec Spec_Layers Spec_Backward Spec_Convert M_Core M_Utils M_MergeLayers M_Ops M_Layers M_Pool M_Backward M_Crown M_Convert
  P_Core P_CoreThm P_Merge P_Utils P_MergeLayers P_Axis P_Ops P_Act P_SShape P_OpsThm P_Layers P_Move P_Pool P_Backward P_BackwardOps P_BackwardMore P_Crown P_BackwardThm
  P_Graph P_Convert P_ConvertThm Spec_Network M_Network P_Network P_NetworkSpec.
Import ListNotations.
Local Open Scope R_scope.

(** conditions on the tensors received by a backward layer: crossing intervals not shorter than epsilon (relu); points, or
    intervals not shorter than epsilon that do not contain 0 (sigmoid, tanh, softsign) *)
Definition bl_gaps (ke : R) (sp : spec) (L : nlayer) (ts : list tensor) : Prop :=
  match L with
  | NActivation Arelu m => boxes (gap_free ke) sp m ts
  | NActivation Asigmoid m | NActivation Atanh m | NActivation Asoftsign m =>
      boxes (fun u l => wide ke u l /\ (u < 0 \/ 0 < l)) sp m ts
  | _ => True
  end.
(** layers without condition *)
Definition bl_free (L : nlayer) : Prop := match L with NActivation a _ => a = Alinear | _ => True end.

Lemma bl_free_gaps : forall ke sp L ts, bl_free L -> bl_gaps ke sp L ts.
Proof. intros ke sp L ts H. destruct L; cbn in *; auto. destruct a; try discriminate H; exact I. Qed.

Lemma bl_nl_ok : forall L, bl_ok L -> nl_ok AFFINE true L.
Proof. intros L H. destruct L; cbn in *; auto; try contradiction; tauto. Qed.

Lemma boxes_weaken : forall (P Q : R -> R -> Prop) sp m ts, (forall u l, P u l -> Q u l) -> boxes P sp m ts -> boxes Q sp m ts.
Proof. intros P Q sp m ts H HP r E j Hj. apply H. exact (HP r E j Hj). Qed.

Lemma sides_of : forall F F' ke u l, s_shape F F' -> 0 < ke -> wide ke u l /\ (u < 0 \/ 0 < l) -> both_sides F F' ke u l.
Proof.
  intros F F' ke u l HS Hke [Hw Hs]. apply (one_sided F F' HS ke u l Hke); auto. destruct Hw as [->|Hw]; lra.
Qed.

Lemma exact_call : forall sp m k f (c : list tensor -> result bb) B, (forall ts, c ts = Ok B) -> is_map m k f B ->
  bwd_sound sp (fun _ => True) (mk_layer m k c false) f.
Proof. intros sp m k f c B E H S g ts _ _. exists B. cbn. split; [apply E|]. apply map_relaxes; auto. Qed.

Lemma bwd_weaken : forall sp (P Q : list tensor -> Prop) L f, (forall ts, Q ts -> P ts) -> bwd_sound sp P L f -> bwd_sound sp Q L f.
Proof. intros sp P Q L f H HB S g ts V HQ. apply (HB S g ts V). apply H. exact HQ. Qed.

Lemma relaxes_fn : forall X m k f f' B, (forall y j, (j < k)%nat -> f y j = f' y j) -> relaxes X m k f B -> relaxes X m k f' B.
Proof. intros X m k f f' B E H y j Hy Hj. rewrite <- (E y j Hj). exact (H y j Hy Hj). Qed.

Lemma bwd_fn : forall sp P L f f', (forall y j, (j < ly_out L)%nat -> f y j = f' y j) -> bwd_sound sp P L f -> bwd_sound sp P L f'.
Proof.
  intros sp P L f f' E H S g ts V HP. destruct (H S g ts V HP) as (B & EB & HR). exists B. split; [exact EB|]. exact (relaxes_fn _ _ _ _ _ _ E HR).
Qed.

Lemma bwd_layer_sound : forall ke sp o L, 0 < ke -> (0 < sp_n sp)%nat -> dom_ok (sp_dom sp) (sp_mode sp) -> sp_dc sp = false ->
  bl_ok L -> ft_ok (nl_out L) (option_map snd (bo_ft o)) ->
  bwd_sound sp (bl_gaps ke sp L) (backward_layer ke sp o L) (fun y => layer_fn L [y]).
Proof.
  intros ke sp o L Hke Hn Hd Hdc Hok Hft. unfold backward_layer. destruct L; cbn [bl_ok] in Hok; try contradiction; cbn [nl_in nl_out nth backward_call bl_gaps].
  - eapply exact_call; [reflexivity|]. intros y j Hj. pose proof (dense_map rows d units kernel bias Hok y j Hj) as [E1 E2].
    unfold layer_fn, arg. cbn [nth]. rewrite E1, E2. destruct bias; split; reflexivity.
  - destruct Hok as [Hk Hl]. destruct (conv_last_map g kernel bias Hl Hk) as (B & EB & HB). apply (exact_call _ _ _ _ _ B); [intros; exact EB|].
    intros y j Hj. pose proof (HB y j Hj) as [E1 E2]. unfold layer_fn, arg. cbn [nth]. rewrite E1, E2. destruct bias; split; reflexivity.
  - destruct Hok as [Hv Ha]. eapply exact_call; [reflexivity|]. apply bn_map; [exact Hv|]. intros y p c q Ip Iq Hc.
    assert (K : nl_ok AFFINE true (NBatchNorm pre k post axis gamma beta mean var eps)) by (cbn; auto).
    pose proof (computes_fn AFFINE true _ [y] K eq_refl) as HC. unfold computes in HC. etransitivity; [exact (HC p c q Ip Iq Hc)|].
    unfold keras_bn. destruct gamma, beta; reflexivity.
  - subst channels_first. eapply exact_call; [reflexivity|]. exact (identity_map (ch * size)).
  - eapply exact_call; [reflexivity|]. exact (identity_map m).
  - destruct Hok as [HP Hs]. eapply exact_call; [reflexivity|]. rewrite Hs. apply permute_map; auto.
    intros y p Ip. unfold layer_fn, arg. cbn [nth]. rewrite transpose_at; auto. apply dims_perm. exact HP.
  - eapply exact_call; [reflexivity|]. exact (identity_map m).
  - destruct a; try contradiction; cbn [backward_act].
    + eapply exact_call; [reflexivity|]. exact (identity_map m).
    + intros S g ts V HG. cbn [ly_in ly_out ly_bwd] in V, HG |- *. destruct (brelu_sound ke sp (bo_slope o) (bo_ft o) S m g ts Hke Hn Hd Hdc Hft V HG) as (B & EB & HB).
      exists B. split; [exact EB|]. eapply relaxes_fn; [|exact HB]. intros y j _. reflexivity.
    + intros S g ts V HG. cbn [ly_in ly_out ly_bwd] in V, HG |- *. destruct (bact_s ke sp (bo_slope o) (bo_ft o) S m g ts Hke Hn Hd Hdc V) as (H & _ & _).
      destruct H as (B & EB & HB); [apply (boxes_weaken _ _ sp m ts (fun u l => sides_of _ _ ke u l sigmoid_s Hke) HG)|].
      exists B. split; [exact EB|]. eapply relaxes_fn; [|exact HB]. intros y j _. reflexivity.
    + intros S g ts V HG. cbn [ly_in ly_out ly_bwd] in V, HG |- *. destruct (bact_s ke sp (bo_slope o) (bo_ft o) S m g ts Hke Hn Hd Hdc V) as (_ & H & _).
      destruct H as (B & EB & HB); [apply (boxes_weaken _ _ sp m ts (fun u l => sides_of _ _ ke u l tanh_s Hke) HG)|].
      exists B. split; [exact EB|]. eapply relaxes_fn; [|exact HB]. intros y j _. reflexivity.
    + intros S g ts V HG. cbn [ly_in ly_out ly_bwd] in V, HG |- *. destruct (bact_s ke sp (bo_slope o) (bo_ft o) S m g ts Hke Hn Hd Hdc V) as (_ & _ & H).
      destruct H as (B & EB & HB); [apply (boxes_weaken _ _ sp m ts (fun u l => sides_of _ _ ke u l softsign_s Hke) HG)|].
      exists B. split; [exact EB|]. eapply relaxes_fn; [|exact HB]. intros y j _. reflexivity.
Qed.

(** ** The graph of backward layers *)
Definition blayers_ok (bopts : nat -> bopts) (net : network) : Prop :=
  forall i L ps, nth_error net i = Some (Some L, ps) -> bl_ok L /\ ft_ok (nl_out L) (option_map snd (bo_ft (bopts i))).

Section BNet.
Variables (ke : R) (sp : spec) (bo : nat -> bopts) (net : network) (v : nat -> vec -> vec).
Local Notation n := (sp_n sp).
Hypothesis Hke : 0 < ke.
Hypothesis Hn : (0 < n)%nat.
Hypothesis Hd : dom_ok (sp_dom sp) (sp_mode sp).
Hypothesis Hdc : sp_dc sp = false.
Hypothesis Hnet : net_ok n net.
Hypothesis Hlay : blayers_ok bo net.
Let g := backward_net ke sp bo n net.

Definition blayer_of (i : nat) (o : option nlayer) : layer :=
  match o with None => mk_layer n n (fun _ => Ok backward_identity) false | Some L => backward_layer ke sp (bo i) L end.

Lemma bnet_node : forall i o ps, nth_error net i = Some (o, ps) -> nth_error g i = Some (blayer_of i o, ps).
Proof. clear Hn.
  intros i o ps E. unfold g, backward_net. rewrite nth_error_map.
  assert (Hi : (i < length net)%nat) by (apply nth_error_Some; rewrite E; discriminate).
  rewrite (combine_nth_error _ _ (seq 0 (length net)) net i i (o, ps)); [reflexivity| |exact E].
  rewrite (nth_error_nth' _ O) by (rewrite seq_length; exact Hi). rewrite seq_nth by exact Hi. reflexivity.
Qed.

Lemma bnet_length : length g = length net.
Proof. clear Hn. unfold g, backward_net. rewrite map_length, combine_length, seq_length. lia. Qed.

Lemma bnet_node_inv : forall i L ps, nth_error g i = Some (L, ps) -> exists o, nth_error net i = Some (o, ps) /\ L = blayer_of i o.
Proof. clear Hn.
  intros i L ps E. assert (Hi : (i < length net)%nat) by (rewrite <- bnet_length; apply nth_error_Some; rewrite E; discriminate).
  destruct (nth_error net i) as [[o qs]|] eqn:En; [|apply nth_error_None in En; lia]. rewrite (bnet_node i o qs En) in E. injection E as <- <-. eauto.
Qed.

Lemma bnet_parents : map snd g = map snd net.
Proof. clear Hn.
  apply nth_error_ext'. intros i. rewrite !nth_error_map. destruct (nth_error net i) as [[o ps]|] eqn:E.
  - rewrite (bnet_node i o ps E). reflexivity.
  - apply nth_error_None in E. assert (nth_error g i = None) as -> by (apply nth_error_None; rewrite bnet_length; exact E). reflexivity.
Qed.

Lemma bnet_unary : forall i L ps, nth_error net i = Some (Some L, ps) -> exists p, ps = [p] /\ nl_in L = [net_dim n net p].
Proof.
  intros i L ps E. destruct (Hlay i L ps E) as [Hok _]. destruct (Hnet i _ ps E) as [_ [Hps Hdim]].
  assert (exists m, nl_in L = [m]) as [m Em] by (destruct L; cbn in *; try contradiction; eauto). rewrite Em in Hdim.
  destruct ps as [|p [|]]; try discriminate Hdim. cbn in Hdim. injection Hdim as <-. eauto.
Qed.

Lemma blayer_out : forall i o ps, nth_error net i = Some (o, ps) -> ly_out (blayer_of i o) = net_dim n net i.
Proof. intros i o ps E. unfold net_dim. rewrite E. destruct o; reflexivity. Qed.

Lemma bnet_wf : well_formed n g.
Proof.
  intros i L ps E. destruct (bnet_node_inv i L ps E) as (o & En & ->). destruct (Hnet i o ps En) as [Hp Ho]. split; [|split].
  - intros ->. destruct o as [L|]; [destruct Ho as [Q _]; contradiction|reflexivity].
  - exact Hp.
  - intros p L' ps' -> E'. destruct (bnet_node_inv p L' ps' E') as (o' & En' & ->). rewrite (blayer_out p o' ps' En').
    destruct o as [L|]; [|discriminate Ho]. destruct (bnet_unary i L [p] En) as (q & Eq & Ein). injection Eq as <-. cbn. rewrite Ein. reflexivity.
Qed.

Lemma bnet_no_merge : no_merge g.
Proof. clear Hn.
  intros i L ps E. destruct (bnet_node_inv i L ps E) as (o & En & ->). destruct (Hnet i o ps En) as [_ Ho]. destruct o as [L|].
  - destruct (bnet_unary i L ps En) as (p & -> & _). cbn. lia.
  - subst ps. cbn. lia.
Qed.

Lemma bnet_models : models_last g.
Proof. intros i L ps p L' ps' _ _ E'. destruct (bnet_node_inv p L' ps' E') as (o' & _ & ->). destruct o'; reflexivity. Qed.

Definition bops : list ((list vec -> vec) * list nat) :=
  map (fun q => (match fst q with None => fun ys => arg ys 0 | Some L => layer_fn L end, snd q)) net.

Lemma bops_parents : map snd bops = map snd g.
Proof. rewrite bnet_parents. unfold bops. rewrite map_map. reflexivity. Qed.

Lemma bops_value : network_value bops (net_fn net).
Proof.
  intros y i f ps E. unfold bops in E. rewrite nth_error_map in E. destruct (nth_error net i) as [[o qs]|] eqn:En; [|discriminate E]. cbn in E. injection E as <- ->.
  rewrite (net_fn_step n net y i o ps Hnet En). destruct (Hnet i o ps En) as [_ Ho]. destruct o as [L|].
  - destruct Ho as [Hps _]. destruct ps; [contradiction|reflexivity].
  - subst ps. reflexivity.
Qed.

Definition bgaps (i : nat) (ts : list tensor) : Prop := forall L ps, nth_error net i = Some (Some L, ps) -> bl_gaps ke sp L ts.

Lemma bops_sound : forall i L ps f, nth_error g i = Some (L, ps) -> nth_error bops i = Some (f, ps) -> bwd_sound sp (bgaps i) L (fun y => f [y]).
Proof.
  intros i L ps f E Ef. destruct (bnet_node_inv i L ps E) as (o & En & ->). unfold bops in Ef. rewrite nth_error_map, En in Ef. cbn in Ef. injection Ef as <-.
  destruct o as [L|]; cbn [blayer_of].
  - destruct (Hlay i L ps En) as [Hok Hft]. eapply bwd_weaken; [|apply bwd_layer_sound; auto]. intros ts H. exact (H L ps En).
  - eapply bwd_weaken; [|eapply exact_call; [reflexivity|exact (identity_map n)]]. intros; exact I.
Qed.

Lemma bnet_agree : net_value net v -> forall y i, (i < length net)%nat -> agree (net_dim n net i) (net_fn net i y) (v i y).
Proof.
  intros Hv y i Hi.
  assert (K : forall i L ps, nth_error net i = Some (Some L, ps) -> exists mode fast, nl_ok mode fast L).
  { intros k L ps E. exists AFFINE, true. apply bl_nl_ok. apply (Hlay k L ps E). }
  apply (net_value_unique n net); auto. apply (net_value_exists n net); auto.
Qed.
End BNet.

(** ** Conversion with crown *)
Lemma net_clone_crown : forall ke D n mode final z ids bo net v o,
  0 < ke -> (0 < n)%nat -> norm_ok D -> (mode = IBP -> D = Box) ->
  net_ok n net -> net_value net v -> blayers_ok bo net -> single_output net o ->
  length ids = length net -> NoDup ids ->
  (forall its i L ps imap ts, get_input_tensors (Some D) mode n z = Ok its -> nth_error net i = Some (Some L, ps) ->
     let g := backward_net ke (mk_spec false mode D n) bo n net in
     get_input_nodes mode D n its no_map g (firstn i g) [] = Ok imap -> node_inputs mode D n its no_map g imap ps = Ok ts ->
     bl_gaps ke (mk_spec false mode D n) L ts) ->
  exists ts, clone_backward D n mode final None ids (backward_net ke (mk_spec false mode D n) bo n net) [o] None z = Ok ts /\
    valid D final false (in_dom D n z) n (net_dim n net o) (v o) ts.
Proof.
  intros ke D n mode final z ids bo net v o Hke Hn HD HB Hnet Hval Hlay [Ho Hall] Hids Hnd HP. set (sp := mk_spec false mode D n) in *.
  assert (Hdok : dom_ok D mode) by (destruct mode; cbn; auto).
  assert (Hacy : acyclic (map snd net)).
  { intros i ps p E Hp. rewrite nth_error_map in E. destruct (nth_error net i) as [[q qs]|] eqn:En; [|discriminate E]. injection E as ->. destruct (Hnet i q ps En) as [Q _]. apply Q. exact Hp. }
  destruct (longest_path_exists _ Hacy) as [lv Hlv]. pose proof (bnet_parents ke sp bo net) as Hpar. cbn [sp_n sp] in Hpar.
  destruct (clone_crown_sound D n mode final z ids (backward_net ke sp bo n net) (bops net) (net_fn net) (bgaps ke sp net) lv o) as (L & ps & ts & E & Et & V); auto.
  - apply (bnet_wf ke sp bo net Hnet Hlay).
  - apply (bnet_no_merge ke sp bo net Hnet Hlay).
  - apply (bnet_models ke sp bo net).
  - apply (bops_parents ke sp bo net).
  - apply (bops_value sp net Hnet).
  - apply (bops_sound ke sp bo net Hke Hn Hdok eq_refl Hlay).
  - intros its i L ps imap ts Ei E Eim Ets L' ps' En.
    destruct (bnet_node_inv ke sp bo net i L ps E) as (q & En' & _). rewrite En in En'. injection En' as <- <-. exact (HP its i L' ps' imap ts Ei En Eim Ets).
  - pose proof (bnet_length ke sp bo net) as Hl. cbn [sp_n sp] in Hl. rewrite Hl. exact Hids.
  - rewrite Hpar. exact Hlv.
  - rewrite Hpar. apply ancestors_deepest; [exact Hlv|rewrite map_length; exact Ho|]. rewrite map_length. exact Hall.
  - exists ts. split; [exact Et|]. destruct (bnet_node_inv ke sp bo net o L ps E) as (q & En & ->).
    pose proof (blayer_out ke sp bo net o q ps En) as Q. cbn [sp_n sp] in Q. rewrite Q in V.
    apply (op_sp_ext (mk_spec false final D n) (in_dom D n z) (net_dim n net o) (net_fn net o)); [|exact V].
    intros y j _ Hj. apply (bnet_agree sp bo net v Hnet Hlay Hval y o Ho j Hj).
Qed.

Lemma net_clone_crown_free : forall ke D n mode final z ids bo net v o,
  0 < ke -> (0 < n)%nat -> norm_ok D -> (mode = IBP -> D = Box) ->
  net_ok n net -> net_value net v -> blayers_ok bo net -> single_output net o ->
  length ids = length net -> NoDup ids ->
  (forall i L ps, nth_error net i = Some (Some L, ps) -> bl_free L) ->
  exists ts, clone_backward D n mode final None ids (backward_net ke (mk_spec false mode D n) bo n net) [o] None z = Ok ts /\
    valid D final false (in_dom D n z) n (net_dim n net o) (v o) ts.
Proof.
  intros ke D n mode final z ids bo net v o Hke Hn HD HB Hnet Hval Hlay Ho Hids Hnd Hf. apply net_clone_crown; auto.
  intros its i L ps imap ts _ E g _ _. apply bl_free_gaps. exact (Hf i L ps E).
Qed.

(** ** Conversion with crown-forward-xxx *)
Lemma net_clone_crown_forward : forall ke D n mode final z ids opts bo net v o,
  0 < ke -> (0 < n)%nat -> norm_ok D -> (mode = IBP -> D = Box) -> (mode = IBP \/ exists y, in_dom D n z y) ->
  net_ok n net -> net_value net v -> layers_ok mode opts net -> blayers_ok bo net -> single_output net o ->
  length ids = length net -> NoDup ids ->
  (forall its i L ps vs, get_input_tensors (Some D) mode n z = Ok its -> nth_error net i = Some (Some L, ps) ->
     evaluates (firstn i (decomon_net ke (mk_spec false mode D n) opts net)) no_map its vs ->
     nl_gaps ke (mk_spec false mode D n) (opts i) L (concat (map vs ps))) ->
  (forall its om i L ps imap ts, get_input_tensors (Some D) mode n z = Ok its -> nth_error net i = Some (Some L, ps) ->
     let g := backward_net ke (mk_spec false mode D n) bo n net in
     convert_nodes (decomon_net ke (mk_spec false mode D n) opts net) no_map its = Ok om ->
     get_input_nodes mode D n its om g (firstn i g) [] = Ok imap -> node_inputs mode D n its om g imap ps = Ok ts ->
     bl_gaps ke (mk_spec false mode D n) L ts) ->
  exists ts, clone_backward D n mode final (Some (decomon_net ke (mk_spec false mode D n) opts net)) ids (backward_net ke (mk_spec false mode D n) bo n net) [o] None z = Ok ts /\
    valid D final false (in_dom D n z) n (net_dim n net o) (v o) ts.
Proof.
  intros ke D n mode final z ids opts bo net v o Hke Hn HD HB Hne Hnet Hval Hlay Hblay [Ho Hall] Hids Hnd HP HPb. set (sp := mk_spec false mode D n) in *.
  assert (Hdok : dom_ok D mode) by (destruct mode; cbn; auto).
  assert (Hacy : acyclic (map snd net)) by (apply (net_acyclic sp net Hnet)).
  destruct (longest_path_exists _ Hacy) as [lv Hlv]. pose proof (bnet_parents ke sp bo net) as Hpar. cbn [sp_n sp] in Hpar.
  assert (Hdp : deepest (map snd net) lv o).
  { apply ancestors_deepest; [exact Hlv|rewrite map_length; exact Ho|]. rewrite map_length. exact Hall. }
  destruct (input_tensors_ok D mode n z Hn (fun _ => HD)) as (its & Ei & Vi). unfold clone_backward. rewrite Ei. cbn [bind].
  set (h := decomon_net ke sp opts net) in *.
  destruct (net_eval ke sp opts net v Hke Hn Hdok eq_refl Hnet Hval Hlay (in_dom D n z) its Vi Hne (fun i L ps vs E He => HP its i L ps vs Ei E He)) as (vs & He & Hs).
  assert (Hph : parents_of h = map snd net) by (apply (net_parents ke sp opts net Hn)).
  assert (Hlen : length h = length net) by (apply (net_length ke sp opts net Hn)).
  assert (Hah : acyclic (parents_of h)) by (rewrite Hph; exact Hacy).
  assert (Hsrc : forall i nod, nth_error h i = Some nod -> fn_parents nod = [] -> fn_kind nod = KInput).
  { intros i nod En Ep. destruct (net_node_inv ke sp opts net Hn i nod En) as (q & ps & E & ->). destruct q as [L|]; [|reflexivity]. destruct (Hnet i (Some L) ps E) as [_ [Q _]]. contradiction. }
  destruct (convert_nodes_eval tensor h no_map its vs) as (om & Eom & Hom); [apply topo_acyclic; exact Hah|exact Hsrc|intros i Q; exfalso; apply Q; reflexivity|exact He|].
  change (fun _ : nat => None) with (@no_map tensor). rewrite Eom. cbn [bind].
  assert (Eo : output_nodes h [o] = Ok [o]).
  { assert (Hdp' : deepest (parents_of h) lv o) by (rewrite Hph; exact Hdp).
    assert (Hf : filter (deepestb h lv) [o] = [o]) by (cbn; rewrite (deepest_b _ h lv o Hdp'); reflexivity). rewrite <- Hf at 2.
    apply output_nodes_ok; auto.
    - apply topo_acyclic. exact Hah.
    - rewrite Hph. exact Hlv.
    - apply (net_unshared ke sp opts net Hn).
    - intros Q. rewrite Q in Hlen. cbn in Hlen. lia.
    - intros o' [<-|[]]. rewrite Hlen. exact Ho. }
  rewrite Eo. cbn [bind].
  destruct (convert_backward_sound D n mode final (in_dom D n z) its om ids (backward_net ke sp bo n net) (bops net) (net_fn net) (bgaps ke sp net) lv o) as (L & ps & ts & E & Et & V); auto.
  - apply (bnet_wf ke sp bo net Hnet Hblay).
  - apply (bnet_no_merge ke sp bo net Hnet Hblay).
  - apply (bnet_models ke sp bo net).
  - apply (bops_parents ke sp bo net).
  - apply (bops_value sp net Hnet).
  - apply (bops_sound ke sp bo net Hke Hn Hdok eq_refl Hblay).
  - intros i L ps ts E Ets. destruct (bnet_node_inv ke sp bo net i L ps E) as (q & En & ->).
    assert (Hi : (i < length net)%nat) by (apply nth_error_Some; rewrite En; discriminate).
    rewrite Hom in Ets by (rewrite Hlen; exact Hi). injection Ets as <-.
    pose proof (blayer_out ke sp bo net i q ps En) as Q. cbn [sp_n sp] in Q. rewrite Q.
    apply (op_sp_ext sp (in_dom D n z) (net_dim n net i) (v i)); [|apply Hs; fold h; rewrite Hlen; exact Hi].
    intros y j _ Hj. symmetry. apply (bnet_agree sp bo net v Hnet Hblay Hval y i Hi j Hj).
  - intros i L ps imap ts E Eim Ets L' ps' En.
    destruct (bnet_node_inv ke sp bo net i L ps E) as (q & En' & _). rewrite En in En'. injection En' as <- <-. exact (HPb its om i L' ps' imap ts Ei En Eom Eim Ets).
  - pose proof (bnet_length ke sp bo net) as Hl. cbn [sp_n sp] in Hl. rewrite Hl. exact Hids.
  - rewrite Hpar. exact Hlv.
  - rewrite Hpar. exact Hdp.
  - exists ts. split; [exact Et|]. destruct (bnet_node_inv ke sp bo net o L ps E) as (q & En & ->).
    pose proof (blayer_out ke sp bo net o q ps En) as Q. cbn [sp_n sp] in Q. rewrite Q in V.
    apply (op_sp_ext (mk_spec false final D n) (in_dom D n z) (net_dim n net o) (net_fn net o)); [|exact V].
    intros y j _ Hj. apply (bnet_agree sp bo net v Hnet Hblay Hval y o Ho j Hj).
Qed.
