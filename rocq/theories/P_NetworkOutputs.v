(** Conversion of whole networks with several outputs. *)
From Coq Require Import Reals List Arith Bool ZArith Lra Lia Psatz Sorting.Permutation.
From Verif Require Import RLib Spec Spec_Layers Spec_Backward Spec_Convert M_Core M_Utils M_MergeLayers M_Ops M_Layers M_Pool M_Backward M_Crown M_Convert
  P_Core P_CoreThm P_Merge P_Utils P_MergeLayers P_Axis P_Ops P_Act P_SShape P_OpsThm P_Layers P_Move P_Pool P_Backward P_BackwardOps P_BackwardMore P_Crown P_BackwardThm
  P_Graph P_Convert P_ConvertThm Spec_Network M_Network P_Network P_NetworkSpec P_NetworkCrown P_InclusionThm Spec_Outputs.
Import ListNotations.
Local Open Scope R_scope.

(** ** levels *)
Lemma longest_path_unique : forall pss lv lv', acyclic pss -> longest_path pss lv -> longest_path pss lv' ->
  forall i, (i < length pss)%nat -> lv i = lv' i.
Proof.
  intros pss lv lv' Ha H H' i. induction i as [i IH] using (well_founded_induction lt_wf). intros Hi.
  destruct (nth_error pss i) as [ps|] eqn:E; [|apply nth_error_None in E; lia].
  assert (Hp : forall p, In p ps -> lv p = lv' p).
  { intros p Q. assert (p < i)%nat by (apply (Ha i ps p E Q)). apply IH; lia. }
  specialize (H i ps E). specialize (H' i ps E). destruct ps as [|q ps]; [congruence|].
  destruct H as [Hlt (p & Hin & Ep)], H' as [Hlt' (p' & Hin' & Ep')].
  pose proof (Hlt p' Hin') as A. pose proof (Hlt' p Hin) as B. rewrite (Hp p' Hin') in A. rewrite <- (Hp p Hin) in B. lia.
Qed.

Lemma deepest_unique : forall pss lv lv' i, acyclic pss -> longest_path pss lv -> longest_path pss lv' -> deepest pss lv i -> deepest pss lv' i.
Proof.
  intros pss lv lv' i Ha H H' [Hi Hd]. split; [exact Hi|]. intros j Hj.
  rewrite <- (longest_path_unique pss lv lv' Ha H H' j Hj), <- (longest_path_unique pss lv lv' Ha H H' i Hi). apply Hd. exact Hj.
Qed.

Lemma leads_level : forall pss lv o j, longest_path pss lv -> leads_to pss o j -> (lv j <= lv o)%nat.
Proof.
  intros pss lv o j Hlv H. induction H as [|i k ps E Hi Hk IH]; [apply le_n|].
  specialize (Hlv k ps E). destruct ps as [|q ps]; [contradiction|]. destruct Hlv as [Q _]. specialize (Q i Hi). lia.
Qed.

Lemma some_max : forall (f : nat -> nat) k, exists i, (i <= k)%nat /\ forall j, (j <= k)%nat -> (f j <= f i)%nat.
Proof.
  intros f k. induction k as [|k (i & Hi & H)]; [exists O; split; [lia|intros j Hj; replace j with O by lia; lia]|].
  destruct (le_lt_dec (f (S k)) (f i)) as [Q|Q].
  - exists i. split; [lia|]. intros j Hj. destruct (Nat.eq_dec j (S k)) as [->|]; [exact Q|apply H; lia].
  - exists (S k). split; [lia|]. intros j Hj. destruct (Nat.eq_dec j (S k)) as [->|]; [lia|]. specialize (H j ltac:(lia)). lia.
Qed.

Lemma first_split : forall (p : nat -> bool) l, (exists x, In x l /\ p x = true) ->
  exists before x after, l = before ++ x :: after /\ p x = true /\ forall b, In b before -> p b = false.
Proof.
  intros p l. induction l as [|a l IH]; intros (x & Hx & Ex); [contradiction|]. destruct (p a) eqn:Ea.
  - exists [], a, l. split; [reflexivity|]. split; [exact Ea|]. intros b [].
  - destruct IH as (bf & y & af & -> & Ey & H); [destruct Hx as [<-|Hx]; [congruence|exists x; auto]|].
    exists (a :: bf), y, af. split; [reflexivity|]. split; [exact Ey|]. intros b [<-|Hb]; [exact Ea|apply H; exact Hb].
Qed.

Lemma net_ok_acyclic : forall n net, net_ok n net -> acyclic (map snd net).
Proof.
  intros n net Hnet i ps p E Hp. rewrite nth_error_map in E. destruct (nth_error net i) as [[q qs]|] eqn:En; [|discriminate E].
  injection E as ->. destruct (Hnet i q ps En) as [Q _]. apply Q. exact Hp.
Qed.

Lemma first_longest_exists : forall n net outs, net_ok n net -> net <> [] -> outputs_of net outs -> exists o, first_longest net outs o.
Proof.
  intros n net outs Hnet Hne [Ho Hl]. pose proof (net_ok_acyclic n net Hnet) as Ha. destruct (longest_path_exists _ Ha) as [lv Hlv].
  destruct (some_max lv (length net - 1)) as (m & Hm & Hmax).
  assert (Hlen : (0 < length net)%nat) by (destruct net; [contradiction|cbn; lia]).
  destruct (Hl m ltac:(lia)) as (o & Hin & Hlead). pose proof (leads_level _ lv o m Hlv Hlead) as Hom.
  destruct (first_split (fun i => Nat.eqb (lv i) (lv m)) outs) as (bf & x & af & E & Ex & Hb).
  { exists o. split; [exact Hin|]. apply Nat.eqb_eq. specialize (Hmax o). specialize (Ho o Hin). specialize (Hmax ltac:(lia)). lia. }
  apply Nat.eqb_eq in Ex. exists x, bf, af. split; [exact E|]. intros lv' Hlv'.
  assert (Hx : (x < length net)%nat) by (apply Ho; rewrite E; apply in_or_app; right; left; reflexivity).
  split.
  - apply (deepest_unique _ lv lv'); auto. split; [rewrite map_length; exact Hx|]. intros j Hj. rewrite map_length in Hj. specialize (Hmax j ltac:(lia)). lia.
  - intros b Hin' Hd. apply (deepest_unique _ lv' lv) in Hd; auto. destruct Hd as [_ Hd]. specialize (Hd m ltac:(rewrite map_length; lia)).
    specialize (Hb b Hin'). apply Nat.eqb_neq in Hb.
    assert ((b < length net)%nat) by (apply Ho; rewrite E; apply in_or_app; left; exact Hin'). specialize (Hmax b ltac:(lia)). lia.
Qed.

(** the single output of a network *)
Lemma single_first : forall net o, single_output net o -> first_longest net [o] o.
Proof.
  intros net o [Ho H]. exists [], []. split; [reflexivity|]. intros lv Hlv. split; [|intros b []].
  apply ancestors_deepest; [exact Hlv|rewrite map_length; exact Ho|]. rewrite map_length. exact H.
Qed.

Lemma first_filter : forall A (g : fgraph A) net outs o lv, parents_of g = map snd net -> longest_path (map snd net) lv ->
  (forall o, In o outs -> (o < length net)%nat) -> first_longest net outs o ->
  exists rest, filter (deepestb g lv) outs = o :: rest.
Proof.
  intros A g net outs o lv Hpar Hlv Hlt (bf & af & -> & H). destruct (H lv Hlv) as [Hd Hb]. exists (filter (deepestb g lv) af).
  assert (Hlen : length g = length net) by (apply (f_equal (@length _)) in Hpar; unfold parents_of in Hpar; rewrite !map_length in Hpar; exact Hpar).
  rewrite filter_app. cbn [filter]. rewrite (deepest_b _ g lv o) by (rewrite Hpar; exact Hd).
  replace (filter (deepestb g lv) bf) with (@nil nat); [reflexivity|]. clear H Hd.
  assert (Hlt' : forall b, In b bf -> (b < length net)%nat) by (intros b Q; apply Hlt; apply in_or_app; left; exact Q). clear Hlt.
  induction bf as [|b bf IH]; [reflexivity|]. cbn. destruct (deepestb g lv b) eqn:E.
  - exfalso. apply (Hb b (or_introl eq_refl)). rewrite <- Hpar. apply deepest_b'; [|exact E]. rewrite Hlen. apply Hlt'. left. reflexivity.
  - apply IH; [intros b' Q; apply Hb; right; exact Q|intros b' Q; apply Hlt'; right; exact Q].
Qed.

(** ** forward methods *)
Lemma net_clone_outputs : forall ke D n mode final z opts net v outs o,
  0 < ke -> (0 < n)%nat -> norm_ok D -> (mode = IBP -> final = IBP) -> (mode = IBP \/ exists y, in_dom D n z y) ->
  net_ok n net -> net_value net v -> layers_ok mode opts net ->
  (forall o, In o outs -> (o < length net)%nat) -> first_longest net outs o ->
  (forall its i L ps vs, get_input_tensors (Some D) mode n z = Ok its -> nth_error net i = Some (Some L, ps) ->
     evaluates (firstn i (decomon_net ke (mk_spec false mode D n) opts net)) no_map its vs ->
     nl_gaps ke (mk_spec false mode D n) (opts i) L (concat (map vs ps))) ->
  exists ts, clone_forward D n mode final (decomon_net ke (mk_spec false mode D n) opts net) outs z = Ok ts /\
    valid D final false (in_dom D n z) n (net_dim n net o) (v o) ts.
Proof.
  intros ke D n mode final z opts net v outs o Hke Hn HD Hmf Hne Hnet Hval Hlay Hlt Hfst HP. set (sp := mk_spec false mode D n) in *.
  destruct (input_tensors_ok D mode n z Hn (fun _ => HD)) as (its & Ei & Vi). unfold clone_forward. rewrite Ei. cbn [bind].
  assert (Hdok : dom_ok D mode) by (destruct mode; cbn; auto).
  destruct (net_eval ke sp opts net v Hke Hn Hdok eq_refl Hnet Hval Hlay (in_dom D n z) its Vi Hne
    (fun i L ps vs E He => HP its i L ps vs Ei E He)) as (vs & He & Hs).
  set (g := decomon_net ke sp opts net) in *.
  pose proof (net_acyclic sp net Hnet) as Hna. destruct (longest_path_exists _ Hna) as [lv Hlv].
  assert (Hpar : parents_of g = map snd net) by (apply net_parents; exact Hn).
  assert (Hlen : length g = length net) by (apply net_length; exact Hn).
  assert (Hacy : acyclic (parents_of g)) by (rewrite Hpar; exact Hna).
  assert (Hlv' : longest_path (parents_of g) lv) by (rewrite Hpar; exact Hlv).
  assert (Hol : (o < length net)%nat) by (apply Hlt; destruct Hfst as (bf & af & -> & _); apply in_or_app; right; left; reflexivity).
  assert (Hg : g <> []) by (intros Q; rewrite Q in Hlen; cbn in Hlen; lia).
  pose proof (topo_acyclic _ g Hacy) as Ht.
  assert (Hsrc : forall i nod, nth_error g i = Some nod -> fn_parents nod = [] -> fn_kind nod = KInput).
  { intros i nod En Ep. destruct (net_node_inv ke sp opts net Hn i nod En) as (q & ps & E & ->). destruct q as [L|]; [|reflexivity]. destruct (Hnet i (Some L) ps E) as [_ [Q _]]. contradiction. }
  destruct (first_filter tensor g net outs o lv Hpar Hlv Hlt Hfst) as [rest Ef].
  assert (Eo : output_nodes g outs = Ok (o :: rest)).
  { rewrite <- Ef. apply output_nodes_ok; auto; [apply net_unshared; exact Hn|]. intros o' Q. rewrite Hlen. apply Hlt. exact Q. }
  change (fun _ : nat => None) with (@no_map tensor).
  rewrite (convert_forward_eval tensor g no_map its vs outs (o :: rest)); auto.
  - cbn [bind map concat]. assert (Vo : op_sp sp (in_dom D n z) (net_dim n net o) (v o) (vs o)) by (apply Hs; rewrite Hlen; exact Hol).
    rewrite convert2mode_first by (exact (eq_trans (proj1 Vo) (eq_sym (nb_tensors_spec mode false)))).
    exact (convert2mode_sound D n mode final _ _ _ (vs o) Hn Hdok Hmf Vo).
  - intros i Q. exfalso. apply Q. reflexivity.
  - intros o' Q. rewrite <- Ef in Q. apply filter_In in Q as [Q _]. rewrite Hlen. apply Hlt. exact Q.
Qed.

Lemma net_clone_outputs_ibp : forall ke D n z opts net v outs o,
  0 < ke -> (0 < n)%nat -> norm_ok D -> net_ok n net -> net_value net v -> layers_ok IBP opts net ->
  (forall o, In o outs -> (o < length net)%nat) -> first_longest net outs o ->
  exists u l, clone_forward D n IBP IBP (decomon_net ke (mk_spec false IBP D n) opts net) outs z = Ok [u; l] /\
    forall y j, in_dom D n z y -> (j < net_dim n net o)%nat -> l 0%nat j <= v o y j <= u 0%nat j.
Proof.
  intros ke D n z opts net v outs o Hke Hn HD Hnet Hval Hlay Hlt Ho.
  destruct (net_clone_outputs ke D n IBP IBP z opts net v outs o) as (ts & E & [Hl V]); auto.
  - intros. apply nl_ibp_gaps. reflexivity.
  - destruct ts as [|u [|l [|]]]; try discriminate Hl. exists u, l. split; [exact E|]. exact V.
Qed.

(** ** backward methods *)
Lemma convert_backward_outs : forall D n mode final (S : vec -> Prop) its fmap ids g ops v (P : nat -> list tensor -> Prop) lv outs o rest,
  (0 < n)%nat -> norm_ok D -> (mode = IBP -> D = Box) ->
  valid D mode false S n n (fun y => y) its ->
  well_formed n g -> no_merge g -> models_last g ->
  map snd ops = map snd g -> network_value ops v ->
  (forall i L ps f, nth_error g i = Some (L, ps) -> nth_error ops i = Some (f, ps) -> bwd_sound (mk_spec false mode D n) (P i) L (fun y => f [y])) ->
  (forall i L ps ts, nth_error g i = Some (L, ps) -> fmap i = Some ts -> valid D mode false S n (ly_out L) (v i) ts) ->
  (forall i L ps imap ts, nth_error g i = Some (L, ps) ->
     get_input_nodes mode D n its fmap g (firstn i g) [] = Ok imap -> node_inputs mode D n its fmap g imap ps = Ok ts -> P i ts) ->
  length ids = length g -> NoDup ids -> longest_path (map snd g) lv ->
  (forall o, In o outs -> (o < length g)%nat) -> filter (deepestb (bshape ids g) lv) outs = o :: rest -> deepest (map snd g) lv o ->
  exists L ps ts, nth_error g o = Some (L, ps) /\ convert_backward D n mode final ids g outs None fmap its = Ok ts /\
    valid D final false S n (ly_out L) (v o) ts.
Proof.
  intros D n mode final S its fmap ids g ops v P lv outs o rest Hn HD HB Vi Hwf Hnm Hml Hops Hv Hlay Hfm HP Hids Hnd Hlv Hlt Hf Hd.
  destruct (convert_backward_sound D n mode final S its fmap ids g ops v P lv o Hn HD HB Vi Hwf Hnm Hml Hops Hv Hlay Hfm HP Hids Hnd Hlv Hd)
    as (L & ps & ts & Eg & Ec & Vt).
  exists L, ps, ts. split; [exact Eg|]. split; [|exact Vt]. rewrite <- Ec. unfold convert_backward. cbn [andb length].
  assert (Hon : forall l, (forall o, In o l -> (o < length g)%nat) -> output_nodes (bshape ids g) l = Ok (filter (deepestb (bshape ids g) lv) l)).
  { intros l Hl. apply output_nodes_ok.
    - apply topo_acyclic. rewrite bshape_parents by exact Hids. apply (well_formed_acyclic n). exact Hwf.
    - rewrite bshape_parents by exact Hids. exact Hlv.
    - unfold unshared. rewrite bshape_ids by exact Hids. exact Hnd.
    - intros Q. apply (f_equal (@length _)) in Q. rewrite bshape_length in Q by exact Hids. cbn in Q.
      destruct Hd as [Hd _]. rewrite map_length in Hd. lia.
    - intros o' Q. rewrite bshape_length by exact Hids. apply Hl. exact Q. }
  assert (Hol : (o < length g)%nat) by (destruct Hd as [Q _]; rewrite map_length in Q; exact Q).
  rewrite (Hon outs Hlt), (Hon [o]) by (intros o' [<-|[]]; exact Hol). rewrite Hf. cbn [filter].
  rewrite deepest_b by (rewrite bshape_parents by exact Hids; exact Hd). cbn [bind].
  assert (Hin : forall o', In o' (o :: rest) -> (o' < length g)%nat).
  { intros o' Q. rewrite <- Hf in Q. apply filter_In in Q as [Q _]. apply Hlt. exact Q. }
  destruct (crown_sound (mk_spec false mode D n) S (fun y => y) its fmap g ops v P (o :: rest)) as (res & E & F); cbn [sp_mode sp_dom sp_n sp_dc]; auto.
  destruct (crown_sound (mk_spec false mode D n) S (fun y => y) its fmap g ops v P [o]) as (res1 & E1 & F1); cbn [sp_mode sp_dom sp_n sp_dc]; auto.
  { intros o' [<-|[]]. exact Hol. }
  cbn [sp_mode sp_dom sp_n] in E, E1. rewrite E, E1. cbn [bind].
  inversion F as [|? t ? tss (L1 & ps1 & Eg1 & V) F' Q1 Q2]; subst. inversion F1 as [|? t1 ? tss1 _ F1' Q1 Q2]; subst. inversion F1'; subst.
  assert (t = t1).
  { unfold crown_model in E, E1. cbn [andb length] in E, E1. destruct (get_input_nodes mode D n its fmap g g []) as [imap|]; [|discriminate E1].
    cbn [bind mapR] in E, E1. destruct (crown mode g imap true (Datatypes.S o) o None) as [B|]; [|discriminate E1]. cbn [bind] in E, E1.
    destruct (convert2backward mode D n its B) as [t2|]; [|discriminate E1]. cbn [bind] in E, E1. injection E1 as <-.
    match type of E with context [mapR ?f rest] => destruct (mapR f rest) as [q|]; [|discriminate E] end. cbn [bind] in E. injection E as <- _. reflexivity. }
  subst t1. cbn [concat]. rewrite app_nil_r.
  rewrite convert2mode_first by (exact (eq_trans (proj1 V) (eq_sym (nb_tensors_spec mode false)))). reflexivity.
Qed.

Lemma net_clone_crown_outputs : forall ke D n mode final z ids bo net v outs o,
  0 < ke -> (0 < n)%nat -> norm_ok D -> (mode = IBP -> D = Box) ->
  net_ok n net -> net_value net v -> blayers_ok bo net ->
  (forall o, In o outs -> (o < length net)%nat) -> first_longest net outs o ->
  length ids = length net -> NoDup ids ->
  (forall its i L ps imap ts, get_input_tensors (Some D) mode n z = Ok its -> nth_error net i = Some (Some L, ps) ->
     let g := backward_net ke (mk_spec false mode D n) bo n net in
     get_input_nodes mode D n its no_map g (firstn i g) [] = Ok imap -> node_inputs mode D n its no_map g imap ps = Ok ts ->
     bl_gaps ke (mk_spec false mode D n) L ts) ->
  exists ts, clone_backward D n mode final None ids (backward_net ke (mk_spec false mode D n) bo n net) outs None z = Ok ts /\
    valid D final false (in_dom D n z) n (net_dim n net o) (v o) ts.
Proof.
  intros ke D n mode final z ids bo net v outs o Hke Hn HD HB Hnet Hval Hlay Hlt Hfst Hids Hnd HP. set (sp := mk_spec false mode D n) in *.
  assert (Hdok : dom_ok D mode) by (destruct mode; cbn; auto).
  pose proof (net_acyclic sp net Hnet) as Hacy.
  destruct (longest_path_exists _ Hacy) as [lv Hlv]. pose proof (bnet_parents ke sp bo net) as Hpar. pose proof (bnet_length ke sp bo net) as Hlen. cbn [sp_n sp] in Hpar, Hlen.
  assert (Hol : (o < length net)%nat) by (apply Hlt; destruct Hfst as (bf & af & -> & _); apply in_or_app; right; left; reflexivity).
  destruct (first_filter unit (bshape ids (backward_net ke sp bo n net)) net outs o lv) as [rest Ef]; auto.
  { rewrite bshape_parents by (rewrite Hlen; exact Hids). exact Hpar. }
  destruct (input_tensors_ok D mode n z Hn (fun _ => HD)) as (its & Ei & Vi). unfold clone_backward. rewrite Ei. cbn [bind].
  change (fun _ : nat => None) with (@no_map tensor).
  destruct (convert_backward_outs D n mode final (in_dom D n z) its no_map ids (backward_net ke sp bo n net) (bops net) (net_fn net) (bgaps ke sp net) lv outs o rest) as (L & ps & ts & E & Et & V); auto.
  - apply (bnet_wf ke sp bo net Hnet Hlay).
  - apply (bnet_no_merge ke sp bo net Hnet Hlay).
  - apply (bnet_models ke sp bo net).
  - apply (bops_parents ke sp bo net).
  - apply (bops_value sp net Hnet).
  - apply (bops_sound ke sp bo net Hke Hn Hdok eq_refl Hlay).
  - intros; discriminate.
  - intros i L ps imap ts E Eim Ets L' ps' En.
    destruct (bnet_node_inv ke sp bo net i L ps E) as (q & En' & _). rewrite En in En'. injection En' as <- <-. exact (HP its i L' ps' imap ts Ei En Eim Ets).
  - rewrite Hlen. exact Hids.
  - rewrite Hpar. exact Hlv.
  - intros o' Q. rewrite Hlen. apply Hlt. exact Q.
  - rewrite Hpar. destruct Hfst as (bf & af & _ & H). apply (H lv Hlv).
  - exists ts. split; [exact Et|]. destruct (bnet_node_inv ke sp bo net o L ps E) as (q & En & ->).
    pose proof (blayer_out ke sp bo net o q ps En) as Q. cbn [sp_n sp] in Q. rewrite Q in V.
    apply (op_sp_ext (mk_spec false final D n) (in_dom D n z) (net_dim n net o) (net_fn net o)); [|exact V].
    intros y j _ Hj. apply (bnet_agree sp bo net v Hnet Hlay Hval y o Hol j Hj).
Qed.

Lemma net_clone_crown_forward_outputs : forall ke D n mode final z ids opts bo net v outs o,
  0 < ke -> (0 < n)%nat -> norm_ok D -> (mode = IBP -> D = Box) -> (mode = IBP \/ exists y, in_dom D n z y) ->
  net_ok n net -> net_value net v -> layers_ok mode opts net -> blayers_ok bo net ->
  (forall o, In o outs -> (o < length net)%nat) -> first_longest net outs o ->
  length ids = length net -> NoDup ids ->
  (forall its i L ps vs, get_input_tensors (Some D) mode n z = Ok its -> nth_error net i = Some (Some L, ps) ->
     evaluates (firstn i (decomon_net ke (mk_spec false mode D n) opts net)) no_map its vs ->
     nl_gaps ke (mk_spec false mode D n) (opts i) L (concat (map vs ps))) ->
  (forall its om i L ps imap ts, get_input_tensors (Some D) mode n z = Ok its -> nth_error net i = Some (Some L, ps) ->
     let g := backward_net ke (mk_spec false mode D n) bo n net in
     convert_nodes (decomon_net ke (mk_spec false mode D n) opts net) no_map its = Ok om ->
     get_input_nodes mode D n its om g (firstn i g) [] = Ok imap -> node_inputs mode D n its om g imap ps = Ok ts ->
     bl_gaps ke (mk_spec false mode D n) L ts) ->
  exists ts, clone_backward D n mode final (Some (decomon_net ke (mk_spec false mode D n) opts net)) ids (backward_net ke (mk_spec false mode D n) bo n net) outs None z = Ok ts /\
    valid D final false (in_dom D n z) n (net_dim n net o) (v o) ts.
Proof.
  intros ke D n mode final z ids opts bo net v outs o Hke Hn HD HB Hne Hnet Hval Hlay Hblay Hlt Hfst Hids Hnd HP HPb. set (sp := mk_spec false mode D n) in *.
  assert (Hdok : dom_ok D mode) by (destruct mode; cbn; auto).
  assert (Hacy : acyclic (map snd net)) by (apply (net_acyclic sp net Hnet)).
  destruct (longest_path_exists _ Hacy) as [lv Hlv]. pose proof (bnet_parents ke sp bo net) as Hpar. pose proof (bnet_length ke sp bo net) as Hblen. cbn [sp_n sp] in Hpar, Hblen.
  assert (Hol : (o < length net)%nat) by (apply Hlt; destruct Hfst as (bf & af & -> & _); apply in_or_app; right; left; reflexivity).
  destruct (first_filter unit (bshape ids (backward_net ke sp bo n net)) net outs o lv) as [rest Ef]; auto.
  { rewrite bshape_parents by (rewrite Hblen; exact Hids). exact Hpar. }
  destruct (input_tensors_ok D mode n z Hn (fun _ => HD)) as (its & Ei & Vi). unfold clone_backward. rewrite Ei. cbn [bind].
  set (h := decomon_net ke sp opts net) in *.
  destruct (net_eval ke sp opts net v Hke Hn Hdok eq_refl Hnet Hval Hlay (in_dom D n z) its Vi Hne (fun i L ps vs E He => HP its i L ps vs Ei E He)) as (vs & He & Hs).
  assert (Hph : parents_of h = map snd net) by (apply (net_parents ke sp opts net Hn)).
  assert (Hlen : length h = length net) by (apply (net_length ke sp opts net Hn)).
  assert (Hah : acyclic (parents_of h)) by (rewrite Hph; exact Hacy).
  assert (Hsrc : forall i nod, nth_error h i = Some nod -> fn_parents nod = [] -> fn_kind nod = KInput).
  { intros i nod En Ep. destruct (net_node_inv ke sp opts net Hn i nod En) as (q & ps & E & ->). destruct q as [L|]; [|reflexivity]. destruct (Hnet i (Some L) ps E) as [_ [Q _]]. contradiction. }
  destruct (convert_nodes_eval tensor h no_map its vs) as (om & Eom & Hom); [apply topo_acyclic; exact Hah|exact Hsrc|intros i Q; exfalso; apply Q; reflexivity|exact He|].
  change (fun _ : nat => None) with (@no_map tensor). rewrite Eom. cbn [bind].
  rewrite (output_nodes_ok h) with (lv := lv).
  - cbn [bind].
    destruct (convert_backward_outs D n mode final (in_dom D n z) its om ids (backward_net ke sp bo n net) (bops net) (net_fn net) (bgaps ke sp net) lv outs o rest) as (L & ps & ts & E & Et & V); auto.
    + apply (bnet_wf ke sp bo net Hnet Hblay).
    + apply (bnet_no_merge ke sp bo net Hnet Hblay).
    + apply (bnet_models ke sp bo net).
    + apply (bops_parents ke sp bo net).
    + apply (bops_value sp net Hnet).
    + apply (bops_sound ke sp bo net Hke Hn Hdok eq_refl Hblay).
    + intros i L ps ts E Ets. destruct (bnet_node_inv ke sp bo net i L ps E) as (q & En & ->).
      assert (Hi : (i < length net)%nat) by (apply nth_error_Some; rewrite En; discriminate).
      rewrite Hom in Ets by (rewrite Hlen; exact Hi). injection Ets as <-.
      pose proof (blayer_out ke sp bo net i q ps En) as Q. cbn [sp_n sp] in Q. rewrite Q.
      apply (op_sp_ext sp (in_dom D n z) (net_dim n net i) (v i)); [|apply Hs; fold h; rewrite Hlen; exact Hi].
      intros y j _ Hj. symmetry. apply (bnet_agree sp bo net v Hnet Hblay Hval y i Hi j Hj).
    + intros i L ps imap ts E Eim Ets L' ps' En.
      destruct (bnet_node_inv ke sp bo net i L ps E) as (q & En' & _). rewrite En in En'. injection En' as <- <-. exact (HPb its om i L' ps' imap ts Ei En Eom Eim Ets).
    + rewrite Hblen. exact Hids.
    + rewrite Hpar. exact Hlv.
    + intros o' Q. rewrite Hblen. apply Hlt. exact Q.
    + rewrite Hpar. destruct Hfst as (bf & af & _ & H). apply (H lv Hlv).
    + exists ts. split; [exact Et|]. destruct (bnet_node_inv ke sp bo net o L ps E) as (q & En & ->).
      pose proof (blayer_out ke sp bo net o q ps En) as Q. cbn [sp_n sp] in Q. rewrite Q in V.
      apply (op_sp_ext (mk_spec false final D n) (in_dom D n z) (net_dim n net o) (net_fn net o)); [|exact V].
      intros y j _ Hj. apply (bnet_agree sp bo net v Hnet Hblay Hval y o Hol j Hj).
  - apply topo_acyclic. exact Hah.
  - rewrite Hph. exact Hlv.
  - apply (net_unshared ke sp opts net Hn).
  - intros Q. rewrite Q in Hlen. cbn in Hlen. lia.
  - intros o' Q. rewrite Hlen. apply Hlt. exact Q.
Qed.

(** ** networks with two outputs: two dense layers on the same input *)
Definition heads (n : nat) (k1 k2 : mat) (b1 b2 : option vec) : network := [(None, []); (Some (NDense 1 n n k1 b1), [0%nat]); (Some (NDense 1 n n k2 b2), [0%nat])].
Lemma heads_ok : forall n k1 k2 b1 b2, (0 < n)%nat -> net_ok n (heads n k1 k2 b1 b2) /\ outputs_of (heads n k1 k2 b1 b2) [1%nat; 2%nat] /\ first_longest (heads n k1 k2 b1 b2) [1%nat; 2%nat] 1%nat.
Proof.
  intros n k1 k2 b1 b2 Hn. split; [|split].
  - intros i q ps E. unfold heads in E. destruct i as [|[|[|i]]]; cbn in E; try discriminate E; try (destruct i; discriminate E); injection E as <- <-; (split; [intros p Hp; cbn in Hp; lia|]);
      [reflexivity|split; [discriminate|]|split; [discriminate|]]; cbn; f_equal; lia.
  - split; [intros o [<-|[<-|[]]]; cbn; lia|]. intros j Hj. cbn in Hj. destruct j as [|[|[|j]]]; try lia.
    + exists 1%nat. split; [left; reflexivity|]. apply (leads_step _ _ 0%nat 1%nat [0%nat]); [reflexivity|left; reflexivity|constructor].
    + exists 1%nat. split; [left; reflexivity|constructor].
    + exists 2%nat. split; [right; left; reflexivity|constructor].
  - exists [], [2%nat]. split; [reflexivity|]. intros lv Hlv. split; [|intros b []]. split; [cbn; lia|]. intros j Hj. cbn in Hj.
    pose proof (Hlv 0%nat [] eq_refl) as L0. destruct (Hlv 1%nat [0%nat] eq_refl) as [_ (p & [<-|[]] & L1)]. destruct (Hlv 2%nat [0%nat] eq_refl) as [_ (p & [<-|[]] & L2)].
    destruct j as [|[|[|j]]]; lia.
Qed.

Lemma heads_layers : forall n k1 k2 b1 b2 mode, (0 < n)%nat -> layers_ok mode (plain_o true) (heads n k1 k2 b1 b2).
Proof.
  intros n k1 k2 b1 b2 mode Hn i L ps E. unfold heads in E. destruct i as [|[|[|i]]]; cbn in E; try discriminate E; try (destruct i; discriminate E); injection E as <- <-; (split; [cbn; auto|exact I]).
Qed.
Lemma heads_values : forall n k1 k2 b1 b2, (0 < n)%nat -> exists v, net_value (heads n k1 k2 b1 b2) v.
Proof.
  intros n k1 k2 b1 b2 Hn. exists (net_fn (heads n k1 k2 b1 b2)). apply (net_value_exists n); [apply heads_ok; exact Hn|].
  intros i L ps E. exists IBP, true. apply (heads_layers n k1 k2 b1 b2 IBP Hn i L ps E).
Qed.
(** y and 2 y *)
Definition two_heads : network := heads 1 (fun _ _ => 1) (fun _ _ => 2) None None.

Lemma two_heads_ibp : forall ke, exists u l,
  clone_forward Box 1 IBP IBP (decomon_net ke (mk_spec false IBP Box 1) (plain_o true) two_heads) [1%nat; 2%nat] (seg 1 2) = Ok [u; l] /\
  u 0%nat 0%nat = 2 /\ l 0%nat 0%nat = 1.
Proof. intros ke. do 2 eexists. split; [run|]. open_net. rminmax. lra. Qed.
Lemma two_heads_crown : forall ke, exists u l,
  clone_backward Box 1 IBP IBP None [0%nat; 1%nat; 2%nat] (backward_net ke (mk_spec false IBP Box 1) (fun _ => mk_bopts V_SLOPE None) 1 two_heads) [1%nat; 2%nat] None (seg 1 2) = Ok [u; l] /\
  u 0%nat 0%nat = 2 /\ l 0%nat 0%nat = 1.
Proof. intros ke. do 2 eexists. split; [run|]. open_net. rminmax. lra. Qed.

Lemma two_heads_value : forall v, net_value two_heads v -> forall y, v 1%nat y 0%nat = y 0%nat /\ v 2%nat y 0%nat = 2 * y 0%nat.
Proof.
  intros v Hv y. pose proof (Hv y 0%nat None [] eq_refl 0%nat) as H0. pose proof (Hv y 1%nat _ [0%nat] eq_refl) as H1. pose proof (Hv y 2%nat _ [0%nat] eq_refl) as H2.
  cbn in H1, H2. specialize (H1 0%nat 0%nat ltac:(lia) ltac:(lia)). specialize (H2 0%nat 0%nat ltac:(lia) ltac:(lia)). cbn in H1, H2. lra.
Qed.

(** the bounds returned do not bound the second output *)
Lemma second_output_lost : forall ke, exists u l v y,
  outputs_of two_heads [1%nat; 2%nat] /\ net_value two_heads v /\ in_dom Box 1 (seg 1 2) y /\
  clone_forward Box 1 IBP IBP (decomon_net ke (mk_spec false IBP Box 1) (plain_o true) two_heads) [1%nat; 2%nat] (seg 1 2) = Ok [u; l] /\
  u 0%nat 0%nat < v 2%nat y 0%nat.
Proof.
  intros ke. destruct (heads_ok 1 (fun _ _ => 1) (fun _ _ => 2) None None ltac:(lia)) as (_ & Ho & _). destruct (heads_values 1 (fun _ _ => 1) (fun _ _ => 2) None None ltac:(lia)) as [v Hv]. destruct (two_heads_ibp ke) as (u & l & E & Eu & _).
  exists u, l, v, (fun _ => 2). split; [exact Ho|]. split; [exact Hv|]. split; [intros i Hi; cbn; lra|]. split; [exact E|].
  destruct (two_heads_value v Hv (fun _ => 2)) as [_ ->]. lra.
Qed.

Lemma second_output_lost_crown : forall ke, exists u l v y,
  outputs_of two_heads [1%nat; 2%nat] /\ net_value two_heads v /\ in_dom Box 1 (seg 1 2) y /\
  clone_backward Box 1 IBP IBP None [0%nat; 1%nat; 2%nat] (backward_net ke (mk_spec false IBP Box 1) (fun _ => mk_bopts V_SLOPE None) 1 two_heads) [1%nat; 2%nat] None (seg 1 2) = Ok [u; l] /\
  u 0%nat 0%nat < v 2%nat y 0%nat.
Proof.
  intros ke. destruct (heads_ok 1 (fun _ _ => 1) (fun _ _ => 2) None None ltac:(lia)) as (_ & Ho & _). destruct (heads_values 1 (fun _ _ => 1) (fun _ _ => 2) None None ltac:(lia)) as [v Hv]. destruct (two_heads_crown ke) as (u & l & E & Eu & _).
  exists u, l, v, (fun _ => 2). split; [exact Ho|]. split; [exact Hv|]. split; [intros i Hi; cbn; lra|]. split; [exact E|].
  destruct (two_heads_value v Hv (fun _ => 2)) as [_ ->]. lra.
Qed.

(** any mode: the bounds are those of the first *)
Lemma heads_clone : forall ke D n mode final k1 k2 b1 b2 z, 0 < ke -> (0 < n)%nat -> norm_ok D -> (mode = IBP -> final = IBP) -> (exists y, in_dom D n z y) ->
  exists v ts, net_value (heads n k1 k2 b1 b2) v /\
    clone_forward D n mode final (decomon_net ke (mk_spec false mode D n) (plain_o true) (heads n k1 k2 b1 b2)) [1%nat; 2%nat] z = Ok ts /\
    valid D final false (in_dom D n z) n (1 * n) (v 1%nat) ts.
Proof.
  intros ke D n mode final k1 k2 b1 b2 z Hke Hn HD Hmf Hne. destruct (heads_ok n k1 k2 b1 b2 Hn) as (Hnet & Ho & Hf).
  destruct (heads_values n k1 k2 b1 b2 Hn) as [v Hv]. exists v.
  destruct (net_clone_outputs ke D n mode final z (plain_o true) (heads n k1 k2 b1 b2) v [1%nat; 2%nat] 1%nat) as (ts & E & V); auto.
  - apply heads_layers. exact Hn.
  - apply Ho.
  - intros its i L ps vs _ E _. apply nl_free_gaps. unfold heads in E. destruct i as [|[|[|i]]]; cbn in E; try discriminate E; try (destruct i; discriminate E); injection E as <- <-; exact I.
  - exists ts. auto.
Qed.
Lemma heads_crown : forall ke D n mode final k1 k2 b1 b2 z, 0 < ke -> (0 < n)%nat -> norm_ok D -> (mode = IBP -> D = Box) ->
  exists v ts, net_value (heads n k1 k2 b1 b2) v /\
    clone_backward D n mode final None [0%nat; 1%nat; 2%nat] (backward_net ke (mk_spec false mode D n) (fun _ => mk_bopts V_SLOPE None) n (heads n k1 k2 b1 b2)) [1%nat; 2%nat] None z = Ok ts /\
    valid D final false (in_dom D n z) n (1 * n) (v 1%nat) ts.
Proof.
  intros ke D n mode final k1 k2 b1 b2 z Hke Hn HD HB. destruct (heads_ok n k1 k2 b1 b2 Hn) as (Hnet & Ho & Hf).
  destruct (heads_values n k1 k2 b1 b2 Hn) as [v Hv]. exists v.
  destruct (net_clone_crown_outputs ke D n mode final z [0%nat; 1%nat; 2%nat] (fun _ => mk_bopts V_SLOPE None) (heads n k1 k2 b1 b2) v [1%nat; 2%nat] 1%nat) as (ts & E & V); auto.
  - intros i L ps E. unfold heads in E. destruct i as [|[|[|i]]]; cbn in E; try discriminate E; try (destruct i; discriminate E); injection E as <- <-; cbn; auto.
  - apply Ho.
  - repeat constructor; cbn; intuition discriminate.
  - intros its i L ps imap ts _ E g _ _. apply bl_free_gaps. unfold heads in E. destruct i as [|[|[|i]]]; cbn in E; try discriminate E; try (destruct i; discriminate E); injection E as <- <-; exact I.
  - exists ts. auto.
Qed.
