(** Whole networks on a batch, sample by sample. *)
From Coq Require Import Reals List Arith Bool Lia Lra.
From Verif Require Import RLib Spec M_Core M_Utils M_MergeLayers M_Ops M_Layers Spec_Backward M_Backward Spec_Convert M_Convert M_Network P_Core P_Merge P_Graph P_Convert P_Network P_NetworkForward.
From Verif Require Import Spec_Network Spec_Batch M_Batch P_Batch P_BatchLayers P_BatchBN P_BatchNet.
Import ListNotations.
Local Open Scope R_scope.

Lemma evaluates_extend : forall A (g : fgraph A) (om0 : omap A) its vs k nod o, topo g -> nth_error g k = Some nod ->
  evaluates (firstn k g) om0 its vs ->
  match om0 k with Some l => o = l | None => node_out nod (match fn_parents nod with [] => its | ps => concat (map vs ps) end) = Ok o end ->
  evaluates (firstn (S k) g) om0 its (upd vs k o).
Proof.
  intros A g om0 its vs k nod o Ht En He Eo.
  assert (Hpar : forall i nd, (i <= k)%nat -> nth_error g i = Some nd ->
     match fn_parents nd with [] => its | ps => concat (map (upd vs k o) ps) end = match fn_parents nd with [] => its | ps => concat (map vs ps) end).
  { intros i nd Hi Ei. pose proof (Ht i nd) as T. destruct (fn_parents nd) as [|p0 ps0]; [reflexivity|]. f_equal. apply map_ext_in.
    intros p Hp. apply upd_neq. specialize (T p Ei Hp). lia. }
  assert (Hfn : forall i, nth_error (firstn (S k) g) i = if (i <? S k)%nat then nth_error g i else None).
  { intros i. destruct (Nat.ltb_spec i (S k)); [|apply nth_error_None; rewrite firstn_length; lia].
    rewrite <- (firstn_skipn (S k) g) at 2. rewrite nth_error_app1; [reflexivity|]. rewrite firstn_length. assert (k < length g)%nat by (apply nth_error_Some; congruence). lia. }
  assert (Hfn' : forall i, (i < k)%nat -> nth_error (firstn k g) i = nth_error g i).
  { intros i Hi. rewrite <- (firstn_skipn k g) at 2. rewrite nth_error_app1; [reflexivity|]. rewrite firstn_length. assert (k < length g)%nat by (apply nth_error_Some; congruence). lia. }
  intros i nd Ei. rewrite Hfn in Ei. destruct (Nat.ltb_spec i (S k)) as [Hi|]; [|discriminate Ei].
  rewrite (Hpar i nd ltac:(lia) Ei). destruct (Nat.eq_dec i k) as [->|Hne].
  - rewrite En in Ei. injection Ei; intros <-. rewrite upd_eq. exact Eo.
  - rewrite upd_neq by exact Hne. apply He. rewrite Hfn' by lia. exact Ei.
Qed.

(** the outputs of a graph with a single output *)
Lemma single_eval_gen : forall A (g : fgraph A) its vs o, acyclic (parents_of g) -> sources_input g -> unshared g -> (o < length g)%nat ->
  (forall j, (j < length g)%nat -> leads_to (parents_of g) o j) -> evaluates g (fun _ => None) its vs ->
  convert_forward g [o] (fun _ => None) its = Ok (vs o).
Proof.
  intros A g its vs o Hacy Hsrc Hun Ho Hall He. destruct (longest_path_exists _ Hacy) as [lv Hlv].
  assert (Hdp : deepest (parents_of g) lv o) by (apply ancestors_deepest; [exact Hlv|unfold parents_of; rewrite map_length; exact Ho|unfold parents_of at 1; rewrite map_length; exact Hall]).
  assert (Hg : g <> []) by (intros Q; rewrite Q in Ho; cbn in Ho; lia).
  pose proof (topo_acyclic _ g Hacy) as Ht.
  assert (Hf : filter (deepestb g lv) [o] = [o]) by (cbn; rewrite (deepest_b _ g lv o Hdp); reflexivity).
  assert (Eo : output_nodes g [o] = Ok [o]).
  { rewrite <- Hf at 2. apply output_nodes_ok; auto. intros o' [<-|[]]. exact Ho. }
  replace (vs o) with (concat (map vs [o])) by (cbn [map concat]; apply app_nil_r).
  apply (convert_forward_eval A g (fun _ => None) its vs [o] [o]); auto; [intros i Q; exfalso; apply Q; reflexivity|].
  intros o' [<-|[]]. exact Ho.
Qed.

Lemma seq_nth_err : forall n s i, (i < n)%nat -> nth_error (seq s n) i = Some (s + i)%nat.
Proof. induction n as [|n IH]; intros s i H; [lia|]. destruct i as [|i]; cbn; [f_equal; lia|]. rewrite IH by lia. f_equal. lia. Qed.
Lemma combine_nth_err : forall A B (l : list A) (l' : list B) i a b, nth_error l i = Some a -> nth_error l' i = Some b -> nth_error (combine l l') i = Some (a, b).
Proof.
  intros A B. induction l as [|x l IH]; intros l' i a b E1 E2; [destruct i; discriminate E1|]. destruct l' as [|x' l']; [destruct i; discriminate E2|].
  destruct i as [|i]; cbn in *; [congruence|]. apply IH; assumption.
Qed.
Section Clone.
Variables (ke : R) (D : domain) (B b n : nat) (mode : fmode) (net : tnetwork) (shape : nat -> list nat).
Hypothesis (Hb : (b < B)%nat) (Hn : (0 < n)%nat) (HD : norm_ok D) (Hnet : tnet_ok n net shape).
Notation gT := (t_net ke D mode net).
Notation g1 := (decomon_net ke (mk_spec false mode D n) (tnet_opts net) (tnet_network shape net)).

Lemma t_node : forall i o ps, nth_error net i = Some (o, ps) ->
  nth_error gT i = Some (mk_fnode i (match o with None => KInput | Some L => KOp (t_layer ke D mode L) end) ps).
Proof.
  intros i o ps E. unfold t_net. rewrite nth_error_map. assert (Hi : (i < length net)%nat) by (apply nth_error_Some; congruence).
  rewrite (combine_nth_err _ _ (seq 0 (length net)) net i i (o, ps)); [reflexivity|apply (seq_nth_err _ 0); exact Hi|exact E].
Qed.
Lemma t_length : length gT = length net.
Proof. unfold t_net. rewrite map_length, combine_length, seq_length. lia. Qed.
Lemma s_nth : forall i o ps, nth_error net i = Some (o, ps) ->
  nth_error (tnet_network shape net) i = Some (match o with None => None | Some L => Some (tl_layer (map shape ps) L) end, ps).
Proof. intros i o ps E. unfold tnet_network. rewrite nth_error_map, E. reflexivity. Qed.
Lemma s_length : length (tnet_network shape net) = length net.
Proof. unfold tnet_network. apply map_length. Qed.
Lemma s_parents : map snd (tnet_network shape net) = map snd net.
Proof. unfold tnet_network. rewrite map_map. reflexivity. Qed.
Lemma t_parents : parents_of gT = map snd net.
Proof.
  apply nth_error_eq. intros i. unfold parents_of. rewrite !nth_error_map. destruct (nth_error net i) as [[o ps]|] eqn:E.
  - rewrite (t_node i o ps E). reflexivity.
  - apply nth_error_None in E. assert (nth_error gT i = None) as -> by (apply nth_error_None; rewrite t_length; exact E). reflexivity.
Qed.
Lemma t_acyclic : acyclic (map snd net).
Proof.
  intros i ps p E Hp. rewrite nth_error_map in E. destruct (nth_error net i) as [[o qs]|] eqn:En; [|discriminate E]. injection E as ->.
  destruct (Hnet i o ps En) as [Q _]. apply Q. exact Hp.
Qed.
Lemma t_unshared : unshared gT.
Proof. unfold unshared, t_net. rewrite map_map. cbn [fn_op]. rewrite (combine_fst (mk_spec false mode D n) Hn) by apply seq_length. apply seq_NoDup. Qed.

(** both graphs are evaluated together *)
Lemma t_evaluates : forall Ti ti, sample D mode B b n [n] Ti ti ->
  exists Vs vs, evaluates gT (fun _ => None) Ti Vs /\ evaluates g1 (fun _ => None) ti vs /\
    forall i, (i < length net)%nat -> sample D mode B b n (shape i) (Vs i) (vs i).
Proof.
  intros Ti ti Hi.
  assert (TT : topo gT) by (apply topo_acyclic; rewrite t_parents; exact t_acyclic).
  assert (T1 : topo g1) by (apply topo_acyclic; rewrite net_parents by exact Hn; rewrite s_parents; exact t_acyclic).
  assert (G : forall k, (k <= length net)%nat -> exists Vs vs, evaluates (firstn k gT) (fun _ => None) Ti Vs /\ evaluates (firstn k g1) (fun _ => None) ti vs /\
    forall i, (i < k)%nat -> sample D mode B b n (shape i) (Vs i) (vs i)).
  { induction k as [|k IH]; intros Hk.
    - exists (fun _ => []), (fun _ => []). split; [|split]; [intros i nod H; rewrite firstn_O in H; destruct i; discriminate H|intros i nod H; rewrite firstn_O in H; destruct i; discriminate H|intros; lia].
    - destruct (IH ltac:(lia)) as (Vs & vs & HV & Hv & HS). destruct (nth_error net k) as [[o ps]|] eqn:En; [|apply nth_error_None in En; lia].
      pose proof (t_node k o ps En) as ET. pose proof (net_node ke (mk_spec false mode D n) (tnet_opts net) (tnet_network shape net) Hn k _ _ (s_nth k o ps En)) as E1.
      destruct (Hnet k o ps En) as [Hp Ho].
      assert (S : exists T' ts', node_out (mk_fnode k (match o with None => KInput | Some L => KOp (t_layer ke D mode L) end) ps) (match ps with [] => Ti | ps => concat (map Vs ps) end) = Ok T' /\
        node_out (mk_fnode k (match match o with None => None | Some L => Some (tl_layer (map shape ps) L) end with None => KInput | Some L => KOp (decomon_layer ke (mk_spec false mode D n) (tnet_opts net k) L) end) ps)
          (match ps with [] => ti | ps => concat (map vs ps) end) = Ok ts' /\ sample D mode B b n (shape k) T' ts').
      { destruct o as [L|].
        - destruct Ho as [Hps HL]. cbn [node_out fn_kind].
          assert (EP : forall A (z : list A) (f : nat -> list A), match ps with [] => z | q => concat (map f q) end = concat (map f ps)) by (intros; destruct ps; [contradiction|reflexivity]).
          rewrite !EP. apply t_layer_rel; auto.
          + unfold tnet_opts. rewrite En. destruct L; cbn; auto.
          + clear -Hp HS. revert Hp. induction ps as [|p ps IH]; intros Hp; cbn [map]; constructor; [apply HS; apply Hp; left; reflexivity|apply IH; intros; apply Hp; right; assumption].
        - destruct Ho as [-> Es]. cbn [node_out fn_kind]. exists Ti, ti. rewrite Es. auto. }
      destruct S as (T' & ts' & S1 & S2 & S3). exists (upd Vs k T'), (upd vs k ts'). split; [|split].
      + eapply evaluates_extend; [exact TT|exact ET|exact HV|cbn [fn_parents]; destruct ps; exact S1].
      + eapply evaluates_extend; [exact T1|exact E1|exact Hv|cbn [fn_parents]; destruct ps; exact S2].
      + intros i Hik. destruct (Nat.eq_dec i k) as [->|Hne]; [rewrite !upd_eq; exact S3|rewrite !upd_neq by exact Hne; apply HS; lia]. }
  destruct (G (length net) (Nat.le_refl _)) as (Vs & vs & HV & Hv & HS). exists Vs, vs.
  rewrite <- t_length in HV. rewrite firstn_all in HV. split; [exact HV|]. split; [|exact HS].
  rewrite <- (firstn_all g1). rewrite net_length by exact Hn. rewrite s_length. exact Hv.
Qed.

Variable o : nat.
Hypothesis Ho : single_output (tnet_network shape net) o.

Lemma t_single : forall Ti Vs, evaluates gT (fun _ => None) Ti Vs -> convert_forward gT [o] (fun _ => None) Ti = Ok (Vs o).
Proof.
  intros Ti Vs HV. destruct Ho as [Ho1 Ho2]. rewrite s_length in Ho1, Ho2. rewrite s_parents in Ho2.
  apply single_eval_gen; rewrite ?t_parents, ?t_length; auto using t_acyclic, t_unshared.
  intros i nod Ei Ep. assert (Hi : (i < length net)%nat) by (rewrite <- t_length; apply nth_error_Some; congruence).
  destruct (nth_error net i) as [[q ps]|] eqn:E; [|apply nth_error_None in E; lia]. rewrite (t_node i q ps E) in Ei. injection Ei; intros <-. cbn in *. subst ps.
  destruct q as [L|]; [|reflexivity]. destruct (Hnet i (Some L) [] E) as [_ [Q _]]. contradiction.
Qed.
Lemma s_single : forall ti vs, evaluates g1 (fun _ => None) ti vs -> convert_forward g1 [o] (fun _ => None) ti = Ok (vs o).
Proof.
  intros ti vs Hv. destruct Ho as [Ho1 Ho2].
  assert (P1 : parents_of g1 = map snd (tnet_network shape net)) by (apply net_parents; exact Hn).
  assert (L1 : length g1 = length (tnet_network shape net)) by (apply net_length; exact Hn).
  apply single_eval_gen; rewrite ?P1, ?L1, ?s_parents; auto using t_acyclic.
  - intros i nod Ei Ep. destruct (net_node_inv ke (mk_spec false mode D n) _ _ Hn i nod Ei) as (q & ps & E & ->). cbn in *. subst ps. destruct q as [L|]; [|reflexivity].
    unfold tnet_network in E. rewrite nth_error_map in E. destruct (nth_error net i) as [[q ps]|] eqn:En; [|discriminate E]. cbn in E. injection E; intros EP EQ. subst ps.
    destruct q as [L'|]; [|discriminate EQ]. destruct (Hnet i (Some L') [] En) as [_ [Q _]]. contradiction.
  - apply net_unshared. exact Hn.
  - rewrite s_parents in Ho2. exact Ho2.
Qed.

Lemma clone_rel : forall final z x, (mode = IBP -> final = IBP) -> sample_dom D B b n z x ->
  exists T ts, t_clone_forward ke D mode final net [o] z = Ok T /\
    clone_forward D n mode final g1 [o] x = Ok ts /\ sample D final B b n (shape o) T ts.
Proof.
  intros final z x Hf Hx. destruct (t_input_rel D B b n Hb Hn HD mode z x Hx) as (Ti & ti & ET & Et & HS).
  destruct (t_evaluates Ti ti HS) as (Vs & vs & HV & Hv & HR). unfold t_clone_forward, clone_forward. rewrite ET, Et. cbn [bind].
  rewrite (t_single Ti Vs HV). rewrite (s_single ti vs Hv). cbn [bind].
  apply (t_convert_rel D B b n Hb Hn HD mode final (shape o)); auto. apply HR. destruct Ho as [Ho1 _]. rewrite s_length in Ho1. exact Ho1.
Qed.
Lemma clone_ibp_rel : forall final z x m, mode = IBP -> final <> IBP -> shape o = [m] -> sample_dom D B b n z x ->
  exists T ts, t_clone_forward ke D mode final net [o] z = Ok T /\
    clone_forward D n mode final g1 [o] x = Ok ts /\ sample Box final B b m [m] T ts.
Proof.
  intros final z x m Em Hf Es Hx. destruct (t_input_rel D B b n Hb Hn HD mode z x Hx) as (Ti & ti & ET & Et & HS).
  destruct (t_evaluates Ti ti HS) as (Vs & vs & HV & Hv & HR). unfold t_clone_forward, clone_forward. rewrite ET, Et. cbn [bind].
  rewrite (t_single Ti Vs HV). rewrite (s_single ti vs Hv). cbn [bind]. rewrite Em.
  apply (t_convert_ibp_rel D B b n Hb Hn HD final m); auto. rewrite <- Es, <- Em. apply HR. destruct Ho as [Ho1 _]. rewrite s_length in Ho1. exact Ho1.
Qed.
End Clone.

Lemma batch_clone : forall ke D B b n mode final net shape o z x, (b < B)%nat -> (0 < n)%nat -> norm_ok D -> (mode = IBP -> final = IBP) ->
  tnet_ok n net shape -> single_output (tnet_network shape net) o -> sample_dom D B b n z x ->
  exists T ts, t_clone_forward ke D mode final net [o] z = Ok T /\
    clone_forward D n mode final (decomon_net ke (mk_spec false mode D n) (tnet_opts net) (tnet_network shape net)) [o] x = Ok ts /\
    sample D final B b n (shape o) T ts.
Proof. intros; apply clone_rel; assumption. Qed.
Lemma batch_clone_ibp : forall ke D B b n final net shape o z x m, (b < B)%nat -> (0 < n)%nat -> norm_ok D -> final <> IBP ->
  tnet_ok n net shape -> single_output (tnet_network shape net) o -> shape o = [m] -> sample_dom D B b n z x ->
  exists T ts, t_clone_forward ke D IBP final net [o] z = Ok T /\
    clone_forward D n IBP final (decomon_net ke (mk_spec false IBP D n) (tnet_opts net) (tnet_network shape net)) [o] x = Ok ts /\
    sample Box final B b m [m] T ts.
Proof. intros; eapply clone_ibp_rel; eauto. Qed.

(** every sample of a batch of domains is one domain *)
Lemma batch_dom_sample : forall D B b n z, nd_shape z = dom_shape D B n -> sample_dom D B b n z (batch_dom D n z b).
Proof.
  intros [|eps p] B b n z E; cbn [sample_dom batch_dom dom_shape] in *.
  - split; [exact E|]. intros i j _ _. cbn. rewrite Nat.mul_1_r. reflexivity.
  - split; [exact E|]. intros j _. cbn. rewrite Nat.mul_1_r. reflexivity.
Qed.

(** the shapes agree with the dimensions of the network on one sample *)
Lemma tnet_dim : forall n net shape, tnet_ok n net shape -> forall i, (i < length net)%nat -> net_dim n (tnet_network shape net) i = prodn (shape i).
Proof.
  intros n net shape Hnet i Hi. destruct (nth_error net i) as [[o ps]|] eqn:En; [|apply nth_error_None in En; lia].
  destruct (Hnet i o ps En) as [_ Ho]. unfold net_dim. rewrite (s_nth net shape i o ps En). destruct o as [L|]; [|destruct Ho as [_ ->]; cbn; lia].
  destruct Ho as [_ HL]. destruct L; destruct (map shape ps) as [|s ss]; try contradiction HL; cbn [tl_layer nl_out].
  - destruct ss; [|contradiction HL]. destruct HL as (pre & d & u & -> & -> & Hd & Hu & Ek & _). rewrite Ek. cbn [hd tl]. rewrite !prodn_app. cbn [prodn fold_right].
    rewrite !Nat.mul_1_r. rewrite Nat.div_mul by lia. reflexivity.
  - destruct ss; [|contradiction HL]. destruct HL as (-> & _). reflexivity.
  - destruct ss; [|contradiction HL]. rewrite HL. reflexivity.
  - destruct ss; [|contradiction HL]. rewrite HL. reflexivity.
  - destruct ss; [|contradiction HL]. destruct HL as (-> & _). cbn. lia.
  - destruct ss; [|contradiction HL]. destruct HL as (-> & E & _). rewrite E. reflexivity.
  - destruct ss; [|contradiction HL]. destruct HL as (-> & pre & k & post & -> & Hax & _). exact (f_equal nl_out (bn_layer_eq pre k post axis gamma beta mean var eps Hax)).
  - destruct ss; [|contradiction HL]. destruct HL as (-> & _). reflexivity.
  - destruct HL as (-> & _). reflexivity.
  - destruct HL as (-> & _). reflexivity.
  - destruct ss as [|s1 [|? ?]]; try contradiction HL. destruct HL as (-> & _). reflexivity.
  - destruct HL as (-> & _). reflexivity.
  - destruct HL as (-> & _). reflexivity.
Qed.
Lemma tnet_net_ok : forall n net shape, tnet_ok n net shape -> net_ok n (tnet_network shape net).
Proof.
  intros n net shape Hnet i o' ps E. unfold tnet_network in E. rewrite nth_error_map in E. destruct (nth_error net i) as [[o qs]|] eqn:En; [|discriminate E]. cbn in E. injection E; intros -> <-.
  destruct (Hnet i o ps En) as [Hp Ho]. split; [exact Hp|]. destruct o as [L|]; [|exact (proj1 Ho)]. destruct Ho as [Hps HL]. split; [exact Hps|].
  assert (Hi : (i < length net)%nat) by (apply nth_error_Some; congruence).
  assert (EM : map (net_dim n (tnet_network shape net)) ps = map prodn (map shape ps)).
  { rewrite map_map. apply map_ext_in. intros p Q. apply tnet_dim; [exact Hnet|]. specialize (Hp p Q). lia. }
  rewrite EM. clear EM Hp Hps En.
  assert (HR : forall (ss : list (list nat)) s, (forall t, In t ss -> t = s) -> map prodn ss = repeat (prodn s) (length ss)).
  { induction ss as [|a ss IH]; intros s Q; [reflexivity|]. cbn [map length repeat]. rewrite (Q a (or_introl eq_refl)). f_equal. apply IH. intros; apply Q; right; assumption. }
  assert (HR' : forall s ss, (forall t, In t ss -> t = s) -> map prodn (s :: ss) = repeat (prodn s) (length (s :: ss))).
  { intros s ss Q. apply HR. intros t [<-|Q']; auto. }
  destruct L; destruct (map shape ps) as [|s ss]; try contradiction HL; cbn [tl_layer nl_in].
  - destruct ss; [|contradiction HL]. destruct HL as (pre & d & u & -> & _ & Hd & Hu & Ek & _). rewrite Ek. cbn [hd tl map]. rewrite !prodn_app. cbn [prodn fold_right].
    rewrite !Nat.mul_1_r. rewrite Nat.div_mul by lia. reflexivity.
  - destruct ss; [|contradiction HL]. reflexivity.
  - destruct ss; [|contradiction HL]. reflexivity.
  - destruct ss; [|contradiction HL]. reflexivity.
  - destruct ss; [|contradiction HL]. cbn [map]. f_equal. lia.
  - destruct ss; [|contradiction HL]. reflexivity.
  - destruct ss; [|contradiction HL]. destruct HL as (_ & pre & k & post & -> & Hax & _). symmetry. exact (f_equal nl_in (bn_layer_eq pre k post axis gamma beta mean var eps Hax)).
  - destruct ss; [|contradiction HL]. reflexivity.
  - apply HR'. apply HL.
  - apply HR'. apply HL.
  - destruct ss as [|s1 [|? ?]]; try contradiction HL. destruct HL as (<- & <-). reflexivity.
  - apply HR'. apply HL.
  - apply HR'. apply HL.
Qed.
Lemma tnet_layers_ok : forall n mode net shape, tnet_ok n net shape -> tnet_ft net -> layers_ok mode (tnet_opts net) (tnet_network shape net).
Proof.
  intros n mode net shape Hnet Hft i L' ps E. unfold tnet_network in E. rewrite nth_error_map in E. destruct (nth_error net i) as [[o qs]|] eqn:En; [|discriminate E]. cbn in E. injection E; intros -> EL.
  destruct o as [L|]; [|discriminate EL]. injection EL; intros <-. destruct (Hnet i (Some L) ps En) as [_ [Hps HL]].
  assert (Hlen : (0 < length (map shape ps))%nat) by (rewrite map_length; destruct ps; [contradiction|cbn; lia]).
  unfold tnet_opts. rewrite En. destruct L as [kernel bias|sl ft| | | |target|axis gamma beta mean var eps|dims| | | | |]; cbn [tl_layer nl_ok lo_ft lo_fast ft_ok nl_out]; auto.
  - destruct (map shape ps) as [|s [|? ?]]; try contradiction HL. destruct HL as (pre & d & u & _ & _ & _ & Hu & Ek & _). rewrite Ek. auto.
  - split; [exact I|]. destruct ft as [a|]; cbn [option_map]; [|exact I]. destruct (map shape ps) as [|s [|? ?]]; try contradiction HL. destruct HL as [_ Ea].
    intros j Hj. apply (Hft i sl a ps En j). rewrite (Ea a eq_refl). exact Hj.
  - destruct (map shape ps) as [|s [|? ?]]; try contradiction HL. destruct HL as (_ & pre & k & post & -> & Hax & _ & _ & _ & _ & Hv).
    assert (Q : nl_ok mode true (tl_layer [pre ++ k :: post] (TBatchNorm axis gamma beta mean var eps))) by (rewrite bn_layer_eq by exact Hax; cbn [nl_ok]; auto).
    split; [exact Q|exact I].
  - destruct (map shape ps) as [|s [|? ?]]; try contradiction HL. cbn [hd]. split; [apply HL|exact I].
Qed.

(** two batches that share a sample give it the same tensors *)
Lemma batch_independent : forall ke D n mode final net shape o B B' b b' z z' x,
  (b < B)%nat -> (b' < B')%nat -> (0 < n)%nat -> norm_ok D -> (mode = IBP -> final = IBP) -> tnet_ok n net shape -> single_output (tnet_network shape net) o ->
  sample_dom D B b n z x -> sample_dom D B' b' n z' x ->
  exists T T' ts, t_clone_forward ke D mode final net [o] z = Ok T /\ t_clone_forward ke D mode final net [o] z' = Ok T' /\
    sample D final B b n (shape o) T ts /\ sample D final B' b' n (shape o) T' ts.
Proof.
  intros ke D n mode final net shape o B B' b b' z z' x Hb Hb' Hn HD Hf Hnet Ho H H'.
  destruct (clone_rel ke D B b n mode net shape Hb Hn HD Hnet o Ho final z x Hf H) as (T & ts & ET & Et & HS).
  destruct (clone_rel ke D B' b' n mode net shape Hb' Hn HD Hnet o Ho final z' x Hf H') as (T' & ts' & ET' & Et' & HS').
  exists T, T', ts. rewrite Et in Et'. injection Et'; intros <-. auto.
Qed.

(** soundness on a whole batch *)
Lemma batch_valid : forall ke D n mode final net shape o B z v,
  0 < ke -> (0 < n)%nat -> norm_ok D -> (mode = IBP -> final = IBP) -> tnet_ok n net shape -> tnet_ft net -> single_output (tnet_network shape net) o ->
  (mode = IBP \/ forall i L ps, nth_error net i = Some (Some L, ps) -> tl_affine L) ->
  net_value (tnet_network shape net) v -> (0 < B)%nat -> nd_shape z = dom_shape D B n ->
  exists T, t_clone_forward ke D mode final net [o] z = Ok T /\
    forall b, (b < B)%nat -> (exists y, in_dom D n (batch_dom D n z b) y) -> exists ts, sample D final B b n (shape o) T ts /\
      valid D final false (in_dom D n (batch_dom D n z b)) n (prodn (shape o)) (v o) ts.
Proof.
  intros ke D n mode final net shape o B z v Hke Hn HD Hf Hnet Hft Ho Hfree Hv HB Ez.
  destruct (clone_rel ke D B 0 n mode net shape HB Hn HD Hnet o Ho final z _ Hf (batch_dom_sample D B 0 n z Ez)) as (T & _ & ET & _ & _).
  exists T. split; [exact ET|]. intros b Hb Hne.
  destruct (clone_rel ke D B b n mode net shape Hb Hn HD Hnet o Ho final z _ Hf (batch_dom_sample D B b n z Ez)) as (T' & ts & ET' & Et & HS).
  rewrite ET in ET'. injection ET'; intros <-. exists ts. split; [exact HS|].
  rewrite <- (tnet_dim n net shape Hnet o) by (destruct Ho as [Q _]; rewrite s_length in Q; exact Q).
  assert (Hlay : layers_ok mode (tnet_opts net) (tnet_network shape net)) by (apply (tnet_layers_ok n); assumption).
  pose proof (tnet_net_ok n net shape Hnet) as Hnok.
  destruct Hfree as [Em|Hfree].
  - destruct (net_clone ke D n mode final (batch_dom D n z b) (tnet_opts net) (tnet_network shape net) v o Hke Hn HD Hf (or_introl Em) Hnok Hv Hlay Ho) as (ts' & E' & V).
    { intros its i L ps vs _ _ _. apply nl_ibp_gaps. exact Em. }
    rewrite Et in E'. injection E'; intros <-. exact V.
  - destruct (net_clone_free ke D n mode final (batch_dom D n z b) (tnet_opts net) (tnet_network shape net) v o Hke Hn HD Hf Hne Hnok Hv Hlay Ho) as (ts' & E' & V).
    { intros i L ps E. unfold tnet_network in E. rewrite nth_error_map in E. destruct (nth_error net i) as [[q qs]|] eqn:En; [|discriminate E]. cbn in E. injection E; intros -> EL.
      destruct q as [L0|]; [|discriminate EL]. injection EL; intros <-. specialize (Hfree i L0 ps En). destruct L0; try contradiction Hfree; cbn; auto. }
    rewrite Et in E'. injection E'; intros <-. exact V.
Qed.
Lemma batch_ibp : forall ke D n net shape o B z v,
  0 < ke -> (0 < n)%nat -> norm_ok D -> tnet_ok n net shape -> tnet_ft net -> single_output (tnet_network shape net) o ->
  net_value (tnet_network shape net) v -> (0 < B)%nat -> nd_shape z = dom_shape D B n ->
  exists U L, t_clone_forward ke D IBP IBP net [o] z = Ok [U; L] /\ nd_shape U = B :: shape o /\ nd_shape L = B :: shape o /\
    forall b y j, (b < B)%nat -> in_dom D n (batch_dom D n z b) y -> (j < prodn (shape o))%nat ->
      nd_data L (b * prodn (shape o) + j) <= v o y j <= nd_data U (b * prodn (shape o) + j).
Proof.
  intros ke D n net shape o B z v Hke Hn HD Hnet Hft Ho Hv HB Ez.
  destruct (batch_valid ke D n IBP IBP net shape o B z v Hke Hn HD (fun _ => eq_refl) Hnet Hft Ho (or_introl eq_refl) Hv HB Ez) as (T & ET & HV).
  destruct (clone_rel ke D B 0 n IBP net shape HB Hn HD Hnet o Ho IBP z _ (fun _ => eq_refl) (batch_dom_sample D B 0 n z Ez)) as (T' & ts & ET' & _ & HS).
  rewrite ET in ET'. injection ET'; intros <-. unfold sample in HS. cbn [kinds] in HS.
  inversion HS as [|k1 U u1 ks1 T1 q1 H1 R1]; subst. inversion R1 as [|k2 L l1 ks2 T2 q2 H2 R2]; subst. inversion R2; subst.
  exists U, L. split; [exact ET|]. split; [exact (proj1 H1)|]. split; [exact (proj1 H2)|]. intros b y j Hb Hy Hj.
  destruct (HV b Hb (ex_intro _ y Hy)) as (ts & HS' & V). unfold sample in HS'. cbn [kinds] in HS'.
  inversion HS' as [|k3 U' u ks3 T3 q3 H3 R3]; subst. inversion R3 as [|k4 L' l ks4 T4 q4 H4 R4]; subst. inversion R4; subst.
  destruct V as [_ V]. specialize (V y j Hy Hj). destruct H3 as [_ H3]. destruct H4 as [_ H4]. rewrite (H3 j Hj), (H4 j Hj). exact V.
Qed.

(** ** example: input of dimension 2, Dense of 2 units, relu, Add of both; a batch of two boxes *)
Definition nd_of (s : list nat) (l : list R) : nd := mk_nd s (fun i => nth i l 0).
Definition demo_net : tnetwork :=
  [(None, []); (Some (TDense (nd_of [2%nat; 2%nat] [1; -1; 2; 1]) (Some (nd_of [2%nat] [0; 1]))), [0%nat]);
   (Some (TRelu V_SLOPE (Some (nd_of [2%nat] [1; 0]))), [1%nat]); (Some TAdd, [1%nat; 2%nat])].
Definition demo_shape (i : nat) : list nat := [2%nat].
Definition demo_batch : nd := nd_of [2%nat; 2%nat; 2%nat] [0; 0; 1; 1;  -1; 0; 0; 2].
Lemma demo_ok : tnet_ok 2 demo_net demo_shape /\ tnet_ft demo_net /\ single_output (tnet_network demo_shape demo_net) 3 /\ nd_shape demo_batch = dom_shape Box 2 2.
Proof.
  split; [|split; [|split; [|reflexivity]]].
  - intros i o ps E. destruct i as [|[|[|[|i]]]]; cbn in E; [| | | |destruct i; discriminate E]; injection E; intros <- <-.
    + split; [intros p []|]. split; reflexivity.
    + split; [intros p [<-|[]]; lia|]. split; [discriminate|]. exists [], 2%nat, 2%nat. repeat split; try lia. intros a Q. injection Q; intros <-. reflexivity.
    + split; [intros p [<-|[]]; lia|]. split; [discriminate|]. split; [reflexivity|]. intros a Q. injection Q; intros <-. reflexivity.
    + split; [intros p [<-|[<-|[]]]; lia|]. split; [discriminate|]. split; [reflexivity|]. intros t [<-|[]]. reflexivity.
  - intros i sl a ps E. destruct i as [|[|[|[|i]]]]; cbn in E; try discriminate E; [|destruct i; discriminate E]. injection E; intros _ <- _. intros j Hj. cbn in Hj.
    destruct j as [|[|j]]; [| |lia]; cbn; lra.
  - split; [cbn; lia|]. intros j Hj. cbn in Hj.
    assert (L3 : leads_to (map snd (tnet_network demo_shape demo_net)) 3 3) by apply leads_self.
    assert (L2 : leads_to (map snd (tnet_network demo_shape demo_net)) 3 2) by (apply (leads_step _ _ 2 3 [1%nat; 2%nat]); [reflexivity|right; left; reflexivity|exact L3]).
    assert (L1 : leads_to (map snd (tnet_network demo_shape demo_net)) 3 1) by (apply (leads_step _ _ 1 2 [1%nat]); [reflexivity|left; reflexivity|exact L2]).
    assert (L0 : leads_to (map snd (tnet_network demo_shape demo_net)) 3 0) by (apply (leads_step _ _ 0 1 [0%nat]); [reflexivity|left; reflexivity|exact L1]).
    destruct j as [|[|[|[|j]]]]; auto; lia.
Qed.
Lemma cons_eq : forall (a c : R) l l', a = c -> l = l' -> a :: l = c :: l'.
Proof. intros; subst; reflexivity. Qed.
Lemma demo_ibp : forall ke, exists U L, t_clone_forward ke Box IBP IBP demo_net [3%nat] demo_batch = Ok [U; L] /\
  map (nd_data U) (seq 0 4) = [6; 4; 8; 8] /\ map (nd_data L) (seq 0 4) = [0; 0; -1; 2].
Proof.
  intros ke. eexists _, _. split; [reflexivity|].
  split; lazy -[Rmax Rmin Rplus Rmult Rminus Ropp IZR Rlt Rle Rdiv Rinv]; repeat (apply cons_eq; [unfold Rmax, Rmin; repeat destruct Rle_dec; lra|]); reflexivity.
Qed.
