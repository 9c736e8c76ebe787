(** set_domain on the conversion of a piecewise affine network, up to an error fixed by the weights (C72) *)
From Coq Require Import String Reals List Arith Bool ZArith Lra Lia Psatz Permutation.
From Verif Require Import RLib Spec Spec_Domain Spec_Layers Spec_Backward Spec_Convert Spec_Near Spec_Network Spec_Wrapper M_Core M_State M_Utils M_MergeLayers M_Ops M_Layers M_Pool M_Backward M_Crown M_Convert M_Network M_Domain M_Wrapper M_Clone.
From Verif Require Import P_Core P_CoreThm P_Merge P_Utils P_MergeLayers P_Axis P_Ops P_Act P_OpsThm P_Layers P_Move P_Pool P_Backward P_Crown P_BackwardThm P_Graph P_Convert P_ConvertThm P_MetricsAdv P_Network P_NetworkSpec P_NetworkCrown P_NetworkThm P_StateDomain P_NetworkForward.
From Verif Require Import P_Near P_NearCrown P_Domain P_Wrapper P_WrapperNoise P_Clone P_CloneThm P_DomainClone P_DomainThm P_CloneNear P_CloneNearThm.
From Verif Require Import Spec_Network.
Import ListNotations.
Local Open Scope R_scope.

(** ** the two domains *)
Lemma near_inside : forall Da Ds mode (S : vec -> Prop) n m e f ts, inside Da Ds n -> near Da mode S n m e f ts -> near Ds mode S n m e f ts.
Proof.
  intros Da Ds mode S n m e f ts HI H. destruct mode.
  - exact H.
  - destruct ts as [|x [|wu [|bu [|wl [|bl [|]]]]]]; try contradiction. destruct H as [H1 H2]. split; [intros z Hz; apply HI; apply H1; exact Hz|exact H2].
  - destruct ts as [|x [|u [|wu [|bu [|l [|wl [|bl [|]]]]]]]]; try contradiction. destruct H as [H1 H2]. split; [intros z Hz; apply HI; apply H1; exact Hz|exact H2].
Qed.
Lemma near_head : forall Da mode (S : vec -> Prop) n m e f ts, near Da mode S n m e f ts ->
  mode <> IBP -> forall z, S z -> in_dom Da n (nth 0 ts empty_tensor) z.
Proof.
  intros Da mode S n m e f ts H Hm. destruct mode; [contradiction| |].
  - destruct ts as [|x [|wu [|bu [|wl [|bl [|]]]]]]; try contradiction. apply H.
  - destruct ts as [|x [|u [|wu [|bu [|l [|wl [|bl [|]]]]]]]]; try contradiction. apply H.
Qed.
Lemma near_back : forall Da Ds mode (S : vec -> Prop) n m e f ts, near Ds mode S n m e f ts ->
  (mode <> IBP -> forall z, S z -> in_dom Da n (nth 0 ts empty_tensor) z) -> near Da mode S n m e f ts.
Proof.
  intros Da Ds mode S n m e f ts H HI. destruct mode.
  - exact H.
  - destruct ts as [|x [|wu [|bu [|wl [|bl [|]]]]]]; try contradiction. destruct H as [_ H2]. split; [|exact H2]. apply HI. discriminate.
  - destruct ts as [|x [|u [|wu [|bu [|l [|wl [|bl [|]]]]]]]]; try contradiction. destruct H as [_ H2]. split; [|exact H2]. apply HI. discriminate.
Qed.

Lemma blocks_near_inside : forall Da Ds mode n (S : vec -> Prop) e (mgs : list (nat * (vec -> vec))) tss, inside Da Ds n ->
  Forall2 (fun mg ts => near_sp (mk_spec false mode Da n) S (fst mg) e (snd mg) ts) mgs tss ->
  Forall2 (fun mg ts => near_sp (mk_spec false mode Ds n) S (fst mg) e (snd mg) ts) mgs tss.
Proof. intros Da Ds mode n S e mgs tss HI HF. induction HF as [|mg ts q q' V HF IH]; constructor; [exact (near_inside Da Ds mode S n _ e _ _ HI V)|exact IH]. Qed.
Lemma blocks_near_length : forall sp (S : vec -> Prop) e (mgs : list (nat * (vec -> vec))) tss,
  Forall2 (fun mg ts => near_sp sp S (fst mg) e (snd mg) ts) mgs tss -> forall l, In l tss -> length l = nb_tensors (sp_mode sp) false.
Proof.
  intros sp S e mgs tss HF. induction HF as [|mg ts q q' V HF IH]; intros l Hl; [contradiction|].
  destruct Hl as [<-|Hl]; [|exact (IH l Hl)]. rewrite nb_tensors_spec. exact (near_length _ _ _ _ _ _ _ _ V).
Qed.
Lemma blocks_near_head : forall Da mode n (S : vec -> Prop) e (mgs : list (nat * (vec -> vec))) tss, mgs <> [] -> mode <> IBP ->
  Forall2 (fun mg ts => near_sp (mk_spec false mode Da n) S (fst mg) e (snd mg) ts) mgs tss ->
  forall z, S z -> in_dom Da n (nth 0 (concat tss) empty_tensor) z.
Proof.
  intros Da mode n S e mgs tss Hne Hm HF z Hz. destruct HF as [|mg ts q q' V HF]; [contradiction|]. cbn [concat].
  pose proof (near_head Da mode S n _ e _ ts V Hm z Hz) as H. destruct ts as [|t ts]; [|exact H].
  pose proof (near_length _ _ _ _ _ _ _ _ V) as Q. cbn in Q. destruct mode; discriminate Q.
Qed.

(** ** pooling reads both domains *)
Lemma pool_domains_near : forall ke mode n Da Ds g fl (S : vec -> Prop) e f ts, 0 < ke -> (0 < n)%nat -> dom_ok Da mode -> dom_ok Ds mode -> inside Da Ds n ->
  let sa := mk_spec false mode Da n in let ss := mk_spec false mode Ds n in
  0 <= e -> pool_ok g -> pool_init (wn_k (cg_y g)) (wn_k (cg_x g)) = Ok fl -> near_sp sa S (im_size (cg_in g)) e f ts ->
  exists out, pool_not_fast_domains ke sa ss g fl ts = Ok out /\ near_sp sa S (im_size (cg_out g)) (6 ^ pool_p g * (e + ke)) (fun z => max_pool g (f z)) out.
Proof.
  intros ke mode n Da Ds g fl S e f ts Hke Hn Hda Hds HI sa ss He Hg Hfl Hv.
  assert (Hsize : prodn (pool_shape g ++ [pool_p g]) = (im_size (cg_out g) * pool_p g)%nat) by (cbn; unfold im_size; lia).
  assert (Ffl : forall a b p, (a < wn_k (cg_y g))%nat -> (b < wn_k (cg_x g))%nat -> fl a b p = if Nat.eqb p (filter_index (wn_k (cg_y g)) a b) then 1 else 0).
  { destruct (pool_init_ok (wn_k (cg_y g)) (wn_k (cg_x g))) as (fl' & E' & P').
    - destruct Hg as (_ & _ & _ & _ & ? & [-> | ->]); lia.
    - rewrite Hfl in E'. injection E'; intros ->. auto. }
  destruct (move_near ss S Hn Hds eq_refl (im_size (cg_in g)) (prodn (pool_shape g ++ [pool_p g])) e f (pool_idx g) (pool_conv g fl) (pool_conv g fl) ts) as (r & Er & V); [| | |exact (near_inside Da Ds mode S n _ e f ts HI Hv)|].
  - intros q Hq. rewrite Hsize in Hq. apply pool_idx_lt; auto.
  - intros t q Hq. rewrite Hsize in Hq. apply pool_conv_at; auto.
  - intros t i q _ Hq. rewrite Hsize in Hq. apply pool_conv_at; auto.
  - assert (Va : near_sp sa S (prodn (pool_shape g ++ [pool_p g])) e (fun z q => f z (pool_idx g q)) (extract mode false (move_full ss (pool_conv g fl) (pool_conv g fl) r))).
    { apply (near_back Da Ds); [exact V|]. intros Hm z Hz. cbn [sp_mode sp_dc sa] in *. rewrite extract_x by exact Hm. cbn [move_full f_x].
      rewrite (full_x ss false true ts r Hm Er). exact (near_head Da mode S n _ e f ts Hv Hm z Hz). }
    unfold pool_not_fast_domains. rewrite Er. cbn [bind]. cbv zeta.
    assert (HP : (0 < wn_k (cg_y g))%nat -> (0 < pool_p g)%nat) by (destruct Hg as (_ & _ & _ & _ & ? & _); unfold pool_p; nia).
    assert (Hky : (0 < wn_k (cg_y g))%nat) by (destruct Hg as (_ & _ & _ & _ & ? & [-> | ->]); lia).
    destruct (op_max_near ke sa S Hke Hn Hda eq_refl (pool_shape g) (pool_p g) [] (-1)%Z None e (fun z q => f z (pool_idx g q)) (fun z => max_pool g (f z))
       (extract mode false (move_full ss (pool_conv g fl) (pool_conv g fl) r))) as (out & Eo & Vo); auto.
    + right. split; auto.
    + intros z p q Ip Iq. inversion Iq; subst. rewrite !app_nil_r.
      pose proof (ravel_lt _ _ Ip) as Lp.
      assert (Hj : (ravel (pool_shape g) p < im_size (cg_out g))%nat) by (cbn [pool_shape prodn] in Lp; unfold im_size; lia).
      assert (Ex : forall c, ravel (pool_shape g ++ [pool_p g]) (p ++ [c]) = (ravel (pool_shape g) p * pool_p g + c)%nat).
      { intros c. rewrite ravel_app by auto. cbn [ravel prodn]. lia. }
      rewrite (max_pool_rmax g (f z) _ (pool_p g) (fun c => pool_idx g (ravel (pool_shape g) p * pool_p g + c))); auto.
      * apply rmax_ext; auto. all: intros c Hc; rewrite Ex; auto.
      * intros i. rewrite pool_px_in. split.
        -- intros (ky & kx & K1 & K2 & Es). destruct (pool_src g _ ky kx Hg Hj K1 K2) as [Es' _]. rewrite Es' in Es. injection Es; intros <-.
           exists (ky * wn_k (cg_x g) + kx)%nat. split; auto. unfold pool_p. nia.
        -- intros (c & Hc & <-). assert (Hkx : wn_k (cg_x g) <> 0%nat) by (destruct Hg as (_ & _ & _ & _ & ? & _); lia).
           pose proof (Nat.div_mod c (wn_k (cg_x g)) Hkx) as E'. pose proof (Nat.mod_upper_bound c (wn_k (cg_x g)) Hkx) as L'.
           assert (Ly : (c / wn_k (cg_x g) < wn_k (cg_y g))%nat) by (apply Nat.div_lt_upper_bound; auto; unfold pool_p in Hc; lia).
           exists (c / wn_k (cg_x g))%nat, (c mod wn_k (cg_x g))%nat. repeat split; auto.
           destruct (pool_src g _ _ _ Hg Hj Ly L') as [Es' _]. rewrite Es'. f_equal. f_equal. lia.
    + exact I.
    + exists out. split; [exact Eo|]. rewrite app_nil_r in Vo. replace (prodn (pool_shape g)) with (im_size (cg_out g)) in Vo by (cbn; unfold im_size; lia). exact Vo.
Qed.

Lemma layer_domains_near : forall ke mode n Da Ds o L, 0 < ke -> (0 < n)%nat -> dom_ok Da mode -> dom_ok Ds mode -> inside Da Ds n ->
  nl_piecewise L -> nl_ok mode (lo_fast o) L -> ft_ok (nl_out L) (lo_ft o) ->
  let sa := mk_spec false mode Da n in let ss := mk_spec false mode Ds n in
  forall (S : vec -> Prop) e gs tss g, 0 <= e ->
    Forall2 (fun mg ts => near_sp sa S (fst mg) e (snd mg) ts) (combine (nl_in L) gs) tss -> length gs = length (nl_in L) ->
    (forall z, computes L (map (fun h => h z) gs) (g z)) ->
    exists out, layer_domains ke sa ss o L (concat tss) = Ok out /\ near_sp sa S (nl_out L) (Rmax 1 (nl_gain L) * (e + ke)) g out.
Proof.
  intros ke mode n Da Ds o L Hke Hn Hda Hds HI Hpw Hok Hft sa ss S e gs tss g He HF Hl HC.
  assert (Spec : reads_spec o L = true -> exists out, decomon_layer ke ss o L (concat tss) = Ok out /\ near_sp sa S (nl_out L) (Rmax 1 (nl_gain L) * (e + ke)) g out).
  { intros Hr. destruct (layer_near ke ss S o L e gs tss g Hke Hn Hds eq_refl Hpw Hok Hft He (blocks_near_inside Da Ds mode n S e _ _ HI HF) Hl HC) as (out & Eo & Vo).
    exists out. split; [exact Eo|]. apply (near_back Da Ds); [exact Vo|]. intros Hm z Hz.
    rewrite (spec_head ke ss o L tss out Hm eq_refl Hds Hr (blocks_near_length sa S e _ _ HF) Eo).
    apply (blocks_near_head Da mode n S e (combine (nl_in L) gs) tss); auto.
    pose proof (nl_in_some mode _ L Hok) as Q. destruct (nl_in L); [contradiction|]. destruct gs; [discriminate Hl|]. discriminate. }
  assert (Attr : exists out, decomon_layer ke sa o L (concat tss) = Ok out /\ near_sp sa S (nl_out L) (Rmax 1 (nl_gain L) * (e + ke)) g out).
  { exact (layer_near ke sa S o L e gs tss g Hke Hn Hda eq_refl Hpw Hok Hft He HF Hl HC). }
  destruct L; cbn [layer_domains]; try (apply Spec; reflexivity); try exact Attr.
  - pose proof (conv_both mode n Da Ds Hda Hds g0 kernel bias (concat tss)) as E. fold sa ss in E. rewrite E. apply Spec. reflexivity.
  - unfold max_pooling_domains. destruct (lo_fast o) eqn:Ef.
    + assert (E : (fl <- pool_init (wn_k (cg_y g0)) (wn_k (cg_x g0)) ; pool_fast ss g0 (concat tss)) = decomon_layer ke ss o (NMaxPool g0) (concat tss))
        by (cbn [decomon_layer]; unfold decomon_max_pooling; rewrite Ef; reflexivity).
      rewrite E. apply Spec. exact Ef.
    + clear Spec Attr. cbn [nl_ok nl_in nl_out nl_gain] in *. destruct (one_near _ _ _ _ _ _ HF Hl) as (f & ts & -> & E & V). rewrite E in *. cbn in HC. destruct Hok as [Hc Hok].
      apply (near_ext sa S (im_size (cg_out g0)) (6 ^ pool_p g0 * (e + ke)) _ (fun z => max_pool g0 (f z)) g); [apply gain_le; assumption|intros z j Hj; symmetry; apply HC; exact Hj|].
      assert (Hp : pool_ok g0) by (unfold pool_ok; intuition).
      destruct (pool_init_ok (wn_k (cg_y g0)) (wn_k (cg_x g0))) as (fl & Efl & _).
      { destruct Hp as (_ & _ & _ & _ & ? & [-> | ->]); lia. }
      rewrite Efl. cbn [bind]. apply pool_domains_near; auto.
  - contradiction Hpw.
Qed.

(** ** networks *)
Section InsideNear.
Variables (ke : R) (Da Ds : domain) (mode final : fmode) (fwd : nat -> lopts) (bwd : nat -> bopts) (n : nat) (net : network) (v : nat -> vec -> vec) (o : nat) (z : tensor).
Hypothesis Hke : 0 < ke.
Hypothesis Hn : (0 < n)%nat.
Hypothesis ND : norm_ok Ds.
Hypothesis ND' : norm_ok Da.
Hypothesis HI : inside Da Ds n.
Hypothesis Hnet : net_ok n net.
Hypothesis Hval : net_value net v.
Hypothesis Ho : single_output net o.
Hypothesis Hpw : all_piecewise net.
Let sa := mk_spec false mode Da n.
Let ss := mk_spec false mode Ds n.

Lemma near_final : forall q e f ts, (mode = IBP -> final = IBP) -> near Da mode (in_dom Da n z) n q e f ts ->
  exists out, convert2mode Ds n mode final ts = Ok out /\ near Da final (in_dom Da n z) n q e f out.
Proof.
  intros q e f ts Hmf V. assert (Hd : dom_ok Ds mode) by (destruct mode; cbn; auto).
  destruct (convert2mode_near Ds n mode final (in_dom Da n z) q e f ts Hn Hd Hmf (near_inside Da Ds mode _ n _ _ _ ts HI V)) as (out & Eo & Vo).
  exists out. split; [exact Eo|]. apply (near_back Da Ds); [exact Vo|]. intros Hf y Hy.
  assert (Hm : mode <> IBP) by (intros Q; apply Hf; exact (Hmf Q)).
  rewrite (convert_head Ds n mode final ts out Hm Hf Eo). exact (near_head Da mode _ n _ _ _ ts V Hm y Hy).
Qed.

Section Forward.
Hypothesis Hlay : layers_ok mode fwd net.
Let call := fun i L => layer_domains ke sa ss (fwd i) L.

Lemma eval_inside_near : forall its, near Da mode (in_dom Da n z) n n 0 (fun y => y) its ->
  exists vs, evaluates (net_domains ke sa ss fwd net) no_map its vs /\
    forall i, (i < length net)%nat -> near Da mode (in_dom Da n z) n (net_dim n net i) (node_err ke net i) (v i) (vs i).
Proof.
  intros its Hits. assert (Hd : dom_ok Ds mode) by (destruct mode; cbn; auto). assert (Hd' : dom_ok Da mode) by (destruct mode; cbn; auto).
  set (g := net_domains ke sa ss fwd net). assert (Hlen : length g = length net) by (apply (gnet_length call net)).
  assert (Hacy : acyclic (parents_of g)) by (pose proof (gnet_parents call net) as Q; change (parents_of g = map snd net) in Q; rewrite Q; apply (gnet_acyclic n net Hnet)).
  destruct (evaluates_build tensor g no_map its (fun i ts => near Da mode (in_dom Da n z) n (net_dim n net i) (node_err ke net i) (v i) ts)) as (vs & Hev & Hs);
    [apply topo_acyclic; exact Hacy| |exists vs; split; [exact Hev|]; intros i Hi; apply Hs; rewrite Hlen; exact Hi].
  intros i nod vs En Hev IH. unfold no_map. destruct (gnet_node_inv call net i nod En) as (q & ps & Ei & ->). destruct (Hnet i q ps Ei) as [Hp Hq].
  cbn [fn_parents fn_kind]. unfold node_out, node_err. cbn [fn_kind]. rewrite (firstn_S _ _ _ _ Ei), slack_step. cbn [fst]. pose proof (slack_pos (firstn i net)) as Hpos. destruct q as [L|].
  - destruct Hq as [Hps Hdim]. destruct (Hlay i L ps Ei) as [Hok Hft].
    destruct (layer_domains_near ke mode n Da Ds (fwd i) L Hke Hn Hd' Hd HI (Hpw i L ps Ei) Hok Hft (in_dom Da n z) (net_slack (firstn i net) * ke) (map v ps) (map vs ps) (v i)) as (out & Eo & Vo).
    + nra.
    + rewrite <- Hdim, combine_map. apply Forall2_map_map. intros p Q. cbn. specialize (IH p (Hp p Q)).
      eapply near_weaken; [| |exact IH]; [|reflexivity]. apply Rmult_le_compat_r; [lra|]. apply slack_firstn. specialize (Hp p Q). lia.
    + rewrite <- Hdim, !map_length. reflexivity.
    + intros y. rewrite map_map. exact (Hval y i (Some L) ps Ei).
    + exists out. split; [destruct ps; [contradiction|exact Eo]|]. unfold net_dim. rewrite Ei. eapply near_weaken; [| |exact Vo]; [|reflexivity]. lra.
  - subst ps. exists its. split; [reflexivity|]. unfold net_dim. rewrite Ei. apply (near_weaken Da mode _ n n 0 _ (fun y => y)); [nra| |exact Hits].
    intros y j _ _. symmetry. exact (Hval y i None [] Ei j).
Qed.

Lemma nodes_inside_near : forall its, near Da mode (in_dom Da n z) n n 0 (fun y => y) its -> exists om,
  convert_nodes (net_domains ke sa ss fwd net) no_map its = Ok om /\ output_nodes (net_domains ke sa ss fwd net) [o] = Ok [o] /\
  convert_forward (net_domains ke sa ss fwd net) [o] no_map its = (match om o with Some ts => Ok ts | None => Err KeyError end) /\
  forall i, (i < length net)%nat -> exists ts, om i = Some ts /\ near Da mode (in_dom Da n z) n (net_dim n net i) (node_err ke net i) (v i) ts.
Proof.
  intros its Hits. destruct (eval_inside_near its Hits) as (vs & He & Hs).
  set (h := net_domains ke sa ss fwd net) in *.
  assert (Hlen : length h = length net) by (apply (gnet_length call net)). assert (Hph : parents_of h = map snd net) by (apply (gnet_parents call net)).
  assert (Hacy : acyclic (map snd net)) by (apply (gnet_acyclic n net Hnet)).
  assert (Hah : acyclic (parents_of h)) by (rewrite Hph; exact Hacy). pose proof (topo_acyclic _ h Hah) as Ht.
  assert (Hsrc : forall i nod, nth_error h i = Some nod -> fn_parents nod = [] -> fn_kind nod = KInput).
  { intros i nod En Ep. destruct (gnet_node_inv call net i nod En) as (q & ps & E & ->). destruct q as [L|]; [|reflexivity]. destruct (Hnet i (Some L) ps E) as [_ [Q _]]. contradiction. }
  assert (Hno : forall i, @no_map tensor i <> None -> (i < length h)%nat) by (intros i Q; exfalso; apply Q; reflexivity).
  destruct (convert_nodes_eval tensor h no_map its vs) as (om & Eom & Hom); auto.
  assert (Eo : output_nodes h [o] = Ok [o]).
  { destruct Ho as [Ho1 Hall]. destruct (longest_path_exists _ Hacy) as [lv Hlv].
    assert (Hdp : deepest (parents_of h) lv o).
    { rewrite Hph. apply ancestors_deepest; [exact Hlv|rewrite map_length; exact Ho1|]. rewrite map_length. exact Hall. }
    assert (Hf : filter (deepestb h lv) [o] = [o]) by (cbn; rewrite (deepest_b _ h lv o Hdp); reflexivity). rewrite <- Hf at 2.
    apply output_nodes_ok; auto.
    + rewrite Hph. exact Hlv.
    + apply (gnet_unshared call net).
    + intros Q. rewrite Q in Hlen. cbn in Hlen. lia.
    + intros o' [<-|[]]. rewrite Hlen. exact Ho1. }
  exists om. split; [exact Eom|]. split; [exact Eo|]. split.
  - assert (Ho' : (o < length h)%nat) by (rewrite Hlen; apply Ho). rewrite (Hom o Ho').
    rewrite (convert_forward_eval tensor h no_map its vs [o] [o]); auto; [cbn; rewrite app_nil_r; reflexivity|]. intros o' [<-|[]]. exact Ho'.
  - intros i Hi. exists (vs i). split; [apply Hom; rewrite Hlen; exact Hi|apply Hs; exact Hi].
Qed.

Lemma slack_all : node_err ke net o <= net_slack net * ke.
Proof. unfold node_err. apply Rmult_le_compat_r; [lra|]. rewrite <- (firstn_all net) at 2. apply slack_firstn. destruct Ho. lia. Qed.

Lemma forward_inside_near : (mode = IBP -> final = IBP) ->
  exists ts, forward_domains ke Da Ds mode final fwd n net o z = Ok ts /\ near Da final (in_dom Da n z) n (net_dim n net o) (net_slack net * ke) (v o) ts.
Proof.
  intros Hmf. destruct (inside_input Da Ds mode n z Hn ND HI) as (its & Ei & Vi). unfold forward_domains. rewrite Ei. cbn [bind]. fold sa ss.
  destruct (nodes_inside_near its (valid_near _ _ _ _ _ _ _ Vi)) as (om & _ & _ & E & Hs). change (fun _ : nat => None) with (@no_map tensor). rewrite E.
  destruct (Hs o (proj1 Ho)) as (ts & -> & V). cbn [bind]. apply (near_final _ _ _ ts Hmf).
  eapply near_weaken; [exact slack_all| |exact V]. reflexivity.
Qed.
End Forward.

Hypothesis Hblay : blayers_ok bwd net.
Hypothesis Hm : mode <> IBP.

Lemma crown_inside_near : forall its om, valid Da mode false (in_dom Da n z) n n (fun y => y) its ->
  (forall i ts, (i < length net)%nat -> om i = Some ts -> near Da mode (in_dom Da n z) n (net_dim n net i) (node_err ke net i) (v i) ts) ->
  let g := backward_net ke sa bwd n net in
  exists ts, output_nodes (bshape (seq 0 (length net)) g) [o] = Ok [o] /\ crown_model mode Da n g [o] None om its = Ok [ts] /\
    near Da mode (in_dom Da n z) n (net_dim n net o) (net_slack net * ke) (v o) ts.
Proof.
  intros its om Vi Hom g. pose proof Ho as [Ho1 Hall].
  assert (Hdok : dom_ok Da mode) by (destruct mode; cbn; auto).
  assert (Hacy : acyclic (map snd net)) by (apply (gnet_acyclic n net Hnet)).
  destruct (longest_path_exists _ Hacy) as [lv Hlv]. pose proof (bnet_parents ke sa bwd net) as Hpar. cbn [sp_n sa] in Hpar. fold g in Hpar.
  pose proof (bnet_length ke sa bwd net) as Hlen. cbn [sp_n sa] in Hlen. fold g in Hlen.
  assert (Hdp : deepest (map snd net) lv o).
  { apply ancestors_deepest; [exact Hlv|rewrite map_length; exact Ho1|]. rewrite map_length. exact Hall. }
  assert (Hids : length (seq 0 (length net)) = length g) by (rewrite seq_length; auto).
  assert (Hol : (o < length g)%nat) by (rewrite Hlen; exact Ho1).
  destruct (nth_error g o) as [[L ps]|] eqn:Eg; [|apply nth_error_None in Eg; lia].
  destruct (crown_model_near sa (in_dom Da n z) its om g (net_fn net) (bfs net) (node_err ke net)) with (o := o) (L := L) (ps := ps) as (ts & E & V); auto.
  - intros Q. destruct (Hm Q).
  - apply (bnet_wf ke sa bwd net Hnet Hblay).
  - apply (bnet_no_merge ke sa bwd net Hnet Hblay).
  - apply (bnet_models ke sa bwd net).
  - apply (bfs_value ke sa bwd net Hnet Hblay).
  - apply (bfs_near ke sa bwd net Hke Hn Hdok eq_refl Hnet Hblay Hpw).
  - intros i L' ps' ts En Ets. destruct (bnet_node_inv ke sa bwd net i L' ps' En) as (q & En' & ->).
    assert (Hi : (i < length net)%nat) by (apply nth_error_Some; rewrite En'; discriminate).
    pose proof (blayer_out ke sa bwd net i q ps' En') as Q. cbn [sp_n sa] in Q. rewrite Q.
    eapply near_weaken; [| |exact (Hom i ts Hi Ets)]; [apply Rle_refl|].
    intros y j _ Hj. symmetry. apply (bnet_agree sa bwd net v Hnet Hblay Hval y i Hi j Hj).
  - exists ts. split; [|split; [exact E|]].
    + rewrite (output_nodes_ok (bshape (seq 0 (length net)) g)) with (lv := lv).
      * cbn [filter]. rewrite deepest_b; [reflexivity|]. rewrite bshape_parents by exact Hids. rewrite Hpar. exact Hdp.
      * apply topo_acyclic. rewrite bshape_parents by exact Hids. rewrite Hpar. exact Hacy.
      * rewrite bshape_parents by exact Hids. rewrite Hpar. exact Hlv.
      * unfold unshared. rewrite bshape_ids by exact Hids. apply seq_NoDup.
      * intros Q. apply (f_equal (@length _)) in Q. rewrite bshape_length in Q by exact Hids. cbn in Q. lia.
      * intros o' [<-|[]]. rewrite bshape_length by exact Hids. exact Hol.
    + destruct (bnet_node_inv ke sa bwd net o L ps Eg) as (q & En & ->).
      pose proof (blayer_out ke sa bwd net o q ps En) as Q. cbn [sp_n sa] in Q. rewrite Q in V.
      eapply near_weaken; [exact slack_all| |exact V].
      intros y j _ Hj. apply (bnet_agree sa bwd net v Hnet Hblay Hval y o Ho1 j Hj).
Qed.

Lemma backward_inside_near : forall before, (before = true -> layers_ok mode fwd net) ->
  exists ts, backward_domains ke Da Ds before mode final fwd bwd n net o z = Ok ts /\ near Da final (in_dom Da n z) n (net_dim n net o) (net_slack net * ke) (v o) ts.
Proof.
  intros before HF. destruct (inside_input Da Ds mode n z Hn ND HI) as (its & Ei & Vi). unfold backward_domains. cbv zeta. fold sa ss. rewrite Ei. cbn [bind].
  change (fun _ : nat => None) with (@no_map tensor).
  assert (K : exists om, (if before then om <- convert_nodes (net_domains ke sa ss fwd net) no_map its ; _ <- output_nodes (net_domains ke sa ss fwd net) [o] ; Ok om else Ok no_map) = Ok om /\
     forall i ts, (i < length net)%nat -> om i = Some ts -> near Da mode (in_dom Da n z) n (net_dim n net i) (node_err ke net i) (v i) ts).
  { destruct before.
    - destruct (nodes_inside_near (HF eq_refl) its (valid_near _ _ _ _ _ _ _ Vi)) as (om & E1 & E2 & _ & Hs). exists om. rewrite E1, E2. split; [reflexivity|].
      intros i ts Hi Et. destruct (Hs i Hi) as (ts' & Et' & V). rewrite Et in Et'. injection Et' as <-. exact V.
    - exists no_map. split; [reflexivity|]. intros i ts _ Q. discriminate Q. }
  destruct K as (om & E1 & Hom). match goal with |- context [bind ?x] => change x with (if before then om <- convert_nodes (net_domains ke sa ss fwd net) no_map its ; _ <- output_nodes (net_domains ke sa ss fwd net) [o] ; Ok om else Ok no_map) end. rewrite E1. cbn [bind].
  destruct (crown_inside_near its om Vi Hom) as (ts & E3 & E4 & V).
  rewrite E3. cbn [bind]. rewrite E4. cbn [bind concat]. rewrite app_nil_r.
  destruct (near_final _ _ _ ts (fun Q => match Hm Q with end) V) as (out & Eo & Vo). rewrite Eo. cbn [bind].
  replace (mode_eqb mode IBP) with false by (destruct mode; [contradiction|reflexivity|reflexivity]). rewrite andb_false_r. eauto.
Qed.
End InsideNear.

Lemma changed_near_gen : forall ke Da Ds m mode final fwd bwd n net o v z,
  0 < ke -> (0 < n)%nat -> norm_ok Ds -> norm_ok Da -> inside Da Ds n -> same_type Da Ds = true -> net_ok n net -> net_value net v -> single_output net o ->
  clone_fits Ds m mode final fwd bwd net -> all_piecewise net ->
  exists ts, converted_domains ke Da Ds m mode final fwd bwd n net o z = Ok ts /\ near Da final (in_dom Da n z) n (net_dim n net o) (net_slack net * ke) (v o) ts.
Proof.
  intros ke Da Ds m mode final fwd bwd n net o v z Hke Hn ND ND' HI T Hnet Hv Ho Hf Hpw.
  destruct (get_direction m) eqn:Ed.
  - assert (K : (mode = IBP -> final = IBP) /\ layers_ok mode fwd net) by (destruct m; try discriminate Ed; cbn [clone_fits] in *; tauto).
    destruct K as (K1 & K2). unfold converted_domains. rewrite Ed. apply forward_inside_near; auto.
  - destruct (mode_eqb mode IBP) eqn:Em.
    + assert (mode = IBP) by (destruct mode; try discriminate Em; reflexivity). subst mode.
      assert (Ds = Box) by (destruct m; try discriminate Ed; apply Hf; reflexivity). subst Ds. destruct Da; [|discriminate T]. rewrite domains_same.
      apply converted_near; auto.
    + assert (Hm : mode <> IBP) by (intros ->; discriminate Em).
      unfold converted_domains. rewrite Ed. destruct m; try discriminate Ed; cbn [clone_fits] in *.
      * destruct Hf as [_ HB]. apply backward_inside_near; auto. discriminate.
      * destruct Hf as (_ & HB & HF). apply backward_inside_near; auto.
      * destruct Hf as (_ & HB & HF). apply backward_inside_near; auto.
      * destruct Hf as (_ & HB & HF). apply backward_inside_near; auto.
Qed.

Theorem changed_near : forall ke a n out net o v Ds c m meth mode fi fa z,
  net_facts ke n out net o v -> clone_flags (ca_method a) (ca_ibp a) (ca_affine a) = Ok (meth, mode, (fi, fa)) -> final_some fi fa ->
  clone ke a n out net o = Ok c -> wset_domains Ds c = Ok m ->
  norm_ok (args_domain a) -> norm_ok (wm_domain m) -> inside (wm_domain m) (args_domain a) n ->
  clone_fits (args_domain a) meth mode (get_mode fi fa) (ca_fwd a) (ca_bwd a) net -> all_piecewise net ->
  exists ts, wmode m = Some (get_mode fi fa) /\ wm_predict m (wm_domain m) z None = Ok ts /\
    near (wm_domain m) (get_mode fi fa) (in_dom (wm_domain m) n z) n (prodn out) (net_slack net * ke) (v o) ts.
Proof.
  intros ke a n out net o v Ds c m meth mode fi fa z (Hke & Hn & Hnet & Hv & Ho & Hout) Hfl Hfs Hc Hm ND ND' HI Hf Hpw.
  destruct (changed_near_gen ke (wm_domain m) (args_domain a) meth mode (get_mode fi fa) (ca_fwd a) (ca_bwd a) n net o v z Hke Hn ND ND' HI
    (changed_type ke a n out net o Ds c m meth mode fi fa Hfl Hc Hm) Hnet Hv Ho Hf Hpw) as (ts & E & V).
  exists ts. destruct (changed_fields ke a n out net o Ds c m meth mode fi fa Hfl Hc Hm) as (F1 & F2 & _).
  split; [unfold wmode; rewrite F1, F2; exact (final_mode fi fa Hfs)|]. split; [rewrite (changed_predict ke a n out net o Ds c m meth mode fi fa Hfl Hc Hm z None); exact E|].
  rewrite Hout. exact V.
Qed.

(** ** get_range_noise on a DecomonModel whose domain is a larger ball *)
Lemma range_near : forall n k D p eps c mode e f ts j u l, near D mode (in_ball n p eps c) n k e f ts -> (j < k)%nat -> is_range mode n p eps c ts j u l ->
  forall y, in_ball n p eps c y -> l - e <= f y j <= u + e.
Proof.
  intros n k D p eps c mode e f ts j u l V Hj H y Hy. destruct mode; cbn [is_range] in H.
  - destruct ts as [|tu [|tl [|]]]; try contradiction. destruct H as [-> ->]. exact (V y j Hy Hj).
  - destruct ts as [|t0 [|wu [|bu [|wl [|bl [|]]]]]]; try contradiction. destruct H as [[A _] [B _]]. destruct V as [_ V]. specialize (A y Hy). specialize (B y Hy). cbn beta in A, B. specialize (V y j Hy Hj). lra.
  - destruct ts as [|t0 [|tu [|wu [|bu [|tl [|wl [|bl [|]]]]]]]]; try contradiction. destruct H as (a' & b' & [A _] & [B _] & -> & ->). destruct V as (_ & VC & V). specialize (A y Hy). specialize (B y Hy). cbn beta in A, B.
    specialize (V y j Hy Hj). specialize (VC y j Hy Hj). unfold Rmax, Rmin. split; destruct Rle_dec; lra.
Qed.

Theorem noise_smaller_near : forall ke a n out net o v x eps0 eps p bs,
  net_facts ke n out net o v -> 0 <= eps <= eps0 -> known_norm p -> points_ok n x -> clone_set (Ball eps0 p) a net ->
  exists c u l, clone ke a n out net o = Ok c /\ get_range_noise (Decomon c) x eps p bs = Ok (u, l) /\ alen u = alen x /\ alen l = alen x /\
    forall b j y, (b < alen x)%nat -> (j < prodn out)%nat -> in_ball n p eps (lvec (point x b)) y ->
      cell l b j - net_slack net * ke <= v o y j <= cell u b j + net_slack net * ke.
Proof.
  intros ke a n out net o v x eps0 eps p bs NF [He Hle] Hp PO (m & mode & fi & fa & HD & Hfl & Hfs & Hfit & Hpw).
  destruct (noise_clone ke a n out net o eps0 p m mode fi fa eps p HD Hfl He) as (c & E & TD & En & Eo & Es). exists c.
  set (c' := with_domain (Decomon c) (Ball eps p)) in *.
  assert (Ek : wm_k c' = prodn out) by (unfold wm_k, c'; cbn [with_domain wm_out]; rewrite Eo; reflexivity).
  assert (En' : wm_n c' = n) by exact En.
  assert (OU : forall b, exists mode ts, outputs c' (point x b) mode ts /\ near (Ball eps p) mode (in_ball n p eps (lvec (point x b))) (wm_n c') (wm_k c') (net_slack net * ke) (v o) ts).
  { intros b. destruct (changed_near ke a n out net o v [Ball eps p] c c' m mode fi fa (xtensor (point x b)) NF Hfl Hfs E Es) as (ts & Em & Ep & V);
      unfold c' in *; cbn [with_domain wm_domain wm_n] in *; rewrite ?HD, ?En; auto using ball_norm, ball_inside.
    exists (get_mode fi fa), ts. split; [|unfold wm_k; cbn [with_domain wm_out]; rewrite Eo; exact V]. split; [exact Em|]. split; [exact Ep|]. exists false. exact (near_length _ _ _ _ _ _ _ _ V). }
  destruct (range_noise_exact (Decomon c) x eps p bs He Hp TD) as (u & l & Eu & Tu & Tl & Lu & Ll & H); fold c'.
  { rewrite En'. exact PO. }
  { intros b _. destruct (OU b) as (md & ts & O & _). eauto. }
  exists u, l. split; [exact E|]. split; [exact Eu|]. split; [exact Lu|]. split; [exact Ll|].
  intros b j y Hb Hj Hy. destruct (OU b) as (md & ts & O & V). fold c' in H. specialize (H b j md ts Hb ltac:(rewrite Ek; exact Hj) O).
  rewrite En' in *. try rewrite Ek in V. exact (range_near n (prodn out) (Ball eps p) p eps _ md _ (v o) ts j _ _ V Hj H y Hy).
Qed.

(** affine mode: every radius, every ball of the conversion *)
Theorem noise_affine_near : forall ke a n out net o v x eps0 p0 eps p bs meth,
  net_facts ke n out net o v -> 0 <= eps -> known_norm p -> points_ok n x ->
  clone_flags (ca_method a) (ca_ibp a) (ca_affine a) = Ok (meth, AFFINE, (false, true)) -> slow_pools (ca_fwd a) net -> args_domain a = Ball eps0 p0 ->
  clone_fits (Ball eps p) meth AFFINE AFFINE (ca_fwd a) (ca_bwd a) net -> all_piecewise net ->
  exists c u l, clone ke a n out net o = Ok c /\ get_range_noise (Decomon c) x eps p bs = Ok (u, l) /\ alen u = alen x /\ alen l = alen x /\
    forall b j y, (b < alen x)%nat -> (j < prodn out)%nat -> in_ball n p eps (lvec (point x b)) y ->
      cell l b j - net_slack net * ke <= v o y j <= cell u b j + net_slack net * ke.
Proof.
  intros ke a n out net o v x eps0 p0 eps p bs meth NF He Hp PO Hfl Hs HD Hfit Hpw.
  destruct (noise_clone ke a n out net o eps0 p0 meth AFFINE false true eps p HD Hfl He) as (c & E & TD & En & Eo & Es). exists c.
  set (c' := with_domain (Decomon c) (Ball eps p)) in *.
  destruct (changed_affine ke a n out net o [Ball eps p] c c' meth Hfl Hs E Es) as (c2 & E' & Ed & Eq).
  change (wm_domain c') with (Ball eps p) in *.
  assert (Ek : wm_k c' = prodn out) by (unfold wm_k, c'; cbn [with_domain wm_out]; rewrite Eo; reflexivity).
  assert (En' : wm_n c' = n) by exact En.
  assert (OU : forall b, exists mode ts, outputs c' (point x b) mode ts /\ near (Ball eps p) mode (in_ball n p eps (lvec (point x b))) (wm_n c') (wm_k c') (net_slack net * ke) (v o) ts).
  { intros b. destruct (clone_near ke (on_domain a (Ball eps p)) n out net o v (Ball eps p) NF (ball_norm eps p Hp)) as (c3 & E3 & Ed3 & Eb3 & En3 & Eo3 & H3).
    { exists meth, AFFINE, false, true. split; [reflexivity|]. split; [exact Hfl|]. split; [reflexivity|]. split; [exact Hfit|exact Hpw]. }
    rewrite E' in E3. injection E3 as <-. destruct (H3 (xtensor (point x b))) as (md & ts & M & P & V).
    pose proof (clone_value ke (on_domain a (Ball eps p)) n out net o meth AFFINE false true Hfl) as CV. rewrite E' in CV. injection CV as CV.
    assert (md = AFFINE) by (rewrite CV in M; cbn in M; congruence). subst md.
    destruct (changed_fields ke a n out net o [Ball eps p] c c' meth AFFINE false true Hfl E Es) as (F1 & F2 & _).
    exists AFFINE, ts. split.
    - split; [unfold wmode; rewrite F1, F2; reflexivity|]. split; [change (wm_domain c') with (Ball eps p); rewrite Eq; exact P|]. exists false. exact (near_length _ _ _ _ _ _ _ _ V).
    - unfold wm_k in V. rewrite En3, Eo3 in V. rewrite En', Ek. exact V. }
  destruct (range_noise_exact (Decomon c) x eps p bs He Hp TD) as (u & l & Eu & Tu & Tl & Lu & Ll & H); fold c'.
  { rewrite En'. exact PO. }
  { intros b _. destruct (OU b) as (md & ts & O & _). eauto. }
  exists u, l. split; [exact E|]. split; [exact Eu|]. split; [exact Lu|]. split; [exact Ll|].
  intros b j y Hb Hj Hy. destruct (OU b) as (md & ts & O & V). fold c' in H. specialize (H b j md ts Hb ltac:(rewrite Ek; exact Hj) O).
  rewrite En' in *. try rewrite Ek in V. exact (range_near n (prodn out) (Ball eps p) p eps _ md _ (v o) ts j _ _ V Hj H y Hy).
Qed.

(** two layers with a relu between, the default call of get_range_noise on the Keras model, then another radius *)
Lemma ex_mlp_smaller : forall ke h k k1 b1 k2 b2 eps0 p, 0 < ke -> (0 < h)%nat -> (0 < k)%nat -> 0 <= eps0 -> let net := mlp_net 2 h k k1 b1 k2 b2 in
  net_facts ke 2 [k] net 3 (net_fn net) /\ points_ok 2 two_points /\ clone_set (Ball eps0 p) (noise_call eps0 p) net.
Proof.
  intros ke h k k1 b1 k2 b2 eps0 p Hke Hh Hk He net. destruct (mlp_facts ke 2 h k k1 b1 k2 b2 Hke ltac:(lia) Hh Hk) as (F1 & F2 & F3 & F4).
  split; [exact F1|]. split; [exact two_points_ok|]. apply noise_set; assumption.
Qed.
(** the same in affine mode, with an arbitrary new radius *)
Lemma ex_mlp_affine : forall ke h k k1 b1 k2 b2 eps p, 0 < ke -> (0 < h)%nat -> (0 < k)%nat -> 0 <= eps -> let net := mlp_net 2 h k k1 b1 k2 b2 in let a := affine_args (Ball 1 Pinf) in
  net_facts ke 2 [k] net 3 (net_fn net) /\ clone_flags (ca_method a) (ca_ibp a) (ca_affine a) = Ok (CROWN_FORWARD_AFFINE, AFFINE, (false, true)) /\ slow_pools (ca_fwd a) net /\
  clone_fits (Ball eps p) CROWN_FORWARD_AFFINE AFFINE AFFINE (ca_fwd a) (ca_bwd a) net /\ all_piecewise net.
Proof.
  intros ke h k k1 b1 k2 b2 eps p Hke Hh Hk He net a. destruct (mlp_facts ke 2 h k k1 b1 k2 b2 Hke ltac:(lia) Hh Hk) as (F1 & F2 & F3 & F4).
  split; [exact F1|]. split; [reflexivity|]. split; [|split; [|exact F4]].
  - intros i g ps E. reflexivity.
  - split; [discriminate|]. split; [exact F2|]. intros i L ps E. pose proof (F3 i L ps E) as Q. destruct i as [|[|[|[|i]]]]; cbn in E; try discriminate E; [| | |destruct i; discriminate E]; injection E as <- <-; exact Q.
Qed.
