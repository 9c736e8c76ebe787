(** Proofs: rounding errors in interval mode with curved activations (C73). *)
From Coq Require Import Reals List Arith Bool ZArith Lia Lra Psatz FunctionalExtensionality.
From Verif Require Import RLib Spec Spec_Layers Spec_Backward Spec_Convert Spec_Near Spec_Rounding Spec_RoundingCurved M_Core M_Utils M_MergeLayers M_Ops M_Layers M_Pool M_Backward M_Crown M_Convert M_Network M_Rounding.
From Verif Require Import P_Core P_Utils P_Ops P_Layers P_SShape P_Act P_BackwardMore P_Graph P_Crown P_Convert P_Network P_NetworkSpec P_NetworkCrown P_NetworkForward P_NetworkThm P_Near P_NearThm P_Rounding P_Lipschitz P_RoundingThm.
From Verif Require Import Spec_Network.
Import ListNotations.
Local Open Scope R_scope.

(** ** Activations *)
Definition mono_lip (F : R -> R) : Prop := forall x y, x <= y -> 0 <= F y - F x <= y - x.
Lemma s_mono_lip : forall F F', s_shape F F' -> F' 0 <= 1 -> mono_lip F.
Proof.
  intros F F' HS H0 x y [Hxy|<-]; [|lra]. destruct (ss_mvt F F' HS x y Hxy) as (c & E & _). rewrite E.
  pose proof (ss_pos _ _ HS c) as P. assert (F' c <= 1).
  { destruct (Rtotal_order c 0) as [Q|[->|Q]]; [|exact H0|]; [pose proof (ss_neg _ _ HS c 0 Q ltac:(lra))|pose proof (ss_dec _ _ HS 0 c ltac:(lra) Q)]; lra. }
  split; nra.
Qed.
Lemma softplus_der : forall x, derivable_pt_lim softplus x (sigmoid x).
Proof.
  intros x. unfold softplus, sigmoid. pose proof (exp_pos x) as P.
  assert (E : / (1 + exp (- x)) = / (1 + exp x) * (0 + exp x)).
  { rewrite exp_Ropp. field. split; lra. }
  change (fun t => ln (1 + exp t)) with (comp ln (fun t => 1 + exp t)).
  assert (D : derivable_pt_lim (comp ln (fun t => 1 + exp t)) x (/ (1 + exp x) * (0 + exp x))).
  { apply derivable_pt_lim_comp.
    - apply (derivable_pt_lim_plus (fun _ => 1) exp); [apply derivable_pt_lim_const|apply derivable_pt_lim_exp].
    - apply derivable_pt_lim_ln. lra. }
  replace (1 / (1 + exp (- x))) with (/ (1 + exp (- x))) by (unfold Rdiv; ring). rewrite E. exact D.
Qed.
Lemma softplus_mono_lip : mono_lip softplus.
Proof.
  intros x y [Hxy|<-]; [|lra]. destruct (MVT_cor2 softplus sigmoid x y Hxy) as (c & E & _); [intros; apply softplus_der|]. rewrite E.
  pose proof (sigmoid_range c). split; nra.
Qed.
Lemma act_mono_lip : forall a, a <> Aexponential -> mono_lip (act_value a).
Proof.
  intros a Ha. destruct a; try contradiction.
  - intros x y H. cbn. lra.
  - intros x y H. cbn. rcases.
  - apply (s_mono_lip _ _ sigmoid_s). unfold sigmoid_prime. rewrite sigmoid_0. lra.
  - apply (s_mono_lip _ _ tanh_s). rewrite tanh_prime_sigmoid. unfold sigmoid_prime. rewrite Rmult_0_r, sigmoid_0. lra.
  - apply (s_mono_lip _ _ softsign_s). unfold softsign_prime. rewrite Rabs_R0. lra.
  - exact softplus_mono_lip.
Qed.

(** ** Layers in interval mode *)
Lemma act_dec : forall a b : activation, {a = b} + {a <> b}.
Proof. decide equality. Qed.
Lemma act_ibp : forall ke D n o a m u l, a <> Alinear -> a <> Arelu -> 
  decomon_activation ke (mk_spec false IBP D n) o a m [u; l] = Ok [ew (act_value a) u; ew (act_value a) l].
Proof. intros ke D n o a m u l H1 H2. destruct a; try contradiction; reflexivity. Qed.

Lemma layer_ibp_near : forall ke D n (S : vec -> Prop) o L e gs tss g, 0 < ke -> (0 < n)%nat -> norm_ok D ->
  nl_lipschitz L -> nl_ok IBP (lo_fast o) L -> ft_ok (nl_out L) (lo_ft o) -> 0 <= e ->
  Forall2 (fun mg ts => near D IBP S n (fst mg) e (snd mg) ts) (combine (nl_in L) gs) tss -> length gs = length (nl_in L) ->
  (forall z, computes L (map (fun h => h z) gs) (g z)) ->
  exists out, decomon_layer ke (mk_spec false IBP D n) o L (concat tss) = Ok out /\ near D IBP S n (nl_out L) (Rmax 1 (nl_gain L) * (e + ke)) g out.
Proof.
  intros ke D n S o L e gs tss g Hke Hn HD Hlip Hok Hft He HF Hl HC.
  assert (G : nl_piecewise L -> exists out, decomon_layer ke (mk_spec false IBP D n) o L (concat tss) = Ok out /\ near D IBP S n (nl_out L) (Rmax 1 (nl_gain L) * (e + ke)) g out).
  { intros Hpw. apply (layer_near ke (mk_spec false IBP D n) S o L e gs tss g); auto; exact I. }
  destruct L; try (apply G; exact Hlip). cbn [nl_lipschitz nl_in nl_out nl_gain decomon_layer] in *.
  destruct (act_dec a Alinear) as [->|N1]; [apply G; left; reflexivity|]. destruct (act_dec a Arelu) as [->|N2]; [apply G; right; reflexivity|]. clear G.
  destruct (one_near (mk_spec false IBP D n) S m e gs tss HF Hl) as (f & ts & -> & E & V). rewrite E in *. cbn [map computes] in HC.
  unfold near_sp in V. cbn in V. destruct ts as [|u [|l [|]]]; try contradiction V. rewrite act_ibp by assumption. eexists. split; [reflexivity|]. cbn [near].
  assert (Eg : nl_gain (NActivation a m) = 1) by (destruct a; try contradiction; reflexivity). cbn [nl_gain] in Eg. rewrite Eg, Rmax_left by lra.
  intros z j Hz Hj. rewrite (HC z j Hj). specialize (V z j Hz Hj). unfold ew. pose proof (act_mono_lip a Hlip) as ML.
  split.
  - destruct (Rle_dec (l 0%nat j) (f z j)) as [Q|Q]; [pose proof (ML _ _ Q)|pose proof (ML (f z j) (l 0%nat j) ltac:(lra))]; lra.
  - destruct (Rle_dec (f z j) (u 0%nat j)) as [Q|Q]; [pose proof (ML _ _ Q)|pose proof (ML (u 0%nat j) (f z j) ltac:(lra))]; lra.
Qed.

Lemma layer_lip_curved : forall mode fast L e xs ys r r', nl_lipschitz L -> nl_ok mode fast L -> 0 <= e ->
  length xs = length (nl_in L) -> length ys = length (nl_in L) ->
  (forall t d x y, nth_error (nl_in L) t = Some d -> nth_error xs t = Some x -> nth_error ys t = Some y -> vclose d e x y) ->
  computes L xs r -> computes L ys r' -> vclose (nl_out L) (Rmax 1 (nl_gain L) * e) r r'.
Proof.
  intros mode fast L e xs ys r r' Hlip Hok He Hx Hy H Hr Hr'.
  assert (G : nl_piecewise L -> vclose (nl_out L) (Rmax 1 (nl_gain L) * e) r r') by (intros Hpw; apply (layer_lip mode fast L e xs ys); auto).
  destruct L; try (apply G; exact Hlip). clear G. cbn [nl_in nl_out] in *.
  destruct xs as [|x [|]]; try discriminate Hx. destruct ys as [|y [|]]; try discriminate Hy. pose proof (H 0%nat m x y eq_refl eq_refl eq_refl) as C. cbn [computes] in Hr, Hr'.
  intros j Hj. rewrite (Hr j Hj), (Hr' j Hj). specialize (C j Hj). eapply Rle_trans; [|apply gain_one; exact He]. cbn [nl_lipschitz] in Hlip. pose proof (act_mono_lip a Hlip) as ML.
  apply Rabs_both in C. apply Rabs_le2. destruct (Rle_dec (x j) (y j)) as [Q|Q]; [pose proof (ML _ _ Q)|pose proof (ML (y j) (x j) ltac:(lra))]; lra.
Qed.

(** ** Networks *)
Lemma ibp_run_near : forall ke D n z opts net v o d r,
  0 < ke -> (0 < n)%nat -> norm_ok D -> net_ok n net -> net_value net v -> layers_ok IBP opts net ->
  (forall i L ps, nth_error net i = Some (Some L, ps) -> nl_lipschitz L) -> 0 <= d -> rounded_run ke D n IBP IBP opts net o z d r ->
  forall i, (i < length net)%nat ->
    near D IBP (in_dom D n z) n (net_dim n net i) (slack_from 1 (firstn (Datatypes.S i) net) * (ke + d)) (v i) (r_nodes r i).
Proof.
  intros ke D n z opts net v o d r Hke Hn HD Hnet Hval Hlay Hlip Hd (Hin & Hrun & _).
  assert (Vin : near D IBP (in_dom D n z) n n d (fun y => y) (r_inputs r)).
  { destruct (input_tensors_ok D IBP n z Hn (fun _ => HD)) as (its & Ei & Vi). apply valid_near in Vi.
    pose proof (near_close D IBP (in_dom D n z) n n 0 d 0 _ its (r_inputs r) Hd ltac:(lra) ltac:(intros Q; contradiction) Vi (Hin its Ei)) as Q.
    eapply near_weaken; [| |exact Q]; [cbn; lra|reflexivity]. }
  intros i. induction i as [i IH] using lt_wf_ind. intros Hi.
  destruct (nth_error net i) as [[q ps]|] eqn:En; [|apply nth_error_None in En; lia].
  destruct (Hnet i q ps En) as [Hp Ho]. specialize (Hrun i q ps En). rewrite (firstn_S _ _ _ _ En), slack_from_step. cbn [fst]. unfold net_dim at 1. rewrite En.
  pose proof (slack_from_pos 1 (firstn i net) ltac:(lra)) as Hpos. destruct q as [L|].
  - destruct Ho as [Hps Hdim]. destruct (Hlay i L ps En) as [Hok Hft].
    destruct (layer_ibp_near ke D n (in_dom D n z) (opts i) L (slack_from 1 (firstn i net) * (ke + d)) (map v ps) (map (r_nodes r) ps) (v i) Hke Hn HD (Hlip i L ps En) Hok Hft) as (out & Eo & Vo).
    + nra.
    + rewrite <- Hdim, combine_map. apply Forall2_map_map. intros p Q. cbn [fst snd]. specialize (IH p (Hp p Q) ltac:(specialize (Hp p Q); lia)).
      eapply near_weaken; [| |exact IH]; [|reflexivity]. apply Rmult_le_compat_r; [lra|]. apply slack_from_firstn; [lra|]. specialize (Hp p Q). lia.
    + rewrite <- Hdim, !map_length. reflexivity.
    + intros y. rewrite map_map. exact (Hval y i (Some L) ps En).
    + pose proof (near_close D IBP _ n (nl_out L) _ d 0 _ out (r_nodes r i) Hd ltac:(lra) ltac:(intros Q; contradiction) Vo (Hrun out Eo)) as V.
      eapply near_weaken; [| |exact V]; [|reflexivity]. cbn [reach]. pose proof (Rmax_l 1 (nl_gain L)) as G1. nra.
  - subst ps. rewrite Hrun. apply (near_weaken D IBP _ n n d _ (fun y => y)); [nra| |exact Vin].
    intros y j _ _. symmetry. exact (Hval y i None [] En j).
Qed.

Lemma ibp_no_epsilon_curved : forall ke ke' D n o L ts, nl_lipschitz L ->
  decomon_layer ke (mk_spec false IBP D n) o L ts = decomon_layer ke' (mk_spec false IBP D n) o L ts.
Proof.
  intros ke ke' D n o L ts H. destruct L; try (apply ibp_no_epsilon; exact H). cbn [nl_lipschitz] in H.
  destruct (act_dec a Alinear) as [->|N1]; [reflexivity|]. destruct (act_dec a Arelu) as [->|N2]; [apply ibp_no_epsilon; cbn; auto|]. destruct a; try contradiction; reflexivity.
Qed.

Lemma rounded_ibp_curved : forall ke D n z opts net v o d r,
  (0 < n)%nat -> norm_ok D -> net_ok n net -> net_value net v -> layers_ok IBP opts net -> (o < length net)%nat ->
  (forall i L ps, nth_error net i = Some (Some L, ps) -> nl_lipschitz L) ->
  0 <= d -> rounded_run ke D n IBP IBP opts net o z d r ->
  exists u l, r_out r = [u; l] /\ forall y j, in_dom D n z y -> (j < net_dim n net o)%nat ->
    l 0%nat j - (net_error net + 1) * d <= v o y j <= u 0%nat j + (net_error net + 1) * d.
Proof.
  intros ke D n z opts net v o d r Hn HD Hnet Hval Hlay Ho Hlip Hd Hrun.
  assert (G : forall e, 0 < e -> exists u l, r_out r = [u; l] /\ forall y j, in_dom D n z y -> (j < net_dim n net o)%nat ->
    l 0%nat j - (net_error net + 1) * (e + d) <= v o y j <= u 0%nat j + (net_error net + 1) * (e + d)).
  { intros e He.
    assert (Hrun' : rounded_run e D n IBP IBP opts net o z d r).
    { destruct Hrun as (H1 & H2 & H3). split; [exact H1|split; [|exact H3]]. intros i q ps En. specialize (H2 i q ps En). destruct q as [L|]; [|exact H2].
      intros out E. apply H2. rewrite (ibp_no_epsilon_curved ke e); [exact E|]. eapply Hlip. exact En. }
    pose proof (ibp_run_near e D n z opts net v o d r He Hn HD Hnet Hval Hlay Hlip Hd Hrun' o Ho) as V.
    destruct (convert2mode_near D n IBP IBP _ _ _ _ (r_nodes r o) Hn I (fun _ => eq_refl) V) as (out & Eo & Vo).
    pose proof (near_close D IBP _ n _ _ d 0 _ out (r_out r) Hd ltac:(lra) ltac:(intros Q; contradiction) Vo (proj2 (proj2 Hrun') out Eo)) as V'.
    destruct (r_out r) as [|u [|l [|]]]; try contradiction. exists u, l. split; [reflexivity|]. intros y j Hy Hj. specialize (V' y j Hy Hj). cbn [reach] in V'.
    pose proof (slack_from_all 1 net (Datatypes.S o) ltac:(lra) Ho) as Q. change (slack_from 1 net) with (net_error net) in Q.
    assert (slack_from 1 (firstn (Datatypes.S o) net) * (e + d) <= net_error net * (e + d)) by (apply Rmult_le_compat_r; lra). lra. }
  destruct (G 1 ltac:(lra)) as (u & l & E & _). exists u, l. split; [exact E|]. intros y j Hy Hj. pose proof (net_error_pos net) as Hp.
  assert (Q : forall e, 0 < e -> l 0%nat j - (net_error net + 1) * d <= v o y j + e /\ v o y j <= u 0%nat j + (net_error net + 1) * d + e).
  { intros e He. assert (He' : 0 < e / (net_error net + 1)) by (apply Rdiv_lt_0_compat; lra).
    destruct (G _ He') as (u' & l' & E' & B). rewrite E in E'. injection E' as <- <-. specialize (B y j Hy Hj).
    assert (F : (net_error net + 1) * (e / (net_error net + 1) + d) = (net_error net + 1) * d + e) by (field; lra). rewrite F in B. lra. }
  split; apply le_epsilon; intros e He; apply (Q e He).
Qed.

(** the network evaluated with an error d at each layer *)
Lemma rounded_values_curved : forall n net v y a d, net_ok n net -> net_value net v ->
  (forall i L ps, nth_error net i = Some (Some L, ps) -> nl_lipschitz L /\ exists mode fast, nl_ok mode fast L) -> 0 <= d -> rounded_values net d y a ->
  forall i, (i < length net)%nat -> vclose (net_dim n net i) (net_slack (firstn (Datatypes.S i) net) * d) (a i) (v i y).
Proof.
  intros n net v y a d Hnet Hval Hlay Hd Ha i. induction i as [i IH] using lt_wf_ind. intros Hi.
  destruct (nth_error net i) as [[q ps]|] eqn:En; [|apply nth_error_None in En; lia].
  destruct (Hnet i q ps En) as [Hp Ho]. specialize (Ha i q ps En). specialize (Hval y i q ps En). rewrite (firstn_S _ _ _ _ En), slack_step. cbn [fst]. unfold net_dim at 1. rewrite En.
  pose proof (slack_pos (firstn i net)) as Hpos. destruct q as [L|].
  - destruct Ho as [Hps Hdim]. destruct (Hlay i L ps En) as [Hlip (m & fast & Hok)]. destruct Ha as (r & Cr & Hr).
    assert (Hlen : length ps = length (nl_in L)) by (rewrite <- Hdim, map_length; reflexivity).
    assert (Q : vclose (nl_out L) (Rmax 1 (nl_gain L) * (net_slack (firstn i net) * d)) r (v i y)).
    { apply (layer_lip_curved m fast L _ (map a ps) (map (fun p => v p y) ps)); auto; try (rewrite map_length; exact Hlen); [nra|].
      intros t d' x x' E1 E2 E3. rewrite <- Hdim in E1. rewrite nth_error_map in E1, E2, E3. destruct (nth_error ps t) as [p|] eqn:Et; [|discriminate]. cbn in E1, E2, E3.
      injection E1 as <-. injection E2 as <-. injection E3 as <-. assert (Hpi : (p < i)%nat) by (apply Hp; eapply nth_error_In; exact Et).
      specialize (IH p Hpi ltac:(lia)). intros j Hj. eapply Rle_trans; [apply IH; exact Hj|]. apply Rmult_le_compat_r; [exact Hd|]. apply slack_firstn. lia. }
    intros j Hj. specialize (Q j Hj). specialize (Hr j Hj). apply Rabs_both in Q. apply Rabs_both in Hr. pose proof (Rmax_l 1 (nl_gain L)). apply Rabs_le2. nra.
  - intros j _. rewrite Ha, Hval. rewrite Rminus_diag_eq, Rabs_R0 by reflexivity. nra.
Qed.

Lemma slack_error : forall net, net_slack net <= net_error net.
Proof.
  intros net. change (slack_from 0 net <= slack_from 1 net). induction net as [|nod net IH] using rev_ind; [unfold slack_from; cbn; lra|]. rewrite !slack_from_step. destruct (fst nod) as [L|]; [|exact IH].
  pose proof (Rmax_l 1 (nl_gain L)). nra.
Qed.

Lemma interval_decision : forall ke D n z opts net v o d d' r u l j k,
  (0 < n)%nat -> norm_ok D -> net_ok n net -> net_value net v -> layers_ok IBP opts net -> (o < length net)%nat ->
  (forall i L ps, nth_error net i = Some (Some L, ps) -> nl_lipschitz L) ->
  0 <= d -> 0 <= d' -> rounded_run ke D n IBP IBP opts net o z d r ->
  r_out r = [u; l] -> (j < net_dim n net o)%nat -> (k < net_dim n net o)%nat ->
  2 * (net_error net + 1) * (d + d') < l 0%nat j - u 0%nat k ->
  forall y, in_dom D n z y -> v o y k < v o y j /\ forall a, rounded_values net d' y a -> a o k < a o j.
Proof.
  intros ke D n z opts net v o d d' r u l j k Hn HD Hnet Hval Hlay Ho Hlip Hd Hd' Hrun Er Hj Hk Hm y Hy.
  destruct (rounded_ibp_curved ke D n z opts net v o d r Hn HD Hnet Hval Hlay Ho Hlip Hd Hrun) as (u' & l' & E & B). rewrite Er in E. injection E as <- <-.
  pose proof (B y j Hy Hj). pose proof (B y k Hy Hk). pose proof (net_error_pos net) as P. assert (0 <= (net_error net + 1) * d') by nra. split; [lra|].
  intros a Ha. assert (HL : forall i L ps, nth_error net i = Some (Some L, ps) -> nl_lipschitz L /\ exists mode fast, nl_ok mode fast L).
  { intros i L ps En. split; [apply (Hlip i L ps En)|]. exists IBP, (lo_fast (opts i)). apply (Hlay i L ps En). }
  pose proof (rounded_values_curved n net v y a d' Hnet Hval HL Hd' Ha o Ho) as Q. pose proof (Q j Hj) as Qj. pose proof (Q k Hk) as Qk. apply Rabs_both in Qj. apply Rabs_both in Qk.
  pose proof (slack_firstn net (Datatypes.S o) (length net) ltac:(lia)) as K. rewrite firstn_all in K. pose proof (slack_error net).
  assert (net_slack (firstn (Datatypes.S o) net) * d' <= (net_error net + 1) * d') by (apply Rmult_le_compat_r; lra). lra.
Qed.

(** the calls on real numbers are a run *)
Lemma ibp_eval_near : forall ke D n opts net v (S : vec -> Prop) its, 0 < ke -> (0 < n)%nat -> norm_ok D ->
  net_ok n net -> net_value net v -> layers_ok IBP opts net -> (forall i L ps, nth_error net i = Some (Some L, ps) -> nl_lipschitz L) ->
  near D IBP S n n 0 (fun y => y) its ->
  exists vs, evaluates (decomon_net ke (mk_spec false IBP D n) opts net) no_map its vs /\
    forall i, (i < length net)%nat -> near D IBP S n (net_dim n net i) (net_slack (firstn (Datatypes.S i) net) * ke) (v i) (vs i).
Proof.
  intros ke D n opts net v S its Hke Hn HD Hnet Hval Hlay Hlip Hits. set (sp := mk_spec false IBP D n). set (g := decomon_net ke sp opts net).
  assert (Hacy : acyclic (parents_of g)) by (unfold g; rewrite net_parents by exact Hn; exact (net_acyclic sp net Hnet)).
  destruct (evaluates_build tensor g no_map its (fun i ts => near D IBP S n (net_dim n net i) (net_slack (firstn (Datatypes.S i) net) * ke) (v i) ts)) as (vs & Hev & Hs);
    [apply topo_acyclic; exact Hacy| |exists vs; split; [exact Hev|]; intros i Hi; apply Hs; unfold g; rewrite net_length by exact Hn; exact Hi].
  intros i nod vs En Hev IH. unfold no_map. destruct (net_node_inv ke sp opts net Hn i nod En) as (o & ps & Ei & ->). destruct (Hnet i o ps Ei) as [Hp Ho].
  cbn [fn_parents fn_kind]. unfold node_out. cbn [fn_kind]. rewrite (firstn_S _ _ _ _ Ei), slack_step. cbn [fst]. pose proof (slack_pos (firstn i net)) as Hpos. destruct o as [L|].
  - destruct Ho as [Hps Hdim]. destruct (Hlay i L ps Ei) as [Hok Hft].
    destruct (layer_ibp_near ke D n S (opts i) L (net_slack (firstn i net) * ke) (map v ps) (map vs ps) (v i) Hke Hn HD (Hlip i L ps Ei) Hok Hft) as (out & Eo & Vo).
    + nra.
    + rewrite <- Hdim, combine_map. apply Forall2_map_map. intros p Q. cbn [fst snd]. specialize (IH p (Hp p Q)).
      eapply near_weaken; [| |exact IH]; [|reflexivity]. apply Rmult_le_compat_r; [lra|]. apply slack_firstn. specialize (Hp p Q). lia.
    + rewrite <- Hdim, !map_length. reflexivity.
    + intros y. rewrite map_map. exact (Hval y i (Some L) ps Ei).
    + exists out. split; [destruct ps; [contradiction|exact Eo]|]. unfold net_dim. rewrite Ei. eapply near_weaken; [| |exact Vo]; [|reflexivity]. lra.
  - subst ps. exists its. split; [reflexivity|]. unfold net_dim. rewrite Ei. apply (near_weaken D IBP S n n 0 _ (fun y => y)); [nra| |exact Hits].
    intros y j _ _. symmetry. exact (Hval y i None [] Ei j).
Qed.

Lemma exact_run_curved : forall ke D n z opts net v o d,
  0 < ke -> (0 < n)%nat -> norm_ok D -> net_ok n net -> net_value net v -> layers_ok IBP opts net -> single_output net o ->
  (forall i L ps, nth_error net i = Some (Some L, ps) -> nl_lipschitz L) -> 0 <= d ->
  exists r, clone_forward D n IBP IBP (decomon_net ke (mk_spec false IBP D n) opts net) [o] z = Ok (r_out r) /\
    rounded_run ke D n IBP IBP opts net o z d r.
Proof.
  intros ke D n z opts net v o d Hke Hn HD Hnet Hval Hlay Ho Hlip Hd. set (sp := mk_spec false IBP D n).
  destruct (input_tensors_ok D IBP n z Hn (fun _ => HD)) as (its & Ei & Vi). apply valid_near in Vi.
  destruct (ibp_eval_near ke D n opts net v (in_dom D n z) its Hke Hn HD Hnet Hval Hlay Hlip Vi) as (vs & Hev & Hs).
  destruct (convert2mode_near D n IBP IBP _ _ _ _ (vs o) Hn I (fun _ => eq_refl) (Hs o (proj1 Ho))) as (out & Eo & Vo).
  exists (mk_run its vs out). cbn [r_out]. split.
  { unfold clone_forward. rewrite Ei. cbn [bind]. change (fun _ : nat => None) with (@no_map tensor).
    rewrite (single_eval ke sp opts net its vs o Hn Hnet Ho Hev). exact Eo. }
  split; [|split]; cbn [r_inputs r_nodes r_out].
  - intros its' E. rewrite Ei in E. injection E as <-. eapply close_refl; eauto.
  - intros i q ps En. pose proof (Hev i _ (net_node ke sp opts net Hn i q ps En)) as E. unfold no_map in E. cbn [fn_parents] in E. unfold node_out in E. cbn [fn_kind] in E.
    destruct (Hnet i q ps En) as [_ Hq]. destruct q as [L|].
    + intros out' E'. destruct Hq as [Hps _]. destruct ps as [|p ps]; [contradiction|]. unfold sp in E. rewrite E' in E. injection E as ->.
      assert (Hi : (i < length net)%nat) by (apply nth_error_Some; congruence). specialize (Hs i Hi). unfold net_dim in Hs. rewrite En in Hs. eapply close_refl; eauto.
    + subst ps. injection E as <-. reflexivity.
  - intros out' E. rewrite Eo in E. injection E as <-. eapply close_refl; eauto.
Qed.

(** ** Dense, sigmoid, Dense, tanh of any size *)
Definition curved_net (n h k : nat) (k1 : mat) (b1 : vec) (k2 : mat) (b2 : vec) : network :=
  [(None, []); (Some (NDense 1 n h k1 (Some b1)), [0%nat]); (Some (NActivation Asigmoid h), [1%nat]); (Some (NDense 1 h k k2 (Some b2)), [2%nat]); (Some (NActivation Atanh k), [3%nat])].

Lemma curved_rounded : forall ke D n h k k1 b1 k2 b2 z d, 0 < ke -> (0 < n)%nat -> (0 < h)%nat -> (0 < k)%nat -> norm_ok D -> 0 <= d ->
  let net := curved_net n h k k1 b1 k2 b2 in let opts := fun _ => mk_opts V_SLOPE None false in
  net_ok n net /\ net_value net (net_fn net) /\ layers_ok IBP opts net /\ (forall i L ps, nth_error net i = Some (Some L, ps) -> nl_lipschitz L) /\
  exists r, clone_forward D n IBP IBP (decomon_net ke (mk_spec false IBP D n) opts net) [4%nat] z = Ok (r_out r) /\ rounded_run ke D n IBP IBP opts net 4 z d r.
Proof.
  intros ke D n h k k1 b1 k2 b2 z d Hke Hn Hh Hk HD Hd net opts.
  assert (HL : layers_ok IBP opts net) by (intros i L ps E; unfold net, curved_net in E; each_node E; cbn; auto).
  assert (HN : net_ok n net).
  { intros i o ps E. unfold net, curved_net in E. each_node E; (split; [intros p Hp; cbn in Hp; lia|]); try reflexivity;
    (split; [discriminate|]); cbn [map net_dim net curved_net nth_error nl_out nl_in]; f_equal; lia. }
  assert (HV : net_value net (net_fn net)).
  { apply (net_value_exists n); [exact HN|]. intros i L ps E. exists IBP, false. exact (proj1 (HL i L ps E)). }
  assert (HP : forall i L ps, nth_error net i = Some (Some L, ps) -> nl_lipschitz L) by (intros i L ps E; unfold net, curved_net in E; each_node E; cbn; auto; discriminate).
  split; [exact HN|]. split; [exact HV|]. split; [exact HL|]. split; [exact HP|].
  apply (exact_run_curved ke D n z opts net (net_fn net) 4 d); auto.
  split; [cbn; lia|]. intros j Hj. cbn in Hj.
  destruct j as [|[|[|[|[|]]]]]; [step 1%nat; step 2%nat; step 3%nat; step 4%nat; constructor|step 2%nat; step 3%nat; step 4%nat; constructor|step 3%nat; step 4%nat; constructor|step 4%nat; constructor|constructor|lia].
Qed.
