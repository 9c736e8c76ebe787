(** Networks of affine layers: the backward pass returns the exact map, hence the exact extrema of the network. *)
From Coq Require Import Reals List Arith Bool ZArith Lra Lia.
From Verif Require Import RLib Spec Spec_Layers Spec_Backward Spec_Convert M_Core M_Utils M_MergeLayers M_Ops M_Layers M_Pool M_Backward M_Crown M_Convert
  P_Core P_CoreThm P_Merge P_Utils P_MergeLayers P_Axis P_Ops P_Act P_SShape P_OpsThm P_Layers P_Move P_Pool P_Backward P_BackwardOps P_BackwardMore P_Crown P_BackwardThm
  P_Graph P_Convert P_ConvertThm Spec_Network M_Network P_Network P_NetworkSpec P_MetricsAdv P_NetworkCrown.
Import ListNotations.
Local Open Scope R_scope.

Lemma is_map_ext : forall n k (f f' : vec -> vec) B, (forall y j, (j < k)%nat -> f y j = f' y j) -> is_map n k f B -> is_map n k f' B.
Proof. intros n k f f' B E H y j Hj. rewrite <- E by exact Hj. exact (H y j Hj). Qed.

Lemma bl_exact : forall ke sp o L, bl_ok L -> bl_free L ->
  exists B, (forall ts, backward_call ke sp o L ts = Ok B) /\ is_map (nth 0 (nl_in L) O) (nl_out L) (fun y => layer_fn L [y]) B.
Proof.
  intros ke sp o L Hok Hf. destruct L; cbn [bl_ok] in Hok; try contradiction; cbn [nl_in nl_out nth backward_call].
  - eexists. split; [reflexivity|]. intros y j Hj. pose proof (dense_map rows d units kernel bias Hok y j Hj) as [E1 E2].
    unfold layer_fn, arg. cbn [nth]. rewrite E1, E2. destruct bias; split; reflexivity.
  - destruct Hok as [Hk Hl]. destruct (conv_last_map g kernel bias Hl Hk) as (B & EB & HB). exists B. split; [intros; exact EB|].
    intros y j Hj. pose proof (HB y j Hj) as [E1 E2]. unfold layer_fn, arg. cbn [nth]. rewrite E1, E2. destruct bias; split; reflexivity.
  - destruct Hok as [Hv Ha]. eexists. split; [reflexivity|]. apply bn_map; [exact Hv|]. intros y p c q Ip Iq Hc.
    assert (K : nl_ok AFFINE true (NBatchNorm pre k post axis gamma beta mean var eps)) by (cbn; auto).
    pose proof (computes_fn AFFINE true _ [y] K eq_refl) as HC. unfold computes in HC. etransitivity; [exact (HC p c q Ip Iq Hc)|].
    unfold keras_bn. destruct gamma, beta; reflexivity.
  - subst channels_first. eexists. split; [reflexivity|]. exact (identity_map (ch * size)).
  - eexists. split; [reflexivity|]. exact (identity_map m).
  - destruct Hok as [HP Hs]. eexists. split; [reflexivity|]. rewrite Hs. apply permute_map; auto.
    intros y p Ip. unfold layer_fn, arg. cbn [nth]. rewrite transpose_at; auto. apply dims_perm. exact HP.
  - eexists. split; [reflexivity|]. exact (identity_map m).
  - cbn in Hf. subst a. eexists. split; [reflexivity|]. exact (identity_map m).
Qed.

Section Exact.
Variables (ke : R) (sp : spec) (bo : nat -> bopts) (net : network) (its : list tensor).
Local Notation n := (sp_n sp).
Local Notation mode := (sp_mode sp).
Hypothesis Hnet : net_ok n net.
Hypothesis Hlay : blayers_ok bo net.
Hypothesis Hfree : forall i L ps, nth_error net i = Some (Some L, ps) -> bl_free L.
Let g := backward_net ke sp bo n net.
(** the tensors of the input: the identity *)
Hypothesis Hits : match mode with
  | IBP => True
  | AFFINE => exists x, its = [x; id_mat; vt zero_vec; id_mat; vt zero_vec]
  | HYBRID => exists x u l, its = [x; u; id_mat; vt zero_vec; l; id_mat; vt zero_vec]
  end.

Lemma blayer_exact : forall i o ps, nth_error net i = Some (o, ps) ->
  exists B, (forall ts, ly_bwd (blayer_of ke sp bo i o) ts = Ok B) /\
    is_map (ly_in (blayer_of ke sp bo i o)) (ly_out (blayer_of ke sp bo i o)) (fun y => match o with None => y | Some L => layer_fn L [y] end) B.
Proof.
  intros i o ps E. destruct o as [L|]; cbn [blayer_of].
  - destruct (Hlay i L ps E) as [Hok _]. exact (bl_exact ke sp (bo i) L Hok (Hfree i L ps E)).
  - exists backward_identity. split; [reflexivity|]. exact (identity_map n).
Qed.

Definition inputs_kept (imap : list (list tensor)) : Prop :=
  forall i ts, nth_error net i = Some (None, []) -> nth_error imap i = Some ts -> ts = its.

Lemma fuse_exact : forall k F B R, is_map n k F B -> fuse mode n its B = Ok R -> is_map n k F R.
Proof.
  intros k F B R HB E. destruct mode.
  - cbn in E. injection E as <-. exact HB.
  - destruct Hits as (x & ->). cbn in E. injection E as <-. exact (merge_exact n n k _ F _ B (identity_map n) HB).
  - destruct Hits as (x & u & l & ->). cbn in E. injection E as <-. exact (merge_exact n n k _ F _ B (identity_map n) HB).
Qed.

Lemma crown_exact : forall imap, inputs_kept imap -> forall fuel i o ps C k F R, nth_error net i = Some (o, ps) ->
  match C with None => k = net_dim n net i /\ F = (fun y => y) | Some C => is_map (net_dim n net i) k F C end ->
  crown mode g imap true fuel i C = Ok R -> is_map n k (fun y => F (net_fn net i y)) R.
Proof.
  intros imap HI. induction fuel as [|fuel IH]; intros i o ps C k F R En HC E; [discriminate E|]. cbn [crown] in E.
  pose proof (bnet_node ke sp bo net i o ps En) as Eg. fold g in Eg. rewrite Eg in E.
  destruct (nth_error imap i) as [ts|] eqn:Et; [|discriminate E].
  destruct (blayer_exact i o ps En) as (B & EB & HB). rewrite EB in E. cbn [bind] in E.
  replace (ly_model (blayer_of ke sp bo i o)) with false in E by (destruct o; reflexivity).
  pose proof (blayer_out ke sp bo net i o ps En) as Eo. rewrite Eo in HB, E.
  assert (exists B', match C with None => B | Some C0 => merge_bb (net_dim n net i) B C0 end = B' /\
    is_map (ly_in (blayer_of ke sp bo i o)) k (fun y => F (match o with None => y | Some L => layer_fn L [y] end)) B') as (B' & EB' & HB').
  { destruct C as [C|]; eexists; (split; [reflexivity|]).
    - exact (merge_exact _ _ _ _ F B C HB HC).
    - destruct HC as [-> ->]. exact HB. }
  rewrite EB' in E. destruct (Hnet i o ps En) as [Hlt Ho]. destruct o as [L|].
  - destruct (bnet_unary sp bo net Hnet Hlay i L ps En) as (p & -> & Ein).
    cbn [blayer_of backward_layer ly_in] in HB'. rewrite Ein in HB'. cbn [nth] in HB'.
    destruct (nth_error net p) as [[o' ps']|] eqn:Enp.
    2:{ apply nth_error_None in Enp. pose proof (Hlt p (or_introl eq_refl)). assert (i < length net)%nat by (apply nth_error_Some; congruence). lia. }
    pose proof (IH p o' ps' (Some B') k _ R Enp HB' E) as Q. revert Q. apply is_map_ext. intros y j _.
    rewrite (net_fn_step n net y i (Some L) [p] Hnet En). reflexivity.
  - subst ps. cbn [blayer_of ly_in] in HB', E. rewrite (HI i ts En Et) in E. pose proof (fuse_exact k _ B' R HB' E) as Q.
    revert Q. apply is_map_ext. intros y j _. rewrite (net_fn_step n net y i None [] Hnet En). reflexivity.
Qed.

Lemma input_nodes_kept : forall D fmap k imap imap', (length imap + k <= length g)%nat ->
  get_input_nodes mode D n its fmap g (firstn k (skipn (length imap) g)) imap = Ok imap' -> inputs_kept imap -> inputs_kept imap'.
Proof.
  intros D fmap. induction k as [|k IH]; intros imap imap' Hl E HI; cbn [firstn] in E.
  - injection E as <-. exact HI.
  - destruct (nth_error g (length imap)) as [[L ps]|] eqn:Eg; [|apply nth_error_None in Eg; lia].
    assert (Es : skipn (length imap) g = (L, ps) :: skipn (S (length imap)) g).
    { clear - Eg. revert Eg. generalize (length imap) as j. generalize g as q. induction q as [|a q IHq]; intros [|j] Ej; try discriminate Ej; cbn in *; [injection Ej as ->; reflexivity|exact (IHq j Ej)]. }
    rewrite Es in E. cbn [firstn get_input_nodes] in E. apply bind_ok in E as (ts & Ets & E).
    replace (S (length imap)) with (length (imap ++ [ts])) in E by (rewrite app_length; cbn; lia).
    apply (IH (imap ++ [ts]) imap'); [rewrite app_length; cbn; lia|exact E|].
    intros i ts' En Ei. destruct (Nat.lt_ge_cases i (length imap)) as [Hi|Hi].
    + rewrite nth_error_app1 in Ei by exact Hi. exact (HI i ts' En Ei).
    + rewrite nth_error_app2 in Ei by exact Hi. destruct (i - length imap)%nat as [|q] eqn:Eq; [|destruct q; discriminate Ei].
      injection Ei as <-. assert (i = length imap) by lia. subst i.
      pose proof (bnet_node ke sp bo net _ None [] En) as Q. fold g in Q. rewrite Q in Eg. injection Eg as _ <-. cbn in Ets. injection Ets as <-. reflexivity.
Qed.

Lemma crown_model_exact : forall D fmap i t, (i < length net)%nat -> crown_model mode D n g [i] None fmap its = Ok t ->
  exists B, is_map n (net_dim n net i) (net_fn net i) B /\ (ts <- convert2backward mode D n its B ; Ok [ts]) = Ok t.
Proof.
  intros D fmap i t Hi E. unfold crown_model in E. cbn [andb length] in E. apply bind_ok in E as (imap & Eim & E).
  assert (HI : inputs_kept imap).
  { apply (input_nodes_kept D fmap (length g) [] imap); [cbn; lia|cbn [length skipn]; rewrite firstn_all; exact Eim|]. intros j ts _ Q. destruct j; discriminate Q. }
  cbn [mapR] in E. destruct (crown mode g imap true (S i) i None) as [B|] eqn:EB; [|discriminate E]. cbn [bind] in E.
  destruct (nth_error net i) as [[o ps]|] eqn:En; [|apply nth_error_None in En; lia].
  exists B. split; [|destruct (convert2backward mode D n its B); exact E].
  exact (crown_exact imap HI (S i) i o ps None _ (fun y => y) B En (conj eq_refl eq_refl) EB).
Qed.
End Exact.

Lemma its_form : forall D mode n z its, get_input_tensors (Some D) mode n z = Ok its ->
  match mode with
  | IBP => D = Box -> its = [vt (z 1%nat); vt (z 0%nat)]
  | AFFINE => its = [z; id_mat; vt zero_vec; id_mat; vt zero_vec]
  | HYBRID => exists u l, its = [z; u; id_mat; vt zero_vec; l; id_mat; vt zero_vec]
  end.
Proof.
  intros D mode n z its E. unfold get_input_tensors in E. apply bind_ok in E as ([[[u w] b] l] & E1 & E2). injection E2 as <-.
  destruct mode; cbn [extract app f_x f_uc f_wu f_bu f_lc f_wl f_bl].
  - intros ->. cbn in E1. injection E1 as <- <- <- <-. reflexivity.
  - destruct D as [|eps [k|]]; cbn in E1; injection E1 as <- <- <- <-; reflexivity.
  - destruct D as [|eps [k|]]; cbn [get_ibp get_affine when] in E1; try (injection E1 as <- <- <- <-; eauto).
    apply bind_ok in E1 as (u1 & _ & E1). apply bind_ok in E1 as (l1 & _ & E1). injection E1 as <- <- <- <-. eauto.
Qed.

(** the tensors returned are the exact map, or its exact extrema *)
Definition exact_result (D : domain) (n m : nat) (z : tensor) (mode : fmode) (f : vec -> vec) (ts : list tensor) : Prop :=
  match mode, ts with
  | IBP, [u; l] => forall j, (j < m)%nat -> is_max (in_dom D n z) (fun y => f y j) (u 0%nat j) /\ is_min (in_dom D n z) (fun y => f y j) (l 0%nat j)
  | AFFINE, [x; wu; bu; wl; bl] => x = z /\ is_map n m f (mk_bb wu (bu 0%nat) wl (bl 0%nat))
  | HYBRID, [x; u; wu; bu; l; wl; bl] => x = z /\ is_map n m f (mk_bb wu (bu 0%nat) wl (bl 0%nat)) /\
      forall j, (j < m)%nat -> is_max (in_dom D n z) (fun y => f y j) (u 0%nat j) /\ is_min (in_dom D n z) (fun y => f y j) (l 0%nat j)
  | _, _ => False
  end.

Lemma is_max_map : forall D n m z f w b M j, (forall y, aff n w b y j = f y j) -> is_max (in_dom D n z) (fun y => aff n w b y j) M -> (j < m)%nat -> is_max (in_dom D n z) (fun y => f y j) M.
Proof. intros D n m z f w b M j E [H1 (y & Hy & H2)] _. split; [intros y' Hy'; rewrite <- E; auto|]. exists y. split; [exact Hy|]. rewrite <- E. exact H2. Qed.
Lemma is_min_map : forall D n m z f w b M j, (forall y, aff n w b y j = f y j) -> is_min (in_dom D n z) (fun y => aff n w b y j) M -> (j < m)%nat -> is_min (in_dom D n z) (fun y => f y j) M.
Proof. intros D n m z f w b M j E [H1 (y & Hy & H2)] _. split; [intros y' Hy'; rewrite <- E; auto|]. exists y. split; [exact Hy|]. rewrite <- E. exact H2. Qed.

Lemma convert_exact : forall D mode n m z its B f ts, (0 < n)%nat -> norm_ok D -> (mode = IBP -> D = Box) -> dom_nonempty D n z ->
  get_input_tensors (Some D) mode n z = Ok its -> is_map n m f B -> convert2backward mode D n its B = Ok ts -> exact_result D n m z mode f ts.
Proof.
  intros D mode n m z its B f ts Hn HD HB Hne Ei HM E. pose proof (its_form D mode n z its Ei) as Hf. unfold convert2backward in E. destruct mode.
  - rewrite (HB eq_refl) in *. rewrite (Hf eq_refl) in E. cbn [bind mode_eqb andb] in E. apply bind_ok in E as (u & Eu & E). apply bind_ok in E as (l & El & E). injection E as <-.
    cbn [exact_result]. intros j Hj. set (x := fun c => if Nat.eqb c 0 then vt (z 0%nat) 0%nat else vt (z 1%nat) 0%nat) in *.
    assert (Hx : dom_nonempty Box n x) by exact Hne.
    split; [eapply (is_max_map Box n m); [|exact (get_upper_max Box n x _ _ u j Hn Hx Eu)|exact Hj]|eapply (is_min_map Box n m); [|exact (get_lower_min Box n x _ _ l j Hn Hx El)|exact Hj]]; intros y; apply (HM y j Hj).
  - rewrite Hf in E. cbn [bind] in E. injection E as <-. cbn [exact_result]. split; [reflexivity|]. exact HM.
  - destruct Hf as (u0 & l0 & ->). cbn [bind mode_eqb andb] in E. apply bind_ok in E as (u & Eu & E). apply bind_ok in E as (l & El & E). injection E as <-.
    cbn [exact_result]. split; [reflexivity|]. split; [exact HM|]. intros j Hj.
    split; [eapply (is_max_map D n m); [|exact (get_upper_max D n z _ _ u j Hn Hne Eu)|exact Hj]|eapply (is_min_map D n m); [|exact (get_lower_min D n z _ _ l j Hn Hne El)|exact Hj]]; intros y; apply (HM y j Hj).
Qed.

Lemma max_unique : forall A g M M', is_max A g M -> is_max A g M' -> M = M'.
Proof. intros A g M M' [H1 (y & Hy & E)] [H2 (y' & Hy' & E')]. specialize (H1 y' Hy'). specialize (H2 y Hy). lra. Qed.
Lemma min_unique : forall A g M M', is_min A g M -> is_min A g M' -> M = M'.
Proof. intros A g M M' [H1 (y & Hy & E)] [H2 (y' & Hy' & E')]. specialize (H1 y' Hy'). specialize (H2 y Hy). lra. Qed.

Lemma mode_exact : forall D mode final n m z f ts out, (0 < n)%nat -> norm_ok D -> dom_nonempty D n z -> (mode = IBP -> final = IBP) ->
  exact_result D n m z mode f ts -> convert2mode D n mode final ts = Ok out -> exact_result D n m z final f out.
Proof.
  intros D mode final n m z f ts out Hn HD Hne Hmf H E. destruct mode.
  - rewrite (Hmf eq_refl) in *. destruct ts as [|u [|l [|]]]; try contradiction. rewrite convert2mode_ibp_ibp in E. injection E as <-. exact H.
  - destruct ts as [|x [|wu [|bu [|wl [|bl [|]]]]]]; try contradiction. destruct H as [-> HM].
    destruct (convert2mode_affine D n final z wu bu wl bl [] Hn HD Hne) as (u' & l' & Hu & Hl & Ec). rewrite Ec in E.
    assert (HX : forall j, (j < m)%nat -> is_max (in_dom D n z) (fun y => f y j) (u' 0%nat j) /\ is_min (in_dom D n z) (fun y => f y j) (l' 0%nat j)).
    { intros j Hj. destruct (Hu j) as (M & H1 & E1). destruct (Hl j) as (M' & H2 & E2). cbn in E1, E2. rewrite E1, E2.
      split; [eapply (is_max_map D n m); [|exact H1|exact Hj]|eapply (is_min_map D n m); [|exact H2|exact Hj]]; intros y; apply (HM y j Hj). }
    destruct final; injection E as <-; cbn [exact_result]; auto.
  - destruct ts as [|x [|u [|wu [|bu [|l [|wl [|bl [|]]]]]]]]; try contradiction. destruct H as (-> & HM & HU).
    destruct (convert2mode_hybrid D n final z u wu bu l wl bl [] Hn HD Hne) as (u' & l' & Hu & Hl & Ec). rewrite Ec in E.
    assert (HX : forall j, (j < m)%nat -> is_max (in_dom D n z) (fun y => f y j) (u' 0%nat j) /\ is_min (in_dom D n z) (fun y => f y j) (l' 0%nat j)).
    { intros j Hj. destruct (Hu j) as (M & H1 & E1). destruct (Hl j) as (M' & H2 & E2). cbn in E1, E2. destruct (HU j Hj) as [K1 K2].
      assert (Q1 : is_max (in_dom D n z) (fun y => f y j) M) by (eapply (is_max_map D n m); [|exact H1|exact Hj]; intros y; apply (HM y j Hj)).
      assert (Q2 : is_min (in_dom D n z) (fun y => f y j) M') by (eapply (is_min_map D n m); [|exact H2|exact Hj]; intros y; apply (HM y j Hj)).
      rewrite E1, E2. rewrite (max_unique _ _ _ _ K1 Q1), (min_unique _ _ _ _ K2 Q2). rewrite Rmin_left, Rmax_left by lra. auto. }
    destruct final; injection E as <-; cbn [exact_result]; auto.
Qed.

Lemma exact_ext : forall D n m z mode (f f' : vec -> vec) ts, (forall y j, (j < m)%nat -> f y j = f' y j) -> exact_result D n m z mode f ts -> exact_result D n m z mode f' ts.
Proof.
  intros D n m z mode f f' ts E H.
  assert (K : forall j (u l : tensor), (j < m)%nat -> is_max (in_dom D n z) (fun y => f y j) (u 0%nat j) /\ is_min (in_dom D n z) (fun y => f y j) (l 0%nat j) ->
     is_max (in_dom D n z) (fun y => f' y j) (u 0%nat j) /\ is_min (in_dom D n z) (fun y => f' y j) (l 0%nat j)).
  { intros j u l Hj [[H1 (y1 & Hy1 & E1)] [H2 (y2 & Hy2 & E2)]]. split.
    - split; [intros y Hy; rewrite <- E by exact Hj; auto|]. exists y1. split; [exact Hy1|]. rewrite <- E by exact Hj. exact E1.
    - split; [intros y Hy; rewrite <- E by exact Hj; auto|]. exists y2. split; [exact Hy2|]. rewrite <- E by exact Hj. exact E2. }
  destruct mode; cbn [exact_result] in *.
  - destruct ts as [|u [|l [|]]]; try contradiction. intros j Hj. exact (K j u l Hj (H j Hj)).
  - destruct ts as [|x [|wu [|bu [|wl [|bl [|]]]]]]; try contradiction. destruct H as [Hx H]. split; [exact Hx|]. exact (is_map_ext n m f f' _ E H).
  - destruct ts as [|x [|u [|wu [|bu [|l [|wl [|bl [|]]]]]]]]; try contradiction. destruct H as (Hx & H & HU). split; [exact Hx|]. split; [exact (is_map_ext n m f f' _ E H)|].
    intros j Hj. exact (K j u l Hj (HU j Hj)).
Qed.

Lemma convert_backward_exact : forall ke D n mode final z ids bo net v o fmap its ts,
  (0 < n)%nat -> norm_ok D -> (mode = IBP -> D = Box) -> dom_nonempty D n z -> (mode = IBP -> final = IBP) ->
  net_ok n net -> net_value net v -> blayers_ok bo net -> single_output net o -> length ids = length net -> NoDup ids ->
  (forall i L ps, nth_error net i = Some (Some L, ps) -> bl_free L) ->
  get_input_tensors (Some D) mode n z = Ok its ->
  convert_backward D n mode final ids (backward_net ke (mk_spec false mode D n) bo n net) [o] None fmap its = Ok ts ->
  exact_result D n (net_dim n net o) z final (v o) ts.
Proof.
  intros ke D n mode final z ids bo net v o fmap its ts Hn HD HB Hne Hmf Hnet Hval Hlay [Ho Hall] Hids Hnd Hfree Ei E.
  set (sp := mk_spec false mode D n) in *. set (g := backward_net ke sp bo n net) in *.
  assert (Hlen : length g = length net) by (apply (bnet_length ke sp bo net)).
  assert (Hpar : map snd g = map snd net) by (apply (bnet_parents ke sp bo net)).
  assert (Hacy : acyclic (map snd net)).
  { intros i ps p En Hp. rewrite nth_error_map in En. destruct (nth_error net i) as [[q qs]|] eqn:E'; [|discriminate En]. injection En as ->. destruct (Hnet i q ps E') as [Q _]. apply Q. exact Hp. }
  destruct (longest_path_exists _ Hacy) as [lv Hlv].
  assert (Hd : deepest (map snd net) lv o) by (apply ancestors_deepest; [exact Hlv|rewrite map_length; exact Ho|rewrite map_length; exact Hall]).
  unfold convert_backward in E. cbn [andb length] in E.
  assert (Eo : output_nodes (bshape ids g) [o] = Ok [o]).
  { rewrite (output_nodes_ok (bshape ids g)) with (lv := lv).
    - cbn [filter]. rewrite deepest_b; [reflexivity|]. rewrite bshape_parents by congruence. rewrite Hpar. exact Hd.
    - apply topo_acyclic. rewrite bshape_parents by congruence. rewrite Hpar. exact Hacy.
    - rewrite bshape_parents by congruence. rewrite Hpar. exact Hlv.
    - unfold unshared. rewrite bshape_ids by congruence. exact Hnd.
    - intros Q. apply (f_equal (@length _)) in Q. rewrite bshape_length in Q by congruence. cbn in Q. lia.
    - intros o' [<-|[]]. rewrite bshape_length by congruence. lia. }
  rewrite Eo in E. cbn [bind] in E. apply bind_ok in E as (t & Et & E). apply bind_ok in E as (c & Ec & E).
  assert (Hm : match sp_mode sp with IBP => True | AFFINE => exists x, its = [x; id_mat; vt zero_vec; id_mat; vt zero_vec]
    | HYBRID => exists x u l, its = [x; u; id_mat; vt zero_vec; l; id_mat; vt zero_vec] end).
  { pose proof (its_form D mode n z its Ei) as Q. cbn [sp sp_mode]. destruct mode; [exact I|eauto|destruct Q as (u & l & Q); eauto]. }
  destruct (crown_model_exact ke sp bo net its Hnet Hlay Hfree Hm D fmap o t Ho Et) as (B & HM & EB). cbn [sp sp_mode sp_n] in HM, EB.
  apply bind_ok in EB as (ts0 & Ets0 & EB). injection EB as <-. cbn [concat] in Ec. rewrite app_nil_r in Ec.
  pose proof (convert_exact D mode n (net_dim n net o) z its B (net_fn net o) ts0 Hn HD HB Hne Ei HM Ets0) as HX.
  pose proof (mode_exact D mode final n (net_dim n net o) z _ ts0 c Hn HD Hne Hmf HX Ec) as HY.
  replace (negb (mode_eqb final mode) && mode_eqb mode IBP)%bool with false in E by (destruct mode; try (rewrite andb_false_r; reflexivity); rewrite (Hmf eq_refl); reflexivity).
  injection E as <-. revert HY. apply exact_ext. intros y j Hj. apply (bnet_agree sp bo net v Hnet Hlay Hval y o Ho j Hj).
Qed.

(** crown on a network of affine layers: the exact map and its exact extrema *)
Lemma net_crown_exact : forall ke D n mode final z ids bo net v o,
  0 < ke -> (0 < n)%nat -> norm_ok D -> (mode = IBP -> D = Box) -> dom_nonempty D n z -> (mode = IBP -> final = IBP) ->
  net_ok n net -> net_value net v -> blayers_ok bo net -> single_output net o -> length ids = length net -> NoDup ids ->
  (forall i L ps, nth_error net i = Some (Some L, ps) -> bl_free L) ->
  exists ts, clone_backward D n mode final None ids (backward_net ke (mk_spec false mode D n) bo n net) [o] None z = Ok ts /\
    exact_result D n (net_dim n net o) z final (v o) ts.
Proof.
  intros ke D n mode final z ids bo net v o Hke Hn HD HB Hne Hmf Hnet Hval Hlay Ho Hids Hnd Hfree.
  destruct (net_clone_crown_free ke D n mode final z ids bo net v o) as (ts & E & _); auto. exists ts. split; [exact E|].
  unfold clone_backward in E. apply bind_ok in E as (its & Ei & E). cbn [bind] in E.
  exact (convert_backward_exact ke D n mode final z ids bo net v o _ its ts Hn HD HB Hne Hmf Hnet Hval Hlay Ho Hids Hnd Hfree Ei E).
Qed.
