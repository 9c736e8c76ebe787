(** Proofs: rounding errors of the crown methods, corollaries and examples (C73). *)
From Coq Require Import Reals List Arith Bool ZArith Lia Lra Psatz FunctionalExtensionality.
From Verif Require Import RLib Spec Spec_Layers Spec_Backward Spec_Convert Spec_Near Spec_Rounding Spec_RoundingCrown M_Core M_Utils M_MergeLayers M_Ops M_Layers M_Pool M_Backward M_Crown M_Convert M_Network M_Rounding M_RoundingCrown M_Clone.
From Verif Require Import P_Core P_Utils P_Ops P_Layers P_BackwardMore P_Graph P_Crown P_Convert P_Network P_NetworkSpec P_NetworkCrown P_NetworkForward P_NetworkThm P_Near P_NearThm P_NearCrown P_Rounding P_Lipschitz P_RoundingThm P_RoundingCrown P_CloneNear P_CloneNearThm.
From Verif Require Import Spec_Network.
Import ListNotations.
Local Open Scope R_scope.

(** ** The calls on real numbers are a run without error *)
Lemma bindR : forall {A B} (r : result A) (k : A -> result B) b, bind r k = Ok b -> exists a, r = Ok a /\ k a = Ok b.
Proof. intros A B [a|e] k b H; [eauto|discriminate]. Qed.
Definition mode_length (mode : fmode) : nat := match mode with IBP => 2 | AFFINE => 5 | HYBRID => 7 end.
Lemma close_same : forall mode n m d ts, 0 <= d -> length ts = mode_length mode -> close mode n m d ts ts.
Proof.
  intros mode n m d ts Hd H. destruct mode; cbn [close mode_length] in *.
  - destruct ts as [|u [|l [|]]]; try discriminate. split; apply entries_close_refl; exact Hd.
  - destruct ts as [|x [|wu [|bu [|wl [|bl [|]]]]]]; try discriminate. repeat split; try (apply entries_close_refl; exact Hd).
  - destruct ts as [|x [|u [|wu [|bu [|l [|wl [|bl [|]]]]]]]]; try discriminate. repeat split; try (apply entries_close_refl; exact Hd).
Qed.
Lemma bb_close_same : forall n m d B, 0 <= d -> bb_close n m d B B.
Proof.
  intros n m d B Hd. split; [apply entries_close_refl; exact Hd|]. split; [intros; rewrite Rminus_diag_eq, Rabs_R0 by reflexivity; exact Hd|].
  split; [apply entries_close_refl; exact Hd|]. intros; rewrite Rminus_diag_eq, Rabs_R0 by reflexivity; exact Hd.
Qed.
Lemma convert2backward_length : forall mode D n its B out, convert2backward mode D n its B = Ok out -> length out = mode_length mode.
Proof.
  intros mode D n its B out H. unfold convert2backward in H. apply bindR in H. destruct H as (x & _ & H). destruct mode; cbn [mode_eqb andb] in H.
  - destruct (match D with Box => false | Ball _ _ => true end); [discriminate|]. apply bindR in H. destruct H as (u & _ & H). apply bindR in H. destruct H as (l & _ & H). injection H as <-. reflexivity.
  - injection H as <-. reflexivity.
  - apply bindR in H. destruct H as (u & _ & H). apply bindR in H. destruct H as (l & _ & H). injection H as <-. reflexivity.
Qed.
Lemma last_length : forall D n mode final its c out, last_step D n mode final its c = Ok out -> length out = mode_length final.
Proof.
  intros D n mode final its c out H. unfold last_step in H. apply bindR in H. destruct H as (c' & Ec & H).
  assert (Hc : length c' = mode_length final).
  { unfold convert2mode in Ec. apply bindR in Ec. destruct Ec as (r & _ & Ec). injection Ec as <-. destruct final; reflexivity. }
  destruct (negb (mode_eqb final mode) && mode_eqb mode IBP)%bool; [|injection H as <-; exact Hc].
  destruct its as [|u [|l its]]; try discriminate. destruct c' as [|x q]; [discriminate|]. injection H as <-. exact Hc.
Qed.

Lemma crown_is_run : forall mode g imap cn d k, 0 <= d -> (forall j ts, nth_error imap j = Some ts -> cn j = ts) ->
  forall fuel i back F, crown mode g imap true fuel i back = Ok F -> rcrown mode g cn d k i back F.
Proof.
  intros mode g imap cn d k Hd Hcn. induction fuel as [|fuel IH]; intros i back F H; [discriminate|]. cbn [crown] in H.
  destruct (nth_error g i) as [[L ps]|] eqn:Eg; [|discriminate]. destruct (nth_error imap i) as [ts|] eqn:Et; [|discriminate].
  apply bindR in H. destruct H as (B & EB & H). pose proof (Hcn i ts Et) as Ei.
  assert (HB : forall B0, ly_bwd L (cn i) = Ok B0 -> bb_close (ly_in L) (ly_out L) d B0 B) by (intros B0 E; rewrite Ei, EB in E; injection E as <-; apply bb_close_same; exact Hd).
  set (M := if ly_model L then B else match back with None => B | Some C => merge_bb (ly_out L) B C end) in *.
  assert (HM : merged d k L B back M) by (unfold merged, M; destruct back; destruct (ly_model L); try reflexivity; apply bb_close_same; exact Hd).
  destruct ps as [|p [|]]; try discriminate.
  - eapply rc_input; eauto. intros F0 E. rewrite Ei, H in E. injection E as <-. apply bb_close_same. exact Hd.
  - eapply rc_layer; eauto.
Qed.

(** get_input_nodes: what each node received *)
Lemma input_nodes_each : forall mode D n its fmap g todo imap fin, get_input_nodes mode D n its fmap g todo imap = Ok fin ->
  firstn (length imap) fin = imap /\ length fin = (length imap + length todo)%nat /\
  forall i L ps, nth_error todo i = Some (L, ps) -> exists ts, nth_error fin (length imap + i) = Some ts /\ node_inputs mode D n its fmap g (firstn (length imap + i) fin) ps = Ok ts.
Proof.
  intros mode D n its fmap g todo. induction todo as [|[L0 ps0] todo IH]; intros imap fin H; cbn [get_input_nodes] in H.
  - injection H as <-. split; [apply firstn_all|]. split; [cbn; lia|]. intros i L ps E. destruct i; discriminate.
  - apply bindR in H. destruct H as (ts & Ets & H). destruct (IH _ _ H) as (H1 & H2 & H3). rewrite app_length in H1, H2, H3. cbn [length] in *.
    assert (F1 : firstn (length imap) fin = imap).
    { replace (length imap) with (Nat.min (length imap) (length imap + 1)) at 1 by lia. rewrite <- firstn_firstn, H1, firstn_app, firstn_all, Nat.sub_diag, firstn_O, app_nil_r. reflexivity. }
    split; [exact F1|]. split; [lia|]. intros i L ps E. destruct i as [|i].
    + injection E as -> ->. rewrite Nat.add_0_r, F1. exists ts. split; [|exact Ets].
      assert (Q : nth_error (firstn (length imap + 1) fin) (length imap) = Some ts) by (rewrite H1, nth_error_app2, Nat.sub_diag by lia; reflexivity).
      rewrite <- (firstn_skipn (length imap + 1) fin). rewrite nth_error_app1; [exact Q|]. rewrite H1, app_length. cbn. lia.
    + cbn in E. destruct (H3 i L ps E) as (ts' & Q1 & Q2). replace (length imap + 1 + i)%nat with (length imap + Datatypes.S i)%nat in * by lia. eauto.
Qed.
Lemma nth_error_firstn : forall {A} (l : list A) k i x, nth_error (firstn k l) i = Some x -> nth_error l i = Some x.
Proof.
  intros A l k. revert l. induction k as [|k IH]; intros l i x H; [destruct i; discriminate|]. destruct l as [|a l]; [destruct i; discriminate|]. destruct i; cbn in *; [exact H|eauto].
Qed.

(** a clone by a crown method that returns is a run *)
Lemma backward_is_run : forall ke D n mode final opts bo net o z ids fm its ts d fwd, 0 <= d ->
  let g := backward_net ke (mk_spec false mode D n) bo n net in
  (forall its', get_input_tensors (Some D) mode n z = Ok its' -> its' = its) -> length its = mode_length mode ->
  match fwd with None => forall i, fm i = None | Some f => (forall i, (i < length net)%nat -> fm i = Some (f i)) /\ rounded_forward ke D n mode opts net d its f end ->
  well_formed n g -> length g = length net -> (o < length net)%nat ->
  output_nodes (bshape ids g) [o] = Ok [o] -> convert_backward D n mode final ids g [o] None fm its = Ok ts ->
  exists cn c, rounded_crown ke D n mode final opts bo net o z d (mk_crun its fwd cn c ts).
Proof.
  intros ke D n mode final opts bo net o z ids fm its ts d fwd Hd g Hi Hl Hf Hwf Hlen Ho Eo H. unfold convert_backward in H. cbn [andb] in H. rewrite Eo in H. cbn [bind] in H.
  apply bindR in H. destruct H as (res & Ec & H). unfold crown_model in Ec. cbn [andb] in Ec. apply bindR in Ec. destruct Ec as (imap & Em & Ec). cbn [mapR] in Ec.
  apply bindR in Ec. destruct Ec as (c & Ec & Ec'). cbn [bind] in Ec'. injection Ec' as <-. cbn [concat] in H. rewrite app_nil_r in H.
  apply bindR in Ec. destruct Ec as (B & EB & Ec).
  exists (fun i => nth i imap []), c. unfold rounded_crown. cbn [c_inputs c_fwd c_nodes c_last c_out]. fold g.
  destruct (input_nodes_each _ _ _ _ _ _ _ _ _ Em) as (_ & Hli & Hn). cbn [length Nat.add] in Hli, Hn.
  assert (Hcn : forall j t, nth_error imap j = Some t -> nth j imap [] = t) by (intros j t E; apply nth_error_nth; exact E).
  split; [|split; [|split; [|split]]].
  - intros its' E. rewrite (Hi its' E). unfold inputs_close. destruct mode; apply close_same; auto; lra.
  - destruct fwd as [f|]; [apply Hf|exact I].
  - intros i L ps E. destruct (Hn i L ps E) as (t & E1 & E2). destruct (Hwf i L ps E) as (W1 & W2 & W3). unfold node_inputs in E2. destruct ps as [|p [|]].
    + injection E2 as <-. apply Hcn. exact E1.
    + apply bindR in E2. destruct E2 as (l & El & E2). injection E2 as <-. cbn [mapR] in El. apply bindR in El. destruct El as (x & Ex & El). cbn [bind] in El. injection El as <-.
      cbn [concat] in E1. rewrite app_nil_r in E1. apply Hcn in E1.
      assert (Hp : (p < length net)%nat).
      { assert (i < length g)%nat by (apply nth_error_Some; congruence). specialize (W2 p (or_introl eq_refl)). lia. }
      destruct fwd as [f|].
      * destruct Hf as [Hf _]. rewrite (Hf p Hp) in Ex. injection Ex as ->. exact E1.
      * rewrite Hf in Ex. intros L' ps' E'. apply bindR in Ex. destruct Ex as (B' & EB' & Ex). exists B'. split.
        -- apply (crown_is_run _ _ (firstn i imap) _ d _ Hd) with (fuel := Datatypes.S p); [|exact EB']. intros j t' Ej. apply Hcn. eapply nth_error_firstn. exact Ej.
        -- intros out Eout. rewrite Ex in Eout. injection Eout as <-. rewrite E1. apply close_same; [exact Hd|]. eapply convert2backward_length. exact Ex.
    + exact I.
  - intros L ps E. exists B. split; [apply (crown_is_run _ _ imap _ d _ Hd Hcn _ _ _ _ EB)|]. intros out Eout. rewrite Ec in Eout. injection Eout as <-. apply close_same; [exact Hd|]. eapply convert2backward_length. exact Ec.
  - intros out Eout. assert (Q : last_step D n mode final its c = Ok ts) by exact H. rewrite Q in Eout. injection Eout as <-. apply close_same; [exact Hd|]. eapply last_length. exact Q.
Qed.

Lemma single_bwd_output : forall ke D n mode bo net o ids, (0 < n)%nat -> net_ok n net -> blayers_ok bo net -> single_output net o ->
  length ids = length net -> NoDup ids -> output_nodes (bshape ids (backward_net ke (mk_spec false mode D n) bo n net)) [o] = Ok [o].
Proof.
  intros ke D n mode bo net o ids Hn Hnet Hlay [Ho Hall] Hids Hnd. set (sp := mk_spec false mode D n) in *. set (g := backward_net ke sp bo n net) in *.
  assert (Hacy : acyclic (map snd net)) by (apply (net_acyclic sp net Hnet)).
  destruct (longest_path_exists _ Hacy) as [lv Hlv]. pose proof (bnet_parents ke sp bo net) as Hpar. cbn [sp_n sp] in Hpar. fold g in Hpar.
  pose proof (bnet_length ke sp bo net) as Hl. cbn [sp_n sp] in Hl. fold g in Hl.
  assert (Hid' : length ids = length g) by (rewrite Hl; exact Hids).
  rewrite (output_nodes_ok (bshape ids g)) with (lv := lv).
  - cbn [filter]. rewrite deepest_b; [reflexivity|]. rewrite bshape_parents by exact Hid'. rewrite Hpar. apply ancestors_deepest; [exact Hlv|rewrite map_length; exact Ho|]. rewrite map_length. exact Hall.
  - apply topo_acyclic. rewrite bshape_parents by exact Hid'. rewrite Hpar. exact Hacy.
  - rewrite bshape_parents by exact Hid'. rewrite Hpar. exact Hlv.
  - unfold unshared. rewrite bshape_ids by exact Hid'. exact Hnd.
  - intros Q. apply (f_equal (@length _)) in Q. rewrite bshape_length in Q by exact Hid'. cbn in Q. lia.
  - intros o' [<-|[]]. rewrite bshape_length by exact Hid'. lia.
Qed.

Lemma near_length : forall D mode (S : vec -> Prop) n m e f ts, near D mode S n m e f ts -> length ts = mode_length mode.
Proof.
  intros D mode S n m e f ts H. destruct mode; cbn [near mode_length] in *.
  - destruct ts as [|u [|l [|]]]; try contradiction. reflexivity.
  - destruct ts as [|x [|wu [|bu [|wl [|bl [|]]]]]]; try contradiction. reflexivity.
  - destruct ts as [|x [|u [|wu [|bu [|l [|wl [|bl [|]]]]]]]]; try contradiction. reflexivity.
Qed.

Lemma exact_crown : forall ke D n mode final z ids opts bo net v o d,
  0 < ke -> (0 < n)%nat -> norm_ok D -> (mode = IBP -> D = Box) ->
  net_ok n net -> net_value net v -> blayers_ok bo net -> single_output net o -> length ids = length net -> NoDup ids ->
  (forall i L ps, nth_error net i = Some (Some L, ps) -> nl_piecewise L) -> 0 <= d ->
  exists r, clone_backward D n mode final None ids (backward_net ke (mk_spec false mode D n) bo n net) [o] None z = Ok (c_out r) /\
    c_fwd r = None /\ rounded_crown ke D n mode final opts bo net o z d r.
Proof.
  intros ke D n mode final z ids opts bo net v o d Hke Hn HD HB Hnet Hval Hlay Ho Hids Hnd Hpw Hd.
  destruct (net_clone_crown_near ke D n mode final z ids bo net v o Hke Hn HD HB Hnet Hval Hlay Ho Hids Hnd Hpw) as (ts & E & V).
  destruct (input_tensors_ok D mode n z Hn (fun _ => HD)) as (its & Ei & Vi). pose proof E as E0. unfold clone_backward in E. rewrite Ei in E. cbn [bind] in E.
  pose proof (bnet_length ke (mk_spec false mode D n) bo net) as Hl. cbn [sp_n] in Hl.
  destruct (backward_is_run ke D n mode final opts bo net o z ids (fun _ => None) its ts d None Hd) as (cn & c & H); auto.
  - intros its' E'. rewrite Ei in E'. injection E' as <-. reflexivity.
  - apply valid_near in Vi. eapply near_length. exact Vi.
  - apply (bnet_wf ke (mk_spec false mode D n) bo net Hnet Hlay).
  - apply Ho.
  - apply single_bwd_output; auto.
  - exists (mk_crun its None cn c ts). cbn [c_out c_fwd]. auto.
Qed.

Lemma exact_crown_forward : forall ke D n mode final z ids opts bo net v o d,
  0 < ke -> (0 < n)%nat -> norm_ok D -> (mode = IBP -> D = Box) ->
  net_ok n net -> net_value net v -> layers_ok mode opts net -> blayers_ok bo net -> single_output net o -> length ids = length net -> NoDup ids ->
  (forall i L ps, nth_error net i = Some (Some L, ps) -> nl_piecewise L) -> 0 <= d ->
  exists r, clone_backward D n mode final (Some (decomon_net ke (mk_spec false mode D n) opts net)) ids (backward_net ke (mk_spec false mode D n) bo n net) [o] None z = Ok (c_out r) /\
    c_fwd r <> None /\ rounded_crown ke D n mode final opts bo net o z d r.
Proof.
  intros ke D n mode final z ids opts bo net v o d Hke Hn HD HB Hnet Hval Hflay Hlay Ho Hids Hnd Hpw Hd.
  destruct (net_clone_crown_forward_near ke D n mode final z ids opts bo net v o Hke Hn HD HB Hnet Hval Hflay Hlay Ho Hids Hnd Hpw) as (ts & E & V).
  destruct (input_tensors_ok D mode n z Hn (fun _ => HD)) as (its & Ei & Vi). pose proof E as E0. unfold clone_backward in E. rewrite Ei in E. cbn [bind] in E.
  pose proof (bnet_length ke (mk_spec false mode D n) bo net) as Hl. cbn [sp_n] in Hl.
  set (sp := mk_spec false mode D n) in *. assert (Hdok : dom_ok D mode) by (destruct mode; cbn; auto).
  destruct (net_eval_near ke sp opts net v (in_dom D n z) its Hke Hn Hdok eq_refl Hnet Hval Hflay Hpw (valid_near _ _ _ _ _ _ _ Vi)) as (vs & He & Hs).
  set (h := decomon_net ke sp opts net) in *.
  assert (Hph : parents_of h = map snd net) by (apply (net_parents ke sp opts net Hn)).
  assert (Hlen : length h = length net) by (apply (net_length ke sp opts net Hn)).
  assert (Hah : acyclic (parents_of h)) by (rewrite Hph; apply (net_acyclic sp net Hnet)).
  assert (Hsrc : forall i nod, nth_error h i = Some nod -> fn_parents nod = [] -> fn_kind nod = KInput).
  { intros i nod En Ep. destruct (net_node_inv ke sp opts net Hn i nod En) as (q & ps & E1 & ->). destruct q as [L|]; [|reflexivity]. destruct (Hnet i (Some L) ps E1) as [_ [Q _]]. contradiction. }
  destruct (convert_nodes_eval tensor h no_map its vs) as (om & Eom & Hom); [apply topo_acyclic; exact Hah|exact Hsrc|intros i Q; exfalso; apply Q; reflexivity|exact He|].
  change (fun _ : nat => None) with (@no_map tensor) in E. rewrite Eom in E. cbn [bind] in E. apply bindR in E. destruct E as (fm & Efm & E). apply bindR in Efm. destruct Efm as (os & _ & Efm). injection Efm as <-.
  destruct (backward_is_run ke D n mode final opts bo net o z ids om its ts d (Some vs) Hd) as (cn & c & H); auto.
  - intros its' E'. rewrite Ei in E'. injection E' as <-. reflexivity.
  - apply valid_near in Vi. eapply near_length. exact Vi.
  - split; [intros i Hi; apply Hom; rewrite Hlen; exact Hi|]. intros i q ps En.
    pose proof (He i _ (net_node ke sp opts net Hn i q ps En)) as E'. unfold no_map in E'. cbn [fn_parents] in E'. unfold node_out in E'. cbn [fn_kind] in E'.
    destruct (Hnet i q ps En) as [_ Hq]. destruct q as [L|].
    + intros out' E''. destruct Hq as [Hps _]. destruct ps as [|p ps]; [contradiction|]. unfold sp in E'. rewrite E'' in E'. injection E' as ->.
      assert (Hi : (i < length net)%nat) by (apply nth_error_Some; congruence). specialize (Hs i Hi). unfold net_dim in Hs. rewrite En in Hs. eapply close_refl; eauto.
    + subst ps. injection E' as <-. reflexivity.
  - apply (bnet_wf ke sp bo net Hnet Hlay).
  - apply Ho.
  - apply single_bwd_output; auto.
  - exists (mk_crun its (Some vs) cn c ts). cbn [c_out c_fwd]. split; [exact E0|]. split; [discriminate|exact H].
Qed.

(** ** Values of the nodes on a bounded domain *)
Lemma lip_step : forall net nod, lip_of (net ++ [nod]) = match fst nod with Some L => Rmax 1 (nl_gain L) * lip_of net | None => lip_of net end.
Proof. intros. unfold lip_of. rewrite fold_left_app. reflexivity. Qed.
Lemma lip_pos : forall net, 1 <= lip_of net.
Proof.
  intros net. induction net as [|nod net IH] using rev_ind; [unfold lip_of; cbn; lra|]. rewrite lip_step. destruct (fst nod) as [L|]; [|exact IH]. pose proof (Rmax_l 1 (nl_gain L)). nra.
Qed.
Lemma lip_app : forall net net', lip_of net <= lip_of (net ++ net').
Proof.
  intros net net'. induction net' as [|nod net' IH] using rev_ind; [rewrite app_nil_r; lra|]. rewrite app_assoc, lip_step. destruct (fst nod) as [L|]; [|exact IH].
  pose proof (Rmax_l 1 (nl_gain L)). pose proof (lip_pos (net ++ net')). nra.
Qed.
Lemma lip_firstn : forall net i k, (i <= k)%nat -> lip_of (firstn i net) <= lip_of (firstn k net).
Proof. intros net i k H. rewrite <- (firstn_skipn i (firstn k net)). rewrite firstn_firstn, Nat.min_l by exact H. apply lip_app. Qed.

Lemma network_lipschitz : forall n net v y y' e, net_ok n net -> net_value net v ->
  (forall i L ps, nth_error net i = Some (Some L, ps) -> nl_piecewise L /\ exists mode fast, nl_ok mode fast L) -> 0 <= e -> vclose n e y y' ->
  forall i, (i < length net)%nat -> vclose (net_dim n net i) (lip_of (firstn (Datatypes.S i) net) * e) (v i y) (v i y').
Proof.
  intros n net v y y' e Hnet Hval Hlay He Hy i. induction i as [i IH] using lt_wf_ind. intros Hi.
  destruct (nth_error net i) as [[q ps]|] eqn:En; [|apply nth_error_None in En; lia].
  destruct (Hnet i q ps En) as [Hp Ho]. pose proof (Hval y i q ps En) as V1. pose proof (Hval y' i q ps En) as V2. rewrite (firstn_S _ _ _ _ En), lip_step. cbn [fst]. unfold net_dim at 1. rewrite En.
  pose proof (lip_pos (firstn i net)) as Hpos. destruct q as [L|].
  - destruct Ho as [Hps Hdim]. destruct (Hlay i L ps En) as [Hpw (m & fast & Hok)].
    assert (Hlen : length ps = length (nl_in L)) by (rewrite <- Hdim, map_length; reflexivity). rewrite Rmult_assoc.
    apply (layer_lip m fast L _ (map (fun p => v p y) ps) (map (fun p => v p y') ps)); auto; try (rewrite map_length; exact Hlen); [nra|].
    intros t d x x' E1 E2 E3. rewrite <- Hdim in E1. rewrite nth_error_map in E1, E2, E3. destruct (nth_error ps t) as [p|] eqn:Et; [|discriminate]. cbn in E1, E2, E3.
    injection E1 as <-. injection E2 as <-. injection E3 as <-. assert (Hpi : (p < i)%nat) by (apply Hp; eapply nth_error_In; exact Et).
    specialize (IH p Hpi ltac:(lia)). intros j Hj. eapply Rle_trans; [apply IH; exact Hj|]. apply Rmult_le_compat_r; [exact He|]. apply lip_firstn. lia.
  - intros j Hj. rewrite V1, V2. eapply Rle_trans; [apply Hy; exact Hj|]. nra.
Qed.

Lemma finite_bound : forall n (f : nat -> R), exists Y, 0 <= Y /\ forall j, (j < n)%nat -> Rabs (f j) <= Y.
Proof.
  induction n as [|n IH]; intros f; [exists 0; split; [lra|intros; lia]|]. destruct (IH f) as (Y & H1 & H2). exists (Rmax Y (Rabs (f n))). split; [eapply Rle_trans; [exact H1|apply Rmax_l]|].
  intros j Hj. destruct (Nat.eq_dec j n) as [->|]; [apply Rmax_r|]. eapply Rle_trans; [apply H2; lia|apply Rmax_l].
Qed.
Lemma nodes_bound : forall n net (x : nat -> vec) k, exists W Y, 0 <= Y /\ (n <= W)%nat /\ forall i, (i < k)%nat -> (net_dim n net i <= W)%nat /\ forall j, (j < net_dim n net i)%nat -> Rabs (x i j) <= Y.
Proof.
  intros n net x. induction k as [|k (W & Y & H1 & H2 & H3)]; [exists n, 0; split; [lra|split; [lia|intros; lia]]|].
  destruct (finite_bound (net_dim n net k) (x k)) as (Y' & P1 & P2). exists (Nat.max W (net_dim n net k)), (Rmax Y Y').
  split; [eapply Rle_trans; [exact H1|apply Rmax_l]|]. split; [lia|]. intros i Hi. destruct (Nat.eq_dec i k) as [->|].
  - split; [lia|]. intros j Hj. eapply Rle_trans; [apply P2; exact Hj|apply Rmax_r].
  - destruct (H3 i ltac:(lia)) as [Q1 Q2]. split; [lia|]. intros j Hj. eapply Rle_trans; [apply Q2; exact Hj|apply Rmax_l].
Qed.

Lemma nodes_within_exists : forall n (S : vec -> Prop) net v X, net_ok n net -> net_value net v ->
  (forall i L ps, nth_error net i = Some (Some L, ps) -> nl_piecewise L /\ exists mode fast, nl_ok mode fast L) -> 0 <= X -> domain_within S n X ->
  exists W Y, 0 <= Y /\ nodes_within S n net v W Y.
Proof.
  intros n S net v X Hnet Hval Hlay HX HS. destruct (nodes_bound n net (fun i => v i (fun _ => 0)) (length net)) as (W & Y & H1 & H2 & H3).
  pose proof (lip_pos net) as Hlp. exists W, (Y + lip_of net * X). split; [nra|]. split; [exact H2|]. split.
  - intros y j Hy Hj. eapply Rle_trans; [apply HS; eauto|]. nra.
  - intros i Hi. destruct (H3 i Hi) as [Q1 Q2]. split; [exact Q1|]. intros y j Hy Hj.
    assert (C : vclose n X y (fun _ => 0)) by (intros k Hk; rewrite Rminus_0_r; apply HS; auto).
    pose proof (network_lipschitz n net v y (fun _ => 0) X Hnet Hval Hlay HX C i Hi j Hj) as L. specialize (Q2 j Hj). apply Rabs_both in L. apply Rabs_both in Q2.
    pose proof (lip_firstn net (Datatypes.S i) (length net) ltac:(lia)) as Q. rewrite firstn_all in Q. apply Rabs_le2. nra.
Qed.

(** ** Corollaries *)
Lemma crown_constants : forall ke D n mode z opts bo net v o d W Y r,
  0 < ke -> (0 < n)%nat -> norm_ok D -> (mode = IBP -> D = Box) ->
  net_ok n net -> net_value net v -> blayers_ok bo net -> (c_fwd r <> None -> layers_ok mode opts net) -> (o < length net)%nat ->
  (forall i L ps, nth_error net i = Some (Some L, ps) -> nl_piecewise L) ->
  0 <= d -> 0 <= Y -> nodes_within (in_dom D n z) n net v W Y -> rounded_crown ke D n mode IBP opts bo net o z d r ->
  exists u l, c_out r = [u; l] /\ forall y j, in_dom D n z y -> (j < net_dim n net o)%nat ->
    l 0%nat j - crown_error (INR W * d) net * (ke + d * (1 + INR W * Y)) <= v o y j <= u 0%nat j + crown_error (INR W * d) net * (ke + d * (1 + INR W * Y)).
Proof.
  intros ke D n mode z opts bo net v o d W Y r Hke Hn HD HB Hnet Hval Hlay Hfl Ho Hpw Hd HY HW Hrun.
  pose proof (rounded_crown_near ke D n mode IBP z opts bo net v o d W Y r Hke Hn HD HB Hnet Hval Hlay Hfl Ho Hpw Hd HY HW Hrun) as V.
  destruct (c_out r) as [|u [|l [|]]]; try contradiction. exists u, l. split; [reflexivity|exact V].
Qed.

Lemma crown_network : forall ke D n mode z opts bo net v o d d' W Y r y a,
  0 < ke -> (0 < n)%nat -> norm_ok D -> (mode = IBP -> D = Box) ->
  net_ok n net -> net_value net v -> blayers_ok bo net -> (c_fwd r <> None -> layers_ok mode opts net) -> (o < length net)%nat ->
  (forall i L ps, nth_error net i = Some (Some L, ps) -> nl_piecewise L) ->
  0 <= d -> 0 <= d' -> 0 <= Y -> nodes_within (in_dom D n z) n net v W Y -> rounded_crown ke D n mode IBP opts bo net o z d r ->
  in_dom D n z y -> rounded_values net d' y a ->
  exists u l, c_out r = [u; l] /\ forall j, (j < net_dim n net o)%nat ->
    let e := crown_error (INR W * d) net * (ke + d * (1 + INR W * Y)) + net_slack net * d' in l 0%nat j - e <= a o j <= u 0%nat j + e.
Proof.
  intros ke D n mode z opts bo net v o d d' W Y r y a Hke Hn HD HB Hnet Hval Hlay Hfl Ho Hpw Hd Hd' HY HW Hrun Hy Ha.
  destruct (crown_constants ke D n mode z opts bo net v o d W Y r Hke Hn HD HB Hnet Hval Hlay Hfl Ho Hpw Hd HY HW Hrun) as (u & l & E & B). exists u, l. split; [exact E|].
  intros j Hj e. specialize (B y j Hy Hj).
  assert (Hl' : layers_ok AFFINE (fun _ => mk_opts V_SLOPE None true) net).
  { intros i L ps En. split; [apply bl_nl_ok; apply (Hlay i L ps En)|exact I]. }
  pose proof (rounded_values_near n AFFINE _ net v y a d' Hnet Hval Hl' Hpw Hd' Ha o Ho j Hj) as Q. apply Rabs_both in Q.
  pose proof (slack_firstn net (Datatypes.S o) (length net) ltac:(lia)) as K. rewrite firstn_all in K.
  assert (net_slack (firstn (Datatypes.S o) net) * d' <= net_slack net * d') by (apply Rmult_le_compat_r; lra). unfold e. lra.
Qed.

Lemma crown_decision : forall ke D n mode z opts bo net v o d d' W Y r u l j k,
  0 < ke -> (0 < n)%nat -> norm_ok D -> (mode = IBP -> D = Box) ->
  net_ok n net -> net_value net v -> blayers_ok bo net -> (c_fwd r <> None -> layers_ok mode opts net) -> (o < length net)%nat ->
  (forall i L ps, nth_error net i = Some (Some L, ps) -> nl_piecewise L) ->
  0 <= d -> 0 <= d' -> 0 <= Y -> nodes_within (in_dom D n z) n net v W Y -> rounded_crown ke D n mode IBP opts bo net o z d r ->
  c_out r = [u; l] -> (j < net_dim n net o)%nat -> (k < net_dim n net o)%nat ->
  2 * (crown_error (INR W * d) net * (ke + d * (1 + INR W * Y)) + net_slack net * d') < l 0%nat j - u 0%nat k ->
  forall y, in_dom D n z y -> v o y k < v o y j /\ forall a, rounded_values net d' y a -> a o k < a o j.
Proof.
  intros ke D n mode z opts bo net v o d d' W Y r u l j k Hke Hn HD HB Hnet Hval Hlay Hfl Ho Hpw Hd Hd' HY HW Hrun Er Hj Hk Hm y Hy.
  destruct (crown_constants ke D n mode z opts bo net v o d W Y r Hke Hn HD HB Hnet Hval Hlay Hfl Ho Hpw Hd HY HW Hrun) as (u' & l' & E & B). rewrite Er in E. injection E as <- <-.
  split.
  - pose proof (B y j Hy Hj). pose proof (B y k Hy Hk). pose proof (slack_pos net). assert (0 <= net_slack net * d') by nra. lra.
  - intros a Ha. destruct (crown_network ke D n mode z opts bo net v o d d' W Y r y a Hke Hn HD HB Hnet Hval Hlay Hfl Ho Hpw Hd Hd' HY HW Hrun Hy Ha) as (u' & l' & E & Q).
    rewrite Er in E. injection E as <- <-. pose proof (Q j Hj). pose proof (Q k Hk). cbn zeta in *. lra.
Qed.

(** ** A larger error allows more runs *)
Lemma entries_mono : forall a m d d' t t', d <= d' -> entries_close a m d t t' -> entries_close a m d' t t'.
Proof. intros a m d d' t t' Hd H i j Hi Hj. eapply Rle_trans; [apply H; auto|exact Hd]. Qed.
Lemma close_mono : forall mode n m d d' ts ts', d <= d' -> close mode n m d ts ts' -> close mode n m d' ts ts'.
Proof.
  intros mode n m d d' ts ts' Hd H. destruct mode; cbn [close] in *.
  - destruct ts as [|a1 [|a2 [|]]]; try contradiction. destruct ts' as [|b1 [|b2 [|]]]; try contradiction. destruct H as (H1 & H2). split; eapply entries_mono; eauto.
  - destruct ts as [|a1 [|a2 [|a3 [|a4 [|a5 [|]]]]]]; try contradiction. destruct ts' as [|b1 [|b2 [|b3 [|b4 [|b5 [|]]]]]]; try contradiction.
    destruct H as (H0 & H1 & H2 & H3 & H4). split; [exact H0|]. split; [|split; [|split]]; eapply entries_mono; eauto.
  - destruct ts as [|a1 [|a2 [|a3 [|a4 [|a5 [|a6 [|a7 [|]]]]]]]]; try contradiction. destruct ts' as [|b1 [|b2 [|b3 [|b4 [|b5 [|b6 [|b7 [|]]]]]]]]; try contradiction.
    destruct H as (H0 & H1 & H2 & H3 & H4 & H5 & H6). split; [exact H0|]. split; [|split; [|split; [|split; [|split]]]]; eapply entries_mono; eauto.
Qed.
Lemma bb_close_mono : forall n m d d' B B', d <= d' -> bb_close n m d B B' -> bb_close n m d' B B'.
Proof.
  intros n m d d' B B' Hd (H1 & H2 & H3 & H4). split; [eapply entries_mono; eauto|]. split; [intros j Hj; eapply Rle_trans; [apply H2; exact Hj|exact Hd]|].
  split; [eapply entries_mono; eauto|]. intros j Hj; eapply Rle_trans; [apply H4; exact Hj|exact Hd].
Qed.
Lemma rcrown_mono : forall mode g imap d d' k i back F, d <= d' -> rcrown mode g imap d k i back F -> rcrown mode g imap d' k i back F.
Proof.
  intros mode g imap d d' k i back F Hd H.
  assert (HM : forall L B back M, merged d k L B back M -> merged d' k L B back M).
  { intros L B bk M Q. unfold merged in *. destruct bk; [|exact Q]. destruct (ly_model L); [exact Q|]. eapply bb_close_mono; eauto. }
  induction H as [i L back B M F Hg HB Hm HF|i L p back B M F Hg HB Hm HF IH].
  - eapply rc_input; eauto; intros; eapply bb_close_mono; eauto.
  - eapply rc_layer; eauto. intros; eapply bb_close_mono; eauto.
Qed.
Lemma rnode_mono : forall mode D n g imap its d d' p ts, d <= d' -> rnode mode D n g imap its d p ts -> rnode mode D n g imap its d' p ts.
Proof.
  intros mode D n g imap its d d' p ts Hd H L ps E. destruct (H L ps E) as (B & H1 & H2). exists B. split; [eapply rcrown_mono; eauto|]. intros out Eo. eapply close_mono; eauto.
Qed.
Lemma crown_run_mono : forall ke D n mode final opts bo net o z d d' r out, d <= d' -> rounded_crown ke D n mode final opts bo net o z d r ->
  (forall x, close final n (net_dim n net o) d x (c_out r) -> close final n (net_dim n net o) d' x out) ->
  rounded_crown ke D n mode final opts bo net o z d' (mk_crun (c_inputs r) (c_fwd r) (c_nodes r) (c_last r) out).
Proof.
  intros ke D n mode final opts bo net o z d d' r out Hd (H1 & H2 & H3 & H4 & H5) Hx. unfold rounded_crown. cbn [c_inputs c_fwd c_nodes c_last c_out]. split; [|split; [|split; [|split]]].
  - intros its E. specialize (H1 its E). unfold inputs_close in *. destruct mode; auto; eapply close_mono; eauto.
  - destruct (c_fwd r) as [f|]; [|exact I]. intros i q ps En. specialize (H2 i q ps En). destruct q as [L|]; [|exact H2]. intros x Ex. eapply close_mono; eauto.
  - intros i L ps E. specialize (H3 i L ps E). destruct ps as [|p [|]]; auto. destruct (c_fwd r); auto. eapply rnode_mono; eauto.
  - eapply rnode_mono; eauto.
  - intros x E. apply Hx. apply H5. exact E.
Qed.

(** ** Examples *)
Definition one_ids : list nat := [0%nat; 1%nat].
Lemma scale_crown : exists u l, clone_backward Box 1 IBP IBP None one_ids (backward_net 1 (mk_spec false IBP Box 1) plain_bopts 1 (scale_net 1)) [1%nat] None unit_box = Ok [u; l] /\ u 0%nat 0%nat = 1.
Proof.
  eexists _, _. split.
  - lazy -[Rmax Rmin Rplus Rmult Rminus Ropp IZR Rlt Rle Rdiv Rinv]. reflexivity.
  - lazy -[Rmax Rmin Rplus Rmult Rminus Ropp IZR Rlt Rle Rdiv Rinv].
    repeat first [rewrite Rmult_0_l | rewrite Rmult_0_r | rewrite Rplus_0_l | rewrite Rplus_0_r | rewrite Rmult_1_l | rewrite Rmult_1_r | rewrite (Rmax_left 1 0) by lra | rewrite (Rmin_right 1 0) by lra | rewrite (Rmax_left 0 0) by lra | rewrite (Rmin_left 0 0) by lra]. lra.
Qed.

(** the bounds computed may be off in the wrong direction: no margin-free statement *)
Lemma crown_no_margin : forall d, 0 < d -> exists r u l y,
  rounded_crown 1 Box 1 IBP IBP plain_opts plain_bopts (scale_net 1) 1 unit_box d r /\ c_out r = [u; l] /\
  in_dom Box 1 unit_box y /\ u 0%nat 0%nat < scale_value 1 1 y 0%nat.
Proof.
  intros d Hd. destruct (scale_ok 1) as (H1 & H2 & H3 & H4 & H5).
  destruct (exact_crown 1 Box 1 IBP IBP unit_box one_ids plain_opts plain_bopts (scale_net 1) (scale_value 1) 1 0) as (r & E & _ & Hr); auto; try lra; try lia; try exact I.
  - intros i L ps En. unfold scale_net in En. each_node En; cbn; auto.
  - repeat constructor; cbn; intuition lia.
  - destruct scale_crown as (u & l & E' & Eu). rewrite E in E'. injection E' as E'.
    exists (mk_crun (c_inputs r) (c_fwd r) (c_nodes r) (c_last r) [fun i j => u i j - d; l]), (fun i j => u i j - d), l, (fun _ => 1). split; [|split; [reflexivity|split]].
    + apply (crown_run_mono 1 Box 1 IBP IBP plain_opts plain_bopts (scale_net 1) 1 unit_box 0 d r); [lra|exact Hr|]. intros x Hx. rewrite E' in Hx. cbn [close] in *.
      destruct x as [|a [|b [|]]]; try contradiction. destruct Hx as [Q1 Q2]. split; [|eapply entries_mono; [|exact Q2]; lra].
      intros i j Hi Hj. specialize (Q1 i j Hi Hj). apply Rabs_both in Q1. apply Rabs_le2. lra.
    + intros i Hi. unfold unit_box. cbn. lra.
    + rewrite Eu. cbn. lra.
Qed.

(** Dense, relu, Dense of any size and any weights, on any bounded box: the default method, every allowed error *)
Lemma mlp_rounded : forall ke n h k k1 b1 k2 b2 z X d, 0 < ke -> (0 < n)%nat -> (0 < h)%nat -> (0 < k)%nat -> 0 <= X -> 0 <= d ->
  domain_within (in_dom Box n z) n X -> let net := mlp_net n h k k1 b1 k2 b2 in
  exists W Y r, 0 <= Y /\ nodes_within (in_dom Box n z) n net (net_fn net) W Y /\ rounded_crown ke Box n HYBRID IBP plain_opts plain_bopts net 3 z d r /\
    clone_backward Box n HYBRID IBP None (seq 0 4) (backward_net ke (mk_spec false HYBRID Box n) plain_bopts n net) [3%nat] None z = Ok (c_out r).
Proof.
  intros ke n h k k1 b1 k2 b2 z X d Hke Hn Hh Hk HX Hd HS net. destruct (mlp_facts ke n h k k1 b1 k2 b2 Hke Hn Hh Hk) as ((_ & _ & Hnet & Hval & Ho & _) & HB & HL & Hpw). fold net in Hnet, Hval, Ho, HB, HL, Hpw.
  destruct (nodes_within_exists n (in_dom Box n z) net (net_fn net) X Hnet Hval) as (W & Y & HY & HW); auto.
  { intros i L ps E. split; [apply (Hpw i L ps E)|]. exists AFFINE, true. apply bl_nl_ok. apply (HB i L ps E). }
  destruct (exact_crown ke Box n HYBRID IBP z (seq 0 4) plain_opts plain_bopts net (net_fn net) 3 d) as (r & E & _ & Hr); auto; try exact I.
  - apply seq_NoDup.
  - exists W, Y, r. auto.
Qed.
Lemma mlp_error : forall n h k k1 b1 k2 b2, nl_gain (NDense 1 n h k1 (Some b1)) <= 1 -> nl_gain (NDense 1 h k k2 (Some b2)) <= 1 ->
  crown_error 0 (mlp_net n h k k1 b1 k2 b2) = 34.
Proof.
  intros n h k k1 b1 k2 b2 H1 H2. unfold crown_error, crown_state, mlp_net. cbn [fold_left crown_step fst snd].
  rewrite (Rmax_left 1 (nl_gain (NDense 1 n h k1 (Some b1)))), (Rmax_left 1 (nl_gain (NDense 1 h k k2 (Some b2)))) by auto.
  cbn [nl_gain]. rewrite (Rmax_right 1 2) by lra. lra.
Qed.
