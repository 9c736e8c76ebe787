(** Proofs: rounding errors, corollaries and examples (C73). *)
From Coq Require Import Reals List Arith Bool ZArith Lia Lra Psatz FunctionalExtensionality.
From Verif Require Import RLib Spec Spec_Layers Spec_Backward Spec_Convert Spec_Near Spec_Rounding M_Core M_Utils M_MergeLayers M_Ops M_Layers M_Pool M_Backward M_Crown M_Convert M_Network M_Rounding.
From Verif Require Import P_Core P_Utils P_Ops P_Layers P_BackwardMore P_Graph P_Crown P_Convert P_Network P_NetworkSpec P_NetworkCrown P_NetworkForward P_NetworkThm P_Near P_NearThm P_Rounding P_Lipschitz.
From Verif Require Import Spec_Network.
Import ListNotations.
Local Open Scope R_scope.

(** the calls on real numbers are a run without error *)
Lemma close_refl : forall D mode (S : vec -> Prop) n m e f ts d, 0 <= d -> near D mode S n m e f ts -> close mode n m d ts ts.
Proof.
  intros D mode S n m e f ts d Hd H. destruct mode; cbn [near close] in *.
  - destruct ts as [|u [|l [|]]]; try contradiction. split; apply entries_close_refl; exact Hd.
  - destruct ts as [|x [|wu [|bu [|wl [|bl [|]]]]]]; try contradiction. repeat split; try (apply entries_close_refl; exact Hd).
  - destruct ts as [|x [|u [|wu [|bu [|l [|wl [|bl [|]]]]]]]]; try contradiction. repeat split; try (apply entries_close_refl; exact Hd).
Qed.

Lemma exact_run : forall ke D n mode final z opts net v o d,
  0 < ke -> (0 < n)%nat -> norm_ok D -> (mode = IBP -> final = IBP) ->
  net_ok n net -> net_value net v -> layers_ok mode opts net -> single_output net o ->
  (forall i L ps, nth_error net i = Some (Some L, ps) -> nl_piecewise L) -> 0 <= d ->
  exists r, clone_forward D n mode final (decomon_net ke (mk_spec false mode D n) opts net) [o] z = Ok (r_out r) /\
    rounded_run ke D n mode final opts net o z d r.
Proof.
  intros ke D n mode final z opts net v o d Hke Hn HD Hmf Hnet Hval Hlay Ho Hpw Hd. set (sp := mk_spec false mode D n).
  assert (Hdok : dom_ok D mode) by (destruct mode; cbn; auto).
  destruct (input_tensors_ok D mode n z Hn (fun _ => HD)) as (its & Ei & Vi). apply valid_near in Vi.
  destruct (net_eval_near ke sp opts net v (in_dom D n z) its Hke Hn Hdok eq_refl Hnet Hval Hlay Hpw Vi) as (vs & Hev & Hs).
  destruct (convert2mode_near D n mode final _ _ _ _ (vs o) Hn Hdok Hmf (Hs o (proj1 Ho))) as (out & Eo & Vo).
  exists (mk_run its vs out). cbn [r_out]. split.
  { unfold clone_forward. rewrite Ei. cbn [bind]. change (fun _ : nat => None) with (@no_map tensor).
    rewrite (single_eval ke sp opts net its vs o Hn Hnet Ho Hev). exact Eo. }
  split; [|split]; cbn [r_inputs r_nodes r_out].
  - intros its' E. rewrite Ei in E. injection E as <-. eapply close_refl; eauto.
  - intros i q ps En. pose proof (Hev i _ (net_node ke sp opts net Hn i q ps En)) as E. cbn [no_map] in E. unfold no_map in E. cbn [fn_parents] in E. unfold node_out in E. cbn [fn_kind] in E.
    destruct (Hnet i q ps En) as [_ Hq]. destruct q as [L|].
    + intros out' E'. destruct Hq as [Hps _]. destruct ps as [|p ps]; [contradiction|]. unfold sp in E. rewrite E' in E. injection E as ->.
      assert (Hi : (i < length net)%nat) by (apply nth_error_Some; congruence). specialize (Hs i Hi). unfold net_dim in Hs. rewrite En in Hs. eapply close_refl; eauto.
    + subst ps. injection E as <-. reflexivity.
  - intros out' E. rewrite Eo in E. injection E as <-. eapply close_refl; eauto.
Qed.

Lemma rounded_constants : forall ke D n mode z opts net v o d X r,
  0 < ke -> (0 < n)%nat -> norm_ok D -> net_ok n net -> net_value net v -> layers_ok mode opts net -> (o < length net)%nat ->
  (forall i L ps, nth_error net i = Some (Some L, ps) -> nl_piecewise L) ->
  0 <= d -> 0 <= X -> (mode <> IBP -> domain_within (in_dom D n z) n X) -> rounded_run ke D n mode IBP opts net o z d r ->
  exists u l, r_out r = [u; l] /\ forall y j, in_dom D n z y -> (j < net_dim n net o)%nat ->
    l 0%nat j - (net_error net + 1) * (ke + d * reach mode n X) <= v o y j <= u 0%nat j + (net_error net + 1) * (ke + d * reach mode n X).
Proof.
  intros ke D n mode z opts net v o d X r Hke Hn HD Hnet Hval Hlay Ho Hpw Hd HX HS Hrun.
  pose proof (rounded_near ke D n mode IBP z opts net v o d X r Hke Hn HD (fun _ => eq_refl) Hnet Hval Hlay Ho Hpw Hd HX HS Hrun) as V.
  destruct (r_out r) as [|u [|l [|]]]; try contradiction. exists u, l. split; [reflexivity|exact V].
Qed.

(** interval mode: the layers do not use epsilon *)
Lemma ibp_no_epsilon : forall ke ke' D n o L ts, nl_piecewise L ->
  decomon_layer ke (mk_spec false IBP D n) o L ts = decomon_layer ke' (mk_spec false IBP D n) o L ts.
Proof.
  intros ke ke' D n o L ts H. destruct L; try contradiction; reflexivity.
Qed.

Lemma run_no_epsilon : forall ke ke' D n opts net o z d r, (forall i L ps, nth_error net i = Some (Some L, ps) -> nl_piecewise L) ->
  rounded_run ke D n IBP IBP opts net o z d r -> rounded_run ke' D n IBP IBP opts net o z d r.
Proof.
  intros ke ke' D n opts net o z d r Hpw (H1 & H2 & H3). split; [exact H1|split; [|exact H3]]. intros i q ps En. specialize (H2 i q ps En). destruct q as [L|]; [|exact H2].
  intros out E. apply H2. rewrite (ibp_no_epsilon ke ke'); [exact E|]. eapply Hpw. exact En.
Qed.

Lemma net_error_pos : forall net, 1 <= net_error net.
Proof. intros net. apply (slack_from_pos 1 net). lra. Qed.

Lemma rounded_ibp : forall ke D n z opts net v o d r,
  (0 < n)%nat -> norm_ok D -> net_ok n net -> net_value net v -> layers_ok IBP opts net -> (o < length net)%nat ->
  (forall i L ps, nth_error net i = Some (Some L, ps) -> nl_piecewise L) ->
  0 <= d -> rounded_run ke D n IBP IBP opts net o z d r ->
  exists u l, r_out r = [u; l] /\ forall y j, in_dom D n z y -> (j < net_dim n net o)%nat ->
    l 0%nat j - (net_error net + 1) * d <= v o y j <= u 0%nat j + (net_error net + 1) * d.
Proof.
  intros ke D n z opts net v o d r Hn HD Hnet Hval Hlay Ho Hpw Hd Hrun.
  assert (G : forall e, 0 < e -> exists u l, r_out r = [u; l] /\ forall y j, in_dom D n z y -> (j < net_dim n net o)%nat ->
    l 0%nat j - (net_error net + 1) * (e + d * 1) <= v o y j <= u 0%nat j + (net_error net + 1) * (e + d * 1)).
  { intros e He. pose proof (run_no_epsilon ke e _ _ _ _ _ _ _ _ Hpw Hrun) as Hrun'.
    apply (rounded_constants e D n IBP z opts net v o d 0 r He Hn HD Hnet Hval Hlay Ho Hpw Hd ltac:(lra) ltac:(intros Q; contradiction) Hrun'). }
  destruct (G 1 ltac:(lra)) as (u & l & E & _). exists u, l. split; [exact E|]. intros y j Hy Hj. pose proof (net_error_pos net) as Hp.
  assert (Q : forall e, 0 < e -> l 0%nat j - (net_error net + 1) * d <= v o y j + e /\ v o y j <= u 0%nat j + (net_error net + 1) * d + e).
  { intros e He. assert (He' : 0 < e / (net_error net + 1)) by (apply Rdiv_lt_0_compat; lra).
    destruct (G _ He') as (u' & l' & E' & B). rewrite E in E'. injection E' as <- <-. specialize (B y j Hy Hj).
    assert (F : (net_error net + 1) * (e / (net_error net + 1) + d * 1) = (net_error net + 1) * d + e) by (field; lra). rewrite F in B. lra. }
  split; apply le_epsilon; intros e He; apply (Q e He).
Qed.

(** the network evaluated with errors, between bounds computed with errors *)
Lemma rounded_network : forall ke D n mode z opts net v o d d' X r y a,
  0 < ke -> (0 < n)%nat -> norm_ok D -> net_ok n net -> net_value net v -> layers_ok mode opts net -> (o < length net)%nat ->
  (forall i L ps, nth_error net i = Some (Some L, ps) -> nl_piecewise L) ->
  0 <= d -> 0 <= d' -> 0 <= X -> (mode <> IBP -> domain_within (in_dom D n z) n X) -> rounded_run ke D n mode IBP opts net o z d r ->
  in_dom D n z y -> rounded_values net d' y a ->
  exists u l, r_out r = [u; l] /\ forall j, (j < net_dim n net o)%nat ->
    l 0%nat j - (net_error net + 1) * (ke + d * reach mode n X + d') <= a o j <= u 0%nat j + (net_error net + 1) * (ke + d * reach mode n X + d').
Proof.
  intros ke D n mode z opts net v o d d' X r y a Hke Hn HD Hnet Hval Hlay Ho Hpw Hd Hd' HX HS Hrun Hy Ha.
  destruct (rounded_constants ke D n mode z opts net v o d X r Hke Hn HD Hnet Hval Hlay Ho Hpw Hd HX HS Hrun) as (u & l & E & B). exists u, l. split; [exact E|].
  intros j Hj. specialize (B y j Hy Hj). pose proof (rounded_values_near n mode opts net v y a d' Hnet Hval Hlay Hpw Hd' Ha o Ho j Hj) as Q. apply Rabs_both in Q.
  assert (K : net_slack (firstn (Datatypes.S o) net) <= net_error net).
  { change (slack_from 0 (firstn (Datatypes.S o) net) <= slack_from 1 net). eapply Rle_trans; [apply slack_from_all; [lra|exact Ho]|].
    clear. induction net as [|nod net IH] using rev_ind; [unfold slack_from; cbn; lra|]. rewrite !slack_from_step. destruct (fst nod) as [L|]; [|exact IH].
    pose proof (Rmax_l 1 (nl_gain L)). nra. }
  assert (net_slack (firstn (Datatypes.S o) net) * d' <= (net_error net + 1) * d') by (apply Rmult_le_compat_r; lra). lra.
Qed.

(** a decision taken with a margin on the computed bounds holds for the network, and for the network evaluated with errors *)
Lemma rounded_decision : forall ke D n mode z opts net v o d d' X r u l j k,
  0 < ke -> (0 < n)%nat -> norm_ok D -> net_ok n net -> net_value net v -> layers_ok mode opts net -> (o < length net)%nat ->
  (forall i L ps, nth_error net i = Some (Some L, ps) -> nl_piecewise L) ->
  0 <= d -> 0 <= d' -> 0 <= X -> (mode <> IBP -> domain_within (in_dom D n z) n X) -> rounded_run ke D n mode IBP opts net o z d r ->
  r_out r = [u; l] -> (j < net_dim n net o)%nat -> (k < net_dim n net o)%nat ->
  2 * ((net_error net + 1) * (ke + d * reach mode n X + d')) < l 0%nat j - u 0%nat k ->
  forall y, in_dom D n z y -> v o y k < v o y j /\ forall a, rounded_values net d' y a -> a o k < a o j.
Proof.
  intros ke D n mode z opts net v o d d' X r u l j k Hke Hn HD Hnet Hval Hlay Ho Hpw Hd Hd' HX HS Hrun Er Hj Hk Hm y Hy.
  destruct (rounded_constants ke D n mode z opts net v o d X r Hke Hn HD Hnet Hval Hlay Ho Hpw Hd HX HS Hrun) as (u' & l' & E & B). rewrite Er in E. injection E as <- <-.
  split.
  - pose proof (B y j Hy Hj). pose proof (B y k Hy Hk). pose proof (net_error_pos net). assert (0 <= (net_error net + 1) * d') by nra. lra.
  - intros a Ha. destruct (rounded_network ke D n mode z opts net v o d d' X r y a Hke Hn HD Hnet Hval Hlay Ho Hpw Hd Hd' HX HS Hrun Hy Ha) as (u' & l' & E & Q).
    rewrite Er in E. injection E as <- <-. pose proof (Q j Hj). pose proof (Q k Hk). lra.
Qed.

(** no factor works for all weights *)
Definition scale_net (c : R) : network := [(None, []); (Some (NDense 1 1 1 (fun _ _ => c) None), [0%nat])].
Definition scale_value (c : R) (i : nat) (y : vec) : vec := match i with O => y | _ => fun _ => y 0%nat * c end.
Definition unit_box : tensor := fun k _ => if Nat.eqb k 0 then 0 else 1.

Lemma scale_ok : forall c, net_ok 1 (scale_net c) /\ net_value (scale_net c) (scale_value c) /\ single_output (scale_net c) 1 /\
  layers_ok IBP (fun _ => mk_opts V_SLOPE None false) (scale_net c) /\
  (forall i L ps, nth_error (scale_net c) i = Some (Some L, ps) -> nl_piecewise L).
Proof.
  intros c. split; [|split; [|split; [|split]]].
  - intros i o ps E. unfold scale_net in E. each_node E; (split; [intros p Hp; cbn in Hp; lia|]); try reflexivity; (split; [discriminate|reflexivity]).
  - intros y i o ps E. unfold scale_net in E. each_node E; cbn [scale_value]; [reflexivity|].
    intros p u Hp Hu. replace p with O by lia. replace u with O by lia. cbn. ring.
  - split; [cbn; lia|]. intros j Hj. cbn in Hj. destruct j as [|[|]]; [step 1%nat; constructor|constructor|lia].
  - intros i L ps E. unfold scale_net in E. each_node E; cbn; auto.
  - intros i L ps E. unfold scale_net in E. each_node E; cbn; auto.
Qed.

Lemma rounding_factor : forall ke d K, 0 < d -> exists net v o r u l y,
  net_ok 1 net /\ net_value net v /\ single_output net o /\ layers_ok IBP (fun _ => mk_opts V_SLOPE None false) net /\
  (forall i L ps, nth_error net i = Some (Some L, ps) -> nl_piecewise L) /\
  rounded_run ke Box 1 IBP IBP (fun _ => mk_opts V_SLOPE None false) net o unit_box d r /\ r_out r = [u; l] /\
  in_dom Box 1 unit_box y /\ u 0%nat 0%nat + K * d < v o y 0%nat.
Proof.
  intros ke d K Hd. set (c := Rmax K 0 + 1). assert (Hc : 0 < c) by (unfold c; pose proof (Rmax_r K 0); lra).
  destruct (scale_ok c) as (H1 & H2 & H3 & H4 & H5).
  set (u := (fun _ _ => (1 - d) * c) : tensor). set (l := (fun _ _ => 0) : tensor).
  exists (scale_net c), (scale_value c), 1%nat, (mk_run [fun _ _ => 1 - d; fun _ _ => 0] (fun i => match i with O => [fun _ _ => 1 - d; fun _ _ => 0] | _ => [u; l] end) [u; l]), u, l, (fun _ => 1).
  split; [exact H1|]. split; [exact H2|]. split; [exact H3|]. split; [exact H4|]. split; [exact H5|]. split; [|split; [reflexivity|split]].
  - split; [|split].
    + intros its E. destruct its as [|a [|b [|]]]; try discriminate E; try (exfalso; cbn in E; congruence).
      injection E as <- <-. split; intros i j Hi Hj; cbn; apply Rabs_le; lra.
    + intros i q ps E. unfold scale_net in E. each_node E; [reflexivity|]. cbn [r_nodes map concat app]. intros out E.
      injection E as <-. split; intros i j Hi Hj; replace i with O by lia; cbn in Hj; replace j with O by lia; cbn; unfold tadd, ew2, u, l, kdot, kpos, kneg; cbn;
        rewrite ?(Rmax_right 0 c), ?(Rmin_left 0 c) by lra; apply Rabs_le; lra.
    + intros out E. injection E as <-. split; apply entries_close_refl; lra.
  - intros i Hi. cbn. lra.
  - cbn. unfold u. assert (K < c) by (unfold c; pose proof (Rmax_l K 0); lra). nra.
Qed.

(** on the image network of C46, a box of numbers between -1 and 1: there are runs, and their bounds are near the values *)
Lemma image_rounded : forall ke mode opts kernel bias gamma mean dense z d,
  0 < ke -> 0 <= d -> (forall i, plain (opts i)) -> (forall i, (i < 9)%nat -> -1 <= z 0%nat i <= 1 /\ -1 <= z 1%nat i <= 1) ->
  let net := image_net kernel bias gamma mean dense in
  exists v, net_value net v /\ (exists r, rounded_run ke Box 9 mode IBP opts net 8 z d r) /\
    forall r, rounded_run ke Box 9 mode IBP opts net 8 z d r ->
    exists u l, r_out r = [u; l] /\ forall y j, in_dom Box 9 z y -> (j < net_dim 9 net 8)%nat ->
      l 0%nat j - (net_error net + 1) * (ke + d * reach mode 9 1) <= v 8%nat y j <= u 0%nat j + (net_error net + 1) * (ke + d * reach mode 9 1).
Proof.
  intros ke mode opts kernel bias gamma mean dense z d Hke Hd Ho Hz net. exists (net_fn net). split; [apply image_value|].
  assert (Hpw : forall i L ps, nth_error net i = Some (Some L, ps) -> nl_piecewise L).
  { intros i L ps E. unfold net, image_net in E. each_node E; cbn; auto. }
  split.
  - destruct (exact_run ke Box 9 mode IBP z opts net (net_fn net) 8 d) as (r & _ & Hr); auto; try lia; try exact I;
      [apply image_net_ok|apply image_value|apply image_layers_all; exact Ho|apply image_output|]. exists r. exact Hr.
  - intros r Hr. apply (rounded_constants ke Box 9 mode z opts net (net_fn net) 8 d 1 r); auto; try lia; try lra; try exact I;
      [apply image_net_ok|apply image_value|apply image_layers_all; exact Ho|].
    intros _ y i Hy Hi. destruct (Hz i Hi) as [A B]. cbn in Hy. unfold in_box in Hy. pose proof (Hy i Hi) as C. cbn beta in C. apply Rabs_le. lra.
Qed.
