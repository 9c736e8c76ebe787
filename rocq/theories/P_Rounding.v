(** Proofs: rounding errors (C73). *)
From Coq Require Import Reals List Arith Bool ZArith Lia Lra Psatz FunctionalExtensionality.
From Verif Require Import RLib Spec Spec_Layers Spec_Backward Spec_Convert Spec_Near Spec_Rounding M_Core M_Utils M_MergeLayers M_Ops M_Layers M_Backward M_Crown M_Convert M_Network M_Rounding.
From Verif Require Import P_Core P_Utils P_Layers P_Graph P_Crown P_Convert P_Network P_NetworkForward P_NetworkThm P_Near.
From Verif Require Import Spec_Network.
Import ListNotations.
Local Open Scope R_scope.

Lemma Rabs_both : forall a b, Rabs a <= b -> - b <= a <= b.
Proof. intros a b H. pose proof (Rle_abs a). pose proof (Rle_abs (- a)). rewrite Rabs_Ropp in *. lra. Qed.

Lemma entries_close_refl : forall n m t d, 0 <= d -> entries_close n m d t t.
Proof. intros n m t d Hd i j _ _. rewrite Rminus_diag_eq, Rabs_R0; auto. Qed.

Lemma aff_close : forall n m d X w w' b b' z j, 0 <= d -> entries_close n m d w w' -> entries_close 1 m d b b' ->
  (forall i, (i < n)%nat -> Rabs (z i) <= X) -> (j < m)%nat ->
  Rabs (aff n w' (b' 0%nat) z j - aff n w (b 0%nat) z j) <= d * (1 + INR n * X).
Proof.
  intros n m d X w w' b b' z j Hd Hw Hb Hz Hj. unfold aff, dot.
  assert (H1 : Rabs (rsum n (fun i => w' i j * z i) - rsum n (fun i => w i j * z i)) <= INR n * (d * X)).
  { assert (G : forall k, (k <= n)%nat -> Rabs (rsum k (fun i => w' i j * z i) - rsum k (fun i => w i j * z i)) <= INR k * (d * X)).
    { intros k. induction k as [|k IH]; intros Hk; [cbn; rewrite Rminus_0_r, Rabs_R0; lra|].
      rewrite S_INR. cbn [rsum]. specialize (IH ltac:(lia)). pose proof (Hw k j ltac:(lia) Hj) as H. pose proof (Hz k ltac:(lia)) as Q.
      assert (P : Rabs (w' k j * z k - w k j * z k) <= d * X).
      { replace (w' k j * z k - w k j * z k) with ((w' k j - w k j) * z k) by ring. rewrite Rabs_mult. apply Rmult_le_compat; auto; apply Rabs_pos. }
      match goal with |- Rabs ?a <= _ => replace a with ((rsum k (fun i => w' i j * z i) - rsum k (fun i => w i j * z i)) + (w' k j * z k - w k j * z k)) by ring end.
      eapply Rle_trans; [apply Rabs_triang|]. lra. }
    apply G. lia. }
  pose proof (Hb 0%nat j ltac:(lia) Hj) as H2.
  match goal with |- Rabs ?a <= _ => replace a with ((rsum n (fun i => w' i j * z i) - rsum n (fun i => w i j * z i)) + (b' 0%nat j - b 0%nat j)) by ring end.
  eapply Rle_trans; [apply Rabs_triang|]. lra.
Qed.

Lemma reach_pos : forall mode n X, 0 <= X -> 1 <= reach mode n X.
Proof. intros mode n X H. pose proof (pos_INR n). destruct mode; cbn; nra. Qed.

Lemma in_dom_eq : forall D n x x' z, (forall k i, x' k i = x k i) -> in_dom D n x z -> in_dom D n x' z.
Proof.
  intros D n x x' z E H. replace x' with x; [exact H|]. extensionality k. extensionality i. symmetry. apply E.
Qed.

Lemma const_close : forall (S : vec -> Prop) m e d f u u' l l', const_near S m e f (u 0%nat) (l 0%nat) -> entries_close 1 m d u u' -> entries_close 1 m d l l' ->
  const_near S m (e + d) f (u' 0%nat) (l' 0%nat).
Proof.
  intros S m e d f u u' l l' H Hu Hl z j Hz Hj. specialize (H z j Hz Hj). specialize (Hu 0%nat j ltac:(lia) Hj). specialize (Hl 0%nat j ltac:(lia) Hj).
  apply Rabs_both in Hu. apply Rabs_both in Hl. lra.
Qed.

Lemma affine_close : forall (S : vec -> Prop) n m e d X f wu wu' bu bu' wl wl' bl bl', 0 <= d -> domain_within S n X ->
  affine_near S n m e f wu (bu 0%nat) wl (bl 0%nat) ->
  entries_close n m d wu wu' -> entries_close 1 m d bu bu' -> entries_close n m d wl wl' -> entries_close 1 m d bl bl' ->
  affine_near S n m (e + d * (1 + INR n * X)) f wu' (bu' 0%nat) wl' (bl' 0%nat).
Proof.
  intros S n m e d X f wu wu' bu bu' wl wl' bl bl' Hd HX H H1 H2 H3 H4 z j Hz Hj. specialize (H z j Hz Hj).
  assert (Hz' : forall i, (i < n)%nat -> Rabs (z i) <= X) by (intros i Hi; apply HX; auto).
  pose proof (aff_close n m d X wu wu' bu bu' z j Hd H1 H2 Hz' Hj) as A. pose proof (aff_close n m d X wl wl' bl bl' z j Hd H3 H4 Hz' Hj) as B.
  apply Rabs_both in A. apply Rabs_both in B. lra.
Qed.

Lemma near_close : forall D mode (S : vec -> Prop) n m e d X f ts ts', 0 <= d -> 0 <= X -> (mode <> IBP -> domain_within S n X) ->
  near D mode S n m e f ts -> close mode n m d ts ts' -> near D mode S n m (e + d * reach mode n X) f ts'.
Proof.
  intros D mode S n m e d X f ts ts' Hd HX0 HX H C. destruct mode; cbn [near close reach] in *.
  - destruct ts as [|u [|l [|]]]; try contradiction. destruct ts' as [|u' [|l' [|]]]; try contradiction. destruct C as [Cu Cl].
    rewrite Rmult_1_r. eapply const_close; eauto.
  - destruct ts as [|x [|wu [|bu [|wl [|bl [|]]]]]]; try contradiction. destruct ts' as [|x' [|wu' [|bu' [|wl' [|bl' [|]]]]]]; try contradiction.
    destruct C as (Cx & C1 & C2 & C3 & C4). destruct H as [Hx H]. split; [intros z Hz; eapply in_dom_eq; eauto|]. eapply affine_close; eauto; apply HX; discriminate.
  - destruct ts as [|x [|u [|wu [|bu [|l [|wl [|bl [|]]]]]]]]; try contradiction. destruct ts' as [|x' [|u' [|wu' [|bu' [|l' [|wl' [|bl' [|]]]]]]]]; try contradiction.
    destruct C as (Cx & Cu & Cl & C1 & C2 & C3 & C4). destruct H as (Hx & Hc & H). split; [intros z Hz; eapply in_dom_eq; eauto|]. split; [|eapply affine_close; eauto; apply HX; discriminate].
    intros z j Hz Hj. pose proof (const_close S m e d f u u' l l' Hc Cu Cl z j Hz Hj). pose proof (pos_INR n). assert (0 <= d * (INR n * X)) by (apply Rmult_le_pos; nra). lra.
Qed.

(** ** The network *)
Definition slack_from (K : R) (net : network) : R :=
  fold_left (fun K nod => match fst nod with None => K | Some L => Rmax 1 (nl_gain L) * (K + 1) end) net K.
Lemma slack_from_step : forall K net nod, slack_from K (net ++ [nod]) = match fst nod with None => slack_from K net | Some L => Rmax 1 (nl_gain L) * (slack_from K net + 1) end.
Proof. intros. unfold slack_from. rewrite fold_left_app. reflexivity. Qed.
Lemma slack_from_pos : forall K net, 0 <= K -> K <= slack_from K net.
Proof.
  intros K net HK. induction net as [|nod net IH] using rev_ind; [unfold slack_from; cbn; lra|]. rewrite slack_from_step. destruct (fst nod) as [L|]; [|exact IH].
  pose proof (Rmax_l 1 (nl_gain L)). nra.
Qed.
Lemma slack_from_app : forall K net net', 0 <= K -> slack_from K net <= slack_from K (net ++ net').
Proof.
  intros K net net' HK. induction net' as [|nod net' IH] using rev_ind; [rewrite app_nil_r; lra|]. rewrite app_assoc, slack_from_step. destruct (fst nod) as [L|]; [|exact IH].
  pose proof (Rmax_l 1 (nl_gain L)). pose proof (slack_from_pos K (net ++ net') HK). nra.
Qed.
Lemma slack_from_firstn : forall K net i k, 0 <= K -> (i <= k)%nat -> slack_from K (firstn i net) <= slack_from K (firstn k net).
Proof.
  intros K net i k HK H. rewrite <- (firstn_skipn i (firstn k net)). rewrite firstn_firstn, Nat.min_l by exact H. apply slack_from_app. exact HK.
Qed.
Lemma slack_from_all : forall K net i, 0 <= K -> (i <= length net)%nat -> slack_from K (firstn i net) <= slack_from K net.
Proof. intros K net i HK H. rewrite <- (firstn_all net) at 2. apply slack_from_firstn; auto. Qed.

Lemma run_near : forall ke D n mode final z opts net v o d X r,
  0 < ke -> (0 < n)%nat -> norm_ok D -> net_ok n net -> net_value net v -> layers_ok mode opts net ->
  (forall i L ps, nth_error net i = Some (Some L, ps) -> nl_piecewise L) ->
  0 <= d -> 0 <= X -> (mode <> IBP -> domain_within (in_dom D n z) n X) -> rounded_run ke D n mode final opts net o z d r ->
  forall i, (i < length net)%nat ->
    near D mode (in_dom D n z) n (net_dim n net i) (slack_from 1 (firstn (Datatypes.S i) net) * (ke + d * reach mode n X)) (v i) (r_nodes r i).
Proof.
  intros ke D n mode final z opts net v o d X r Hke Hn HD Hnet Hval Hlay Hpw Hd HX HS (Hin & Hrun & _).
  set (sp := mk_spec false mode D n). set (e' := ke + d * reach mode n X).
  assert (Hr : 0 <= d * reach mode n X) by (pose proof (reach_pos mode n X HX); nra).
  assert (He' : 0 < e') by (unfold e'; lra).
  assert (Hdok : dom_ok D mode) by (destruct mode; cbn; auto).
  destruct (input_tensors_ok D mode n z Hn (fun _ => HD)) as (its & Ei & Vi). apply valid_near in Vi.
  pose proof (near_close D mode _ n n 0 d X _ its (r_inputs r) Hd HX HS Vi (Hin its Ei)) as Vin.
  intros i. induction i as [i IH] using lt_wf_ind. intros Hi.
  destruct (nth_error net i) as [[q ps]|] eqn:En; [|apply nth_error_None in En; lia].
  destruct (Hnet i q ps En) as [Hp Ho]. specialize (Hrun i q ps En). rewrite (firstn_S _ _ _ _ En), slack_from_step. cbn [fst]. unfold net_dim at 1. rewrite En.
  pose proof (slack_from_pos 1 (firstn i net) ltac:(lra)) as Hpos. destruct q as [L|].
  - destruct Ho as [Hps Hdim]. destruct (Hlay i L ps En) as [Hok Hft].
    destruct (layer_near ke sp (in_dom D n z) (opts i) L (slack_from 1 (firstn i net) * e') (map v ps) (map (r_nodes r) ps) (v i) Hke Hn Hdok eq_refl (Hpw i L ps En) Hok Hft) as (out & Eo & Vo).
    + nra.
    + rewrite <- Hdim, combine_map. apply Forall2_map_map. intros p Q. cbn. specialize (IH p (Hp p Q) ltac:(specialize (Hp p Q); lia)).
      eapply near_weaken; [| |exact IH]; [|reflexivity]. apply Rmult_le_compat_r; [lra|]. apply slack_from_firstn; [lra|]. specialize (Hp p Q). lia.
    + rewrite <- Hdim, !map_length. reflexivity.
    + intros y. rewrite map_map. exact (Hval y i (Some L) ps En).
    + pose proof (near_close D mode _ n (nl_out L) _ d X _ out (r_nodes r i) Hd HX HS Vo (Hrun out Eo)) as W.
      eapply near_weaken; [| |exact W]; [|reflexivity]. pose proof (Rmax_l 1 (nl_gain L)) as G1. unfold e' in *. nra.
  - subst ps. rewrite Hrun. apply (near_weaken D mode _ n n (0 + d * reach mode n X) _ (fun y => y)); [unfold e' in *; nra| |exact Vin].
    intros y j _ _. symmetry. exact (Hval y i None [] En j).
Qed.

Lemma reach_final : forall mode final n X, 0 <= X -> (mode = IBP -> final = IBP) -> reach final n X <= reach mode n X.
Proof.
  intros mode final n X HX H. pose proof (reach_pos mode n X HX). pose proof (reach_pos final n X HX).
  destruct mode; [rewrite (H eq_refl); lra|destruct final; cbn in *; lra|destruct final; cbn in *; lra].
Qed.

Lemma rounded_near : forall ke D n mode final z opts net v o d X r,
  0 < ke -> (0 < n)%nat -> norm_ok D -> (mode = IBP -> final = IBP) ->
  net_ok n net -> net_value net v -> layers_ok mode opts net -> (o < length net)%nat ->
  (forall i L ps, nth_error net i = Some (Some L, ps) -> nl_piecewise L) ->
  0 <= d -> 0 <= X -> (mode <> IBP -> domain_within (in_dom D n z) n X) -> rounded_run ke D n mode final opts net o z d r ->
  near D final (in_dom D n z) n (net_dim n net o) ((net_error net + 1) * (ke + d * reach mode n X)) (v o) (r_out r).
Proof.
  intros ke D n mode final z opts net v o d X r Hke Hn HD Hmf Hnet Hval Hlay Ho Hpw Hd HX HS Hrun.
  pose proof (run_near ke D n mode final z opts net v o d X r Hke Hn HD Hnet Hval Hlay Hpw Hd HX HS Hrun o Ho) as V.
  assert (Hdok : dom_ok D mode) by (destruct mode; cbn; auto).
  destruct (convert2mode_near D n mode final _ _ _ _ (r_nodes r o) Hn Hdok Hmf V) as (out & Eo & Vo).
  destruct Hrun as (_ & _ & Hc). pose proof (near_close D final _ n _ _ d X _ out (r_out r) Hd HX (fun Q => HS (fun E => Q (Hmf E))) Vo (Hc out Eo)) as W.
  eapply near_weaken; [| |exact W]; [|reflexivity].
  pose proof (slack_from_all 1 net (Datatypes.S o) ltac:(lra) Ho) as K. change (net_error net) with (slack_from 1 net).
  pose proof (reach_final mode final n X HX Hmf) as Q. pose proof (reach_pos mode n X HX). pose proof (reach_pos final n X HX).
  assert (0 <= d * reach mode n X) by nra. assert (d * reach final n X <= d * reach mode n X) by nra.
  assert (slack_from 1 (firstn (Datatypes.S o) net) * (ke + d * reach mode n X) <= slack_from 1 net * (ke + d * reach mode n X)) by (apply Rmult_le_compat_r; lra).
  lra.
Qed.
