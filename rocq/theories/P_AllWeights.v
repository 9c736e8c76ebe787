(** Proofs about all the weights of a layer given or shared at once (C45) *)
From Coq Require Import String Ascii Reals List Arith Bool ZArith Lia Permutation.
From Verif Require Import RLib Spec Spec_Layers M_Core M_Utils M_MergeLayers M_Ops M_Layers M_Convert M_State Spec_State.
From Verif Require Import P_State P_StateNames P_StateTables P_StateDomain P_StateWeights P_StateThm M_AllWeights.
Import ListNotations.
Local Open Scope nat_scope.

Lemma ov_attr : forall l n v, wl_attr l n = Some v -> ov l n = v.
Proof. intros l n v E. unfold ov. rewrite E. reflexivity. Qed.

Lemma reset_all : forall name st new orig, wl_built orig = true -> wl_built new = true -> NoDup (wl_weights new) ->
  (forall v, In v (wl_weights new) -> wl_attr new (name v) = Some v /\ exists w, wl_attr orig (name v) = Some w /\ In w (wl_weights orig) /\ tv_shape (st v) = tv_shape (st w)) ->
  exists st', reset_layer_all_weights name st new orig = Ok st' /\
    (forall v w, In v (wl_weights new) -> wl_attr orig (name v) = Some w -> st' v = st w) /\ forall v, ~ In v (wl_weights new) -> st' v = st v.
Proof.
  intros name st new orig Bo Bn ND H. set (names := map name (wl_weights new)).
  assert (H1 : forall n, In n names -> has_weight orig n /\ has_weight new n).
  { intros n Hn. apply in_map_iff in Hn. destruct Hn as (v & <- & Hv). destruct (H v Hv) as (A & w & B & C & _). split; [exists w|exists v]; auto. }
  assert (H2 : forall n, In n names -> tv_shape (st (ov new n)) = tv_shape (st (ov orig n))).
  { intros n Hn. apply in_map_iff in Hn. destruct Hn as (v & <- & Hv). destruct (H v Hv) as (A & w & B & _ & C). rewrite (ov_attr _ _ _ A), (ov_attr _ _ _ B). exact C. }
  assert (H3 : forall n n', In n names -> In n' names -> ov new n = ov new n' -> n = n').
  { intros n n' Hn Hn' E. apply in_map_iff in Hn. destruct Hn as (v & <- & Hv). apply in_map_iff in Hn'. destruct Hn' as (v' & <- & Hv').
    rewrite (ov_attr _ _ _ (proj1 (H v Hv))), (ov_attr _ _ _ (proj1 (H v' Hv'))) in E. congruence. }
  destruct (reset_named st new orig names Bo Bn ND H1 H2 H3) as (st' & E & V). destruct (reset_ok st new orig names Bo Bn ND H1 H2) as (st2 & E2 & _ & U).
  assert (st' = st2) by congruence. subst st2. exists st'. split; [exact E|]. split.
  - intros v w Hv Hw. specialize (V (name v) (in_map name _ _ Hv)). rewrite (ov_attr _ _ _ (proj1 (H v Hv))), (ov_attr _ _ _ Hw) in V. exact V.
  - intros v Hv. apply U. intros n Hn Q. apply in_map_iff in Hn. destruct Hn as (v' & <- & Hv'). rewrite (proj1 (H v' Hv')) in Q. injection Q as ->. contradiction.
Qed.

Lemma share_all : forall name created orig new (fr : string -> nat), wl_built orig = true -> wl_built new = false -> wl_weights new = [] -> NoDup (wl_weights orig) ->
  (forall w, In w (wl_weights orig) -> wl_attr orig (name w) = Some w) ->
  Permutation (map fst created) (map name (wl_weights orig)) -> (forall n v, In (n, v) created -> v = fr n) ->
  (forall v w, In v (wl_weights orig) -> In w (wl_weights orig) -> fr (name v) = fr (name w) -> v = w) -> (forall v w, In v (wl_weights orig) -> In w (wl_weights orig) -> v <> fr (name w)) ->
  exists l, share_layer_all_weights name created true orig new = Ok l /\ wl_built l = true /\ wl_weights l = wl_weights orig /\
    forall w, In w (wl_weights orig) -> wl_attr l (name w) = Some w.
Proof.
  intros name created orig new fr Bo Bn Wn ND A P F I D. set (names := map name (wl_weights orig)).
  assert (O : forall w, In w (wl_weights orig) -> ov orig (name w) = w) by (intros w Hw; apply ov_attr, A, Hw).
  destruct (share_ok created orig new names fr Bo Bn Wn) as (l & E & B & W & T).
  - unfold names. clear - ND O. induction (wl_weights orig) as [|w q IH]; [constructor|]. inversion ND as [|? ? N1 N2]; subst. cbn [map]. constructor.
    + intros Q. apply in_map_iff in Q. destruct Q as (w' & Q & Hw'). apply N1. rewrite <- (O w (or_introl eq_refl)), <- Q, (O w' (or_intror Hw')). exact Hw'.
    + apply IH; [exact N2|]. intros z Hz. apply O. right. exact Hz.
  - intros n Hn. apply in_map_iff in Hn. destruct Hn as (w & <- & Hw). exists w. apply A. exact Hw.
  - intros n m Hn Hm Q. apply in_map_iff in Hn. destruct Hn as (w & <- & Hw). apply in_map_iff in Hm. destruct Hm as (w' & <- & Hw').
    rewrite (O w Hw), (O w' Hw') in Q. congruence.
  - exact P.
  - exact F.
  - intros n m Hn Hm Q. apply in_map_iff in Hn. destruct Hn as (w & <- & Hw). apply in_map_iff in Hm. destruct Hm as (w' & <- & Hw'). f_equal. apply I; assumption.
  - intros n m Hn Hm. apply in_map_iff in Hn. destruct Hn as (w & <- & Hw). apply in_map_iff in Hm. destruct Hm as (w' & <- & Hw'). rewrite (O w Hw). apply D; assumption.
  - exists l. split; [exact E|]. split; [exact B|]. split.
    + rewrite W. unfold names. rewrite map_map. erewrite map_ext_in; [apply map_id|exact O].
    + intros w Hw. rewrite (T (name w) (in_map name _ _ Hw)). apply A. exact Hw.
Qed.

(** a weight that is not an attribute of the layer under its name *)
Lemma all_not_attribute : forall name st new orig v created, wl_built orig = true -> wl_built new = true ->
  (In v (wl_weights new) -> wl_attr new (name v) = None -> forall st', reset_layer_all_weights name st new orig <> Ok st') /\
  (forall w, In w (wl_weights orig) -> wl_attr orig (name w) = None -> forall new' l, share_layer_all_weights name created true orig new' <> Ok l).
Proof.
  intros name st new orig v created Bo Bn. split.
  - intros Hv N st' E. apply reset_requires in E. destruct E as (_ & _ & E). destruct (E (name v) (in_map name _ _ Hv)) as [_ (x & Q & _)]. congruence.
  - intros w Hw N new' l E. unfold share_layer_all_weights, share_weights_and_build in E. rewrite Bo in E. cbn [negb] in E. destruct (wl_built new'); [discriminate|].
    apply (in_map name) in Hw. revert E. generalize (map name (wl_weights orig)) at 2. intros names2 E. 
    assert (G : forall names l0, In (name w) names -> forall l1, foldR (fun l name => match wl_attr orig name with Some w => set_attr l name w | None => Err AttributeError end) names l0 <> Ok l1).
    { clear E Hw. induction names as [|n q IH]; intros l0 Hn l1 Q; [destruct Hn|]. cbn in Q. destruct Hn as [->|Hn]; [rewrite N in Q; discriminate|].
      destruct (wl_attr orig n) as [u|]; [|discriminate]. destruct (set_attr l0 n u) as [l2|]; [|discriminate]. cbn in Q. exact (IH l2 Hn l1 Q). }
    destruct (foldR _ (map name (wl_weights orig)) new') as [l1|] eqn:Q; [|discriminate]. exact (G _ _ Hw _ Q).
Qed.

(** a Dense layer: kernel and bias *)
Definition name2 (v : nat) : string := if Nat.even v then "kernel"%string else "bias"%string.
Definition attrs2 (k b : nat) (s : string) : option nat := if String.eqb s "kernel" then Some k else if String.eqb s "bias" then Some b else None.
Lemma all_example : let orig := mk_wlayer true [0; 1] (attrs2 0 1) in let new := mk_wlayer true [2; 3] (attrs2 2 3) in let st : store := fun v => mk_tval [1] (fun _ => INR v) in
  (forall v, In v (wl_weights new) -> wl_attr new (name2 v) = Some v /\ exists w, wl_attr orig (name2 v) = Some w /\ In w (wl_weights orig) /\ tv_shape (st v) = tv_shape (st w)) /\
  (forall w, In w (wl_weights orig) -> wl_attr orig (name2 w) = Some w) /\
  share_layer_all_weights name2 [("kernel", 4); ("bias", 5)]%string true orig (mk_wlayer false [] (fun _ => None)) = Ok (mk_wlayer true [0; 1] (upd_s (upd_s (upd_s (upd_s (upd_s (upd_s (fun _ => None) "kernel" (Some 0)) "bias" (Some 1)) "kernel" (Some 4)) "bias" (Some 5)) "kernel" (Some 0)) "bias" (Some 1)))%string.
Proof.
  cbn zeta. split; [|split; [|reflexivity]].
  - intros v [<-|[<-|[]]]; (split; [reflexivity|]); [exists 0|exists 1]; (split; [reflexivity|split; [cbn; auto|reflexivity]]).
  - intros w [<-|[<-|[]]]; reflexivity.
Qed.
