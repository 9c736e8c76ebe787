(** Proofs about M_Complexity. *)
From Coq Require Import List Arith Bool Lia Permutation.
From Verif Require Import Spec_Complexity RLib M_Core M_Convert M_Complexity P_Graph.
Import ListNotations.

Definition counted {A} (cls : nat -> opclass) (g : fgraph A) (i : nat) : bool :=
  match nth_error g i with Some nod => match cls (fn_op nod) with OpOther => true | _ => false end | None => false end.
Lemma fold_count : forall (f : nat -> bool) l a, fold_left (fun nb i => if f i then S nb else nb) l a = a + length (filter f l).
Proof. intros f l. induction l as [|i l IH]; intros a; cbn; [lia|]. rewrite IH. destruct (f i); cbn; lia. Qed.
Lemma fold_keys : forall (f : nat -> bool) (b : nat -> list nat) ks a,
  fold_left (fun nb k => fold_left (fun nb i => if f i then S nb else nb) (b k) nb) ks a = a + length (filter f (flat_map b ks)).
Proof.
  intros f b ks. induction ks as [|k ks IH]; intros a; cbn; [lia|]. rewrite IH, fold_count, filter_app, app_length. lia.
Qed.
Lemma kdepths_le : forall A (g : fgraph A) i, i < length g -> kdepths g i <= max_kdepth g.
Proof.
  intros A g i H. unfold max_kdepth, max_list_nat. assert (Hi : In (kdepths g i) (map (kdepths g) (seq 0 (length g)))) by (apply in_map, in_seq; lia).
  revert Hi. generalize (map (kdepths g) (seq 0 (length g))). intros l. induction l as [|a l IH]; cbn; intros Hi; [contradiction|].
  destruct Hi as [-> | Hi]; [lia|]. specialize (IH Hi). lia.
Qed.
Lemma every_node_once : forall A (g : fgraph A), Permutation (flat_map (at_depth g) (rev (seq 0 (S (max_kdepth g))))) (seq 0 (length g)).
Proof.
  intros A g. apply NoDup_Permutation.
  - apply NoDup_flat_map with (key := kdepths g).
    + intros k i H. apply filter_In in H. apply Nat.eqb_eq. tauto.
    + intros k. apply NoDup_filter, seq_NoDup.
    + apply NoDup_rev, seq_NoDup.
  - apply seq_NoDup.
  - intros i. rewrite in_flat_map. split.
    + intros (k & _ & H). apply filter_In in H. tauto.
    + intros H. exists (kdepths g i). split; [|apply filter_In; split; [exact H|apply Nat.eqb_refl]].
      rewrite <- in_rev. apply in_seq in H. apply in_seq. pose proof (kdepths_le A g i). lia.
Qed.
Lemma filter_perm : forall (f : nat -> bool) l l', Permutation l l' -> length (filter f l) = length (filter f l').
Proof. intros f l l' H. induction H; cbn; try (destruct (f x)); try (destruct (f y)); cbn; lia. Qed.
Lemma counted_nodes : forall A cls (g : fgraph A), length (filter (counted cls g) (seq 0 (length g))) = layer_calls (map (fun nod => cls (fn_op nod)) g).
Proof.
  intros A cls g.
  assert (G : forall (h : fgraph A) k, (forall i, nth_error g (k + i) = nth_error h i) -> length (filter (counted cls g) (seq k (length h))) = layer_calls (map (fun nod => cls (fn_op nod)) h)).
  { intros h. induction h as [|a h IH]; intros k H; [reflexivity|]. cbn [length seq filter map layer_calls].
    assert (E : counted cls g k = match cls (fn_op a) with OpOther => true | _ => false end). { unfold counted. specialize (H 0). rewrite Nat.add_0_r in H. rewrite H. reflexivity. }
    rewrite E. assert (I : length (filter (counted cls g) (seq (S k) (length h))) = layer_calls (map (fun nod => cls (fn_op nod)) h)).
    { apply IH. intros i. specialize (H (S i)). rewrite <- plus_n_Sm in H. exact H. }
    destruct (cls (fn_op a)); cbn [length]; rewrite I; reflexivity. }
  apply (G g 0). intros i. reflexivity.
Qed.
Lemma fold_left_same : forall A B (f g : A -> B -> A) l a, (forall x y, f x y = g x y) -> fold_left f l a = fold_left g l a.
Proof. intros A B f g l. induction l as [|b l IH]; intros a H; cbn; [reflexivity|]. rewrite H. apply IH, H. Qed.
Lemma complexity_calls : forall A cls (g : fgraph A), get_graph_complexity cls g = layer_calls (map (fun nod => cls (fn_op nod)) g).
Proof.
  intros A cls g. rewrite <- counted_nodes. rewrite <- (filter_perm (counted cls g) _ _ (every_node_once A g)).
  pose proof (fold_keys (counted cls g) (at_depth g) (rev (seq 0 (S (max_kdepth g)))) 0) as K. cbn [Nat.add] in K. rewrite <- K. unfold get_graph_complexity. apply fold_left_same. intros a k. apply fold_left_same. intros nb i.
  unfold counted. destruct (nth_error g i) as [nod|]; [|reflexivity]. destruct (cls (fn_op nod)); reflexivity.
Qed.
Lemma layer_calls_perm : forall l l', Permutation l l' -> layer_calls l = layer_calls l'.
Proof. intros l l' H. induction H; cbn; try (destruct x); try (destruct y); congruence. Qed.
Lemma complexity_order : forall A B cls (g : fgraph A) (h : fgraph B), Permutation (map fn_op g) (map fn_op h) -> get_graph_complexity cls g = get_graph_complexity cls h.
Proof.
  intros A B cls g h H. rewrite !complexity_calls. apply layer_calls_perm. rewrite <- !(map_map fn_op cls). apply Permutation_map. exact H.
Qed.
Lemma layer_calls_ops : forall (cls : nat -> opclass) (l : list nat), layer_calls (map cls l) = length (filter (fun a => match cls a with OpOther => true | _ => false end) l).
Proof. intros cls l. induction l as [|a l IH]; cbn; [reflexivity|]. destruct (cls a); cbn; congruence. Qed.
Lemma complexity_layers : forall A cls (g : fgraph A) ids, NoDup ids -> (forall a, In a ids <-> In a (map fn_op g) /\ cls a = OpOther) ->
  length ids <= get_graph_complexity cls g /\ (length ids = get_graph_complexity cls g <-> forall i j a b, nth_error g i = Some a -> nth_error g j = Some b -> cls (fn_op a) = OpOther -> fn_op a = fn_op b -> i = j).
Proof.
  intros A cls g ids Hn Hi. rewrite complexity_calls. rewrite <- (map_map fn_op cls), layer_calls_ops.
  set (f := fun a => match cls a with OpOther => true | _ => false end).
  assert (F : forall a, f a = true <-> cls a = OpOther) by (intros a; unfold f; destruct (cls a); split; congruence).
  assert (I : forall a, In a ids <-> In a (filter f (map fn_op g))) by (intros a; rewrite filter_In, Hi, F; tauto).
  split; [apply NoDup_incl_length; [exact Hn|intros a Ha; apply I; exact Ha]|]. split.
  - intros E. assert (D : NoDup (filter f (map fn_op g))) by (apply (NoDup_incl_NoDup Hn); [rewrite E; apply le_n|intros a Ha; apply I; exact Ha]).
    clear E Hn Hi I. intros i j a b Ea Eb Ha Eab. revert i j Ea Eb D. induction g as [|c g IH]; intros i j Ea Eb D; [destruct i; discriminate|].
    cbn [map filter] in D. assert (X : forall k d, nth_error g k = Some d -> fn_op d = fn_op a -> In (fn_op a) (filter f (map fn_op g))).
    { intros k d Ed Q. apply filter_In. split; [rewrite <- Q; apply in_map; eapply nth_error_In; exact Ed|]. apply F. exact Ha. }
    destruct i as [|i], j as [|j]; cbn in Ea, Eb; [reflexivity| | |].
    + injection Ea as ->. apply F in Ha. rewrite Ha in D. inversion D; subst. exfalso. eapply H1. apply (X j b Eb). congruence.
    + injection Eb as ->. assert (Hb : f (fn_op b) = true) by (apply F; congruence). rewrite Hb in D. inversion D; subst. exfalso. apply H1. rewrite <- Eab. apply (X i a Ea). reflexivity.
    + f_equal. apply IH; [exact Ea|exact Eb|]. destruct (f (fn_op c)); [inversion D; assumption|exact D].
  - intros U. assert (D : NoDup (filter f (map fn_op g))).
    { clear Hn Hi I. induction g as [|c g IH]; cbn; [constructor|]. assert (IH' : NoDup (filter f (map fn_op g))).
      { apply IH. intros i j a b Ea Eb Ha Eab. assert (Q := U (S i) (S j) a b Ea Eb Ha Eab). congruence. }
      destruct (f (fn_op c)) eqn:Ef; [|exact IH']. constructor; [|exact IH']. intros Hc. apply filter_In in Hc. destruct Hc as [Hc _]. apply in_map_iff in Hc. destruct Hc as (d & Ed & Hd).
      apply In_nth_error in Hd. destruct Hd as (k & Ek). assert (Q := U 0 (S k) c d eq_refl Ek). apply F in Ef. specialize (Q Ef (eq_sym Ed)). discriminate. }
    apply Nat.le_antisymm; apply NoDup_incl_length; try assumption; intros a Ha; apply I; exact Ha.
Qed.
Lemma complexity_nested : forall A cls (sub : fgraph A) outs, cls 0 = OpInput -> cls 1 = OpOther ->
  get_graph_complexity cls [mk_fnode 0 KInput []; mk_fnode 1 (nested_model sub outs) [0]] = 1.
Proof. intros A cls sub outs H0 H1. rewrite complexity_calls. cbn. rewrite H0, H1. reflexivity. Qed.
Lemma complexity_one_call : forall A cls (g : fgraph A) nod, get_graph_complexity cls (g ++ [nod]) = (match cls (fn_op nod) with OpOther => 1 | _ => 0 end) + get_graph_complexity cls g.
Proof.
  intros A cls g nod. rewrite !complexity_calls, map_app. cbn [map]. induction (map (fun nod => cls (fn_op nod)) g) as [|a l IH]; cbn.
  - destruct (cls (fn_op nod)); reflexivity.
  - destruct a; rewrite IH; lia.
Qed.
(** one layer called twice, a Lambda between the calls, and a layer on both branches *)
Definition two_branches : fgraph unit := [mk_fnode 0 KInput []; mk_fnode 1 (KOp (fun l => Ok l)) [0]; mk_fnode 2 (KOp (fun l => Ok l)) [1]; mk_fnode 1 (KOp (fun l => Ok l)) [2]; mk_fnode 3 (KOp (fun l => Ok l)) [1; 3]].
Definition two_classes (a : nat) : opclass := match a with 0 => OpInput | 2 => OpLambda | _ => OpOther end.
Lemma two_branches_depths : map (kdepths two_branches) [0; 1; 2; 3; 4] = [4; 3; 2; 1; 0] /\ get_graph_complexity two_classes two_branches = 3.
Proof. split; reflexivity. Qed.
