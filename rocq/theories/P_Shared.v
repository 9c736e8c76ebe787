(** Layers called at several nodes *)
From Coq Require Import Reals List Arith Bool ZArith Lra Lia.
From Verif Require Import RLib Spec Spec_Layers Spec_Backward Spec_Convert Spec_Network Spec_Shared M_Core M_Utils M_Layers M_Backward M_Crown M_MergeLayers M_Convert M_Network M_Clone M_Shared P_Graph P_Convert P_ConvertThm P_Network P_NetworkCrown P_Clone.
From Verif Require Import Spec_Convert Spec_Network.
Import ListNotations.

Lemma relabel_nth : forall A ids (g : fgraph A) i, length ids = length g ->
  nth_error (relabel ids g) i = match nth_error g i, nth_error ids i with Some nod, Some k => Some (mk_fnode k (fn_kind nod) (fn_parents nod)) | _, _ => None end.
Proof.
  intros A ids. induction ids as [|k ids IH]; intros [|nod g] [|i] H; try discriminate H; try reflexivity.
  cbn. apply IH. cbn in H. lia.
Qed.
Lemma relabel_length : forall A ids (g : fgraph A), length ids = length g -> length (relabel ids g) = length g.
Proof. intros A ids g H. unfold relabel. rewrite map_length, combine_length. lia. Qed.
Lemma relabel_parents : forall A ids (g : fgraph A), length ids = length g -> parents_of (relabel ids g) = parents_of g.
Proof.
  intros A. induction ids as [|k ids IH]; intros [|nod g] H; try discriminate H; [reflexivity|]. cbn. unfold parents_of, relabel in *. cbn. f_equal. apply IH. cbn in H. lia.
Qed.
Lemma relabel_ops : forall A ids (g : fgraph A), length ids = length g -> map fn_op (relabel ids g) = ids.
Proof.
  intros A. induction ids as [|k ids IH]; intros [|nod g] H; try discriminate H; [reflexivity|]. cbn. f_equal. apply IH. cbn in H. lia.
Qed.
Lemma relabel_evaluates : forall A ids (g : fgraph A) om0 its vs, length ids = length g -> evaluates g om0 its vs -> evaluates (relabel ids g) om0 its vs.
Proof.
  intros A ids g om0 its vs Hl H i nod E. rewrite relabel_nth in E by exact Hl. destruct (nth_error g i) as [nd|] eqn:Eg; [|discriminate E].
  destruct (nth_error ids i) as [k|]; [|discriminate E]. injection E as <-. pose proof (H i nd Eg) as Q. destruct (om0 i); exact Q.
Qed.
Lemma relabel_sources : forall A ids (g : fgraph A), length ids = length g -> sources_input g -> sources_input (relabel ids g).
Proof.
  intros A ids g Hl H i nod E Hp. rewrite relabel_nth in E by exact Hl. destruct (nth_error g i) as [nd|] eqn:Eg; [|discriminate E].
  destruct (nth_error ids i) as [k|]; [|discriminate E]. injection E as <-. exact (H i nd Eg Hp).
Qed.

(** ** The outputs, whatever the operations *)
Section Shared.
Context {A : Type}.
Variable g : fgraph A.
Hypothesis Ht : topo g.
Variable lv : nat -> nat.
Hypothesis Hlv : longest_path (parents_of g) lv.
Hypothesis Hg : g <> [].

Definition longest : nat := max_list_nat (map lv (seq 0 (length g))).
Lemma g_length : (0 < length g)%nat.
Proof. destruct g; [contradiction|cbn; lia]. Qed.
Lemma longest_ge : forall i, (i < length g)%nat -> (lv i <= longest)%nat.
Proof. intros i Hi. apply max_list_nat_ge. apply in_map. apply in_seq. lia. Qed.
Lemma longest_in : exists i, (i < length g)%nat /\ lv i = longest.
Proof.
  pose proof g_length as H. assert (Hne : map lv (seq 0 (length g)) <> []) by (destruct (length g); [lia|discriminate]).
  apply max_list_nat_in in Hne. apply in_map_iff in Hne. destruct Hne as (j & E & Hj). apply in_seq in Hj. exists j. split; [lia|exact E].
Qed.

Lemma kdepth_longest : forall i, (i < length g)%nat -> (lv i + kdepths g i <= max_kdepth g)%nat.
Proof.
  intros i Hi. destruct (dico_ok g Ht) as (dico & _ & Hspec & _).
  pose proof (key_level g Ht lv Hlv dico Hspec i Hi). pose proof (key_bounds g Ht dico Hspec i Hi). lia.
Qed.
Lemma longest_le : (longest <= max_kdepth g)%nat.
Proof. destruct longest_in as (i & Hi & E). pose proof (kdepth_longest i Hi). lia. Qed.

Lemma output_nodes_missing : (longest < max_kdepth g)%nat -> forall outs, output_nodes g outs = Err KeyError.
Proof.
  intros H outs. destruct (dico_ok g Ht) as (dico & Ed & Hspec & _). unfold output_nodes. rewrite Ed. cbn [bind].
  destruct (nodes_at g dico 0) as [|a l] eqn:E; [reflexivity|]. exfalso.
  assert (Hin : In a (nodes_at g dico 0)) by (rewrite E; left; reflexivity). apply (nodes_at_in g dico Hspec) in Hin. destruct Hin as [Ha Ka].
  rewrite (key_level g Ht lv Hlv dico Hspec a Ha) in Ka. pose proof (longest_ge a Ha). lia.
Qed.

Lemma output_nodes_found : longest = max_kdepth g -> forall outs, outputs_apart (parents_of g) (map fn_op g) lv outs ->
  (forall o, In o outs -> (o < length g)%nat) -> output_nodes g outs = Ok (filter (deepestb g lv) outs).
Proof.
  intros Hk outs Hap Ho. destruct (dico_ok g Ht) as (dico & Ed & Hspec & _). unfold output_nodes. rewrite Ed. cbn [bind].
  assert (Hin : forall i, In i (nodes_at g dico 0) <-> (i < length g)%nat /\ deepestb g lv i = true).
  { intros i. rewrite (nodes_at_in g dico Hspec). unfold deepestb. fold longest. rewrite Hk, Nat.eqb_eq. split; intros [Hi E]; split; auto.
    - rewrite (key_level g Ht lv Hlv dico Hspec i Hi) in E. lia.
    - rewrite (key_level g Ht lv Hlv dico Hspec i Hi). lia. }
  assert (Hdp : forall i, (i < length g)%nat -> deepestb g lv i = true -> deepest (parents_of g) lv i).
  { intros i Hi E. unfold deepestb in E. fold longest in E. apply Nat.eqb_eq in E. unfold parents_of. split; rewrite map_length; [exact Hi|].
    intros j Hj. rewrite E. apply longest_ge. exact Hj. }
  destruct longest_in as (i0 & Hi0 & Ei0).
  assert (Hne : In i0 (nodes_at g dico 0)).
  { apply Hin. split; [exact Hi0|]. unfold deepestb. fold longest. apply Nat.eqb_eq; exact Ei0. }
  assert (E : flat_map (fun o => filter (fun i => same_op g o i) (nodes_at g dico 0)) outs = filter (deepestb g lv) outs).
  { clear Hne. induction outs as [|o q IH]; [reflexivity|]. cbn [flat_map filter].
    rewrite IH; [|intros o' i a Q; apply Hap; right; exact Q|intros; apply Ho; right; auto].
    assert (Hol : (o < length g)%nat) by (apply Ho; left; reflexivity).
    destruct (filter_single (fun i => same_op g o i) (nodes_at g dico 0) o) as [F1 F2]; [apply NoDup_nodes_at| |].
    2:{ destruct (deepestb g lv o) eqn:Eb.
        - rewrite F1; [reflexivity|apply Hin; auto].
        - rewrite F2; [reflexivity|]. intros Q. apply Hin in Q. destruct Q; congruence. }
    intros i Hi. apply Hin in Hi. destruct Hi as [Hi Hdi]. unfold same_op, op_of.
    destruct (nth_error g o) as [a|] eqn:Ea; [|apply nth_error_None in Ea; lia].
    destruct (nth_error g i) as [b|] eqn:Eb; [|apply nth_error_None in Eb; lia]. cbn.
    destruct (Nat.eqb_spec o i) as [->|Hne].
    + rewrite Ea in Eb. injection Eb; intros <-. apply Nat.eqb_refl.
    + apply Nat.eqb_neq. intros Q. apply Hne. symmetry. apply (Hap o i (fn_op a)); [left; reflexivity|apply Hdp; auto| |];
        rewrite nth_error_map, ?Ea, ?Eb; cbn; [reflexivity|rewrite Q; reflexivity]. }
  revert E. clear Hin. destruct (nodes_at g dico 0) as [|a l]; [contradiction|]. intros E. rewrite E. reflexivity.
Qed.

(** *** depths of Keras when the calls of a layer come in order *)
Variable ht : nat -> nat.
Hypothesis Hht : height (parents_of g) ht.

Lemma ht_child : forall i j nj, (i < length g)%nat -> nth_error g j = Some nj -> In i (fn_parents nj) -> (ht j < ht i)%nat.
Proof.
  intros i j nj Hi Ej Hin. destruct (Hht i) as [H _]; [unfold parents_of; rewrite map_length; exact Hi|].
  apply (H j (fn_parents nj)); [|exact Hin]. unfold parents_of. rewrite nth_error_map, Ej. reflexivity.
Qed.
Lemma ht_attained : forall i, (i < length g)%nat -> ht i = O \/ exists j nj, nth_error g j = Some nj /\ In i (fn_parents nj) /\ ht i = S (ht j).
Proof.
  intros i Hi. destruct (Hht i) as [_ [E | (j & ps & Ej & Hin & E)]]; [unfold parents_of; rewrite map_length; exact Hi|left; exact E|right].
  unfold parents_of in Ej. rewrite nth_error_map in Ej. destruct (nth_error g j) as [nj|] eqn:En; [|discriminate Ej]. cbn in Ej. injection Ej as <-. eauto.
Qed.

(** nodes from k on have been visited *)
Definition hinv (k : nat) (st : (nat -> nat) * (nat -> nat)) : Prop :=
  (forall i, (k <= i < length g)%nat -> fst st i = ht i) /\
  (forall i, (i < k)%nat -> (forall j nj, (k <= j)%nat -> nth_error g j = Some nj -> In i (fn_parents nj) -> (S (ht j) <= fst st i)%nat) /\
     (fst st i = O \/ exists j nj, (k <= j)%nat /\ nth_error g j = Some nj /\ In i (fn_parents nj) /\ fst st i = S (ht j))) /\
  (forall o, snd st o = O \/ exists j nj, (k <= j)%nat /\ nth_error g j = Some nj /\ fn_op nj = o /\ snd st o = ht j).

Lemma hinv_step : in_order (map fn_op g) ht -> forall k st, hinv (S k) st -> (k < length g)%nat -> hinv k (kdepth_step g st k).
Proof.
  intros Hord k [nd od] (H1 & H2 & H3) Hk. unfold kdepth_step. destruct (nth_error g k) as [nk|] eqn:Ek; [|apply nth_error_None in Ek; lia].
  cbn [fst snd] in *.
  assert (Hnd : nd k = ht k).
  { destruct (H2 k ltac:(lia)) as [Q1 Q2]. apply Nat.le_antisymm.
    - destruct Q2 as [E | (j & nj & Hj & Ej & Hin & E)]; [lia|]. rewrite E. exact (ht_child k j nj Hk Ej Hin).
    - destruct (ht_attained k Hk) as [E | (j & nj & Ej & Hin & E)]; [lia|]. rewrite E. apply (Q1 j nj); auto. exact (Ht j nj k Ej Hin). }
  assert (Hod : (od (fn_op nk) <= ht k)%nat).
  { destruct (H3 (fn_op nk)) as [E | (j & nj & Hj & Ej & Eo & E)]; [lia|]. rewrite E.
    apply (Hord k j (fn_op nk)); [lia| |]; rewrite nth_error_map, ?Ek, ?Ej; cbn; [reflexivity|rewrite Eo; reflexivity]. }
  rewrite Hnd, Nat.max_l by exact Hod. set (d := ht k).
  assert (Hge : forall j, (k <= j)%nat -> raise_parents d (fn_parents nk) (upd nd k d) j = upd nd k d j).
  { intros j Hj. apply raise_out. intros Q. pose proof (Ht k nk j Ek Q). lia. }
  split; [|split]; cbn [fst snd].
  - intros i Hi. rewrite Hge by lia. destruct (Nat.eq_dec i k) as [->|Hne]; [apply upd_eq|]. rewrite upd_neq by exact Hne. apply H1. lia.
  - intros i Hi. destruct (H2 i ltac:(lia)) as [Q1 Q2]. assert (Ei : upd nd k d i = nd i) by (apply upd_neq; lia). split.
    + intros j nj Hj Ej Hin. destruct (Nat.eq_dec j k) as [->|Hne].
      * rewrite Ek in Ej. injection Ej as <-. apply raise_in. exact Hin.
      * eapply Nat.le_trans; [apply (Q1 j nj); auto; lia|]. rewrite <- Ei. apply raise_mono.
    + destruct (raise_cases d (fn_parents nk) (upd nd k d) i) as [E | [Hin E]].
      * rewrite E, Ei. destruct Q2 as [Q2 | (j & nj & Hj & R2)]; [left; exact Q2|right; exists j, nj; split; [lia|exact R2]].
      * right. exists k, nk. rewrite E. auto.
  - intros o. destruct (Nat.eq_dec o (fn_op nk)) as [->|Hne].
    + right. exists k, nk. rewrite upd_eq. auto.
    + rewrite upd_neq by exact Hne. destruct (H3 o) as [E | (j & nj & Hj & R2)]; [left; exact E|right; exists j, nj; split; [lia|exact R2]].
Qed.

Lemma kdepth_height : in_order (map fn_op g) ht -> forall i, (i < length g)%nat -> kdepths g i = ht i.
Proof.
  intros Hord i Hi.
  assert (G : forall k st, hinv k st -> (k <= length g)%nat -> hinv 0 (fold_left (kdepth_step g) (rev (seq 0 k)) st)).
  { induction k as [|k IH]; intros st H Hk; [exact H|]. rewrite seq_S, rev_app_distr. cbn [rev app fold_left Nat.add].
    apply IH; [apply hinv_step; auto|lia]. }
  destruct (G (length g) (fun _ => O, fun _ => O)) as [C1 _].
  - split; [|split]; cbn [fst snd]; [intros; lia| |left; reflexivity]. intros k Hk. split; [|left; reflexivity].
    intros j nj Hj Ej. exfalso. assert (j < length g)%nat by (apply nth_error_Some; congruence). lia.
  - lia.
  - apply C1. lia.
Qed.

Lemma height_below : forall d i, (i < length g)%nat -> ht i = d -> exists j, (j < length g)%nat /\ (lv i + d <= lv j)%nat.
Proof.
  induction d as [|d IH]; intros i Hi E; [exists i; lia|].
  destruct (ht_attained i Hi) as [Q | (j & nj & Ej & Hin & Ed)]; [lia|].
  assert (Hj : (j < length g)%nat) by (apply nth_error_Some; congruence).
  destruct (IH j Hj ltac:(lia)) as (k & Hk & Hl). exists k. split; [exact Hk|].
  pose proof (lv_at g lv Hlv j nj Ej) as L. destruct (fn_parents nj) as [|p0 ps0]; [contradiction|]. destruct L as [L _]. specialize (L i Hin). lia.
Qed.

Lemma in_order_longest : in_order (map fn_op g) ht -> longest = max_kdepth g.
Proof.
  intros Hord. apply Nat.le_antisymm; [apply longest_le|]. pose proof g_length.
  pose proof (max_list_nat_in (map (kdepths g) (seq 0 (length g)))) as M. fold (max_kdepth g) in M.
  assert (Hne : map (kdepths g) (seq 0 (length g)) <> []) by (destruct (length g); [lia|discriminate]).
  specialize (M Hne). apply in_map_iff in M. destruct M as (i & Ei & Hi). apply in_seq in Hi. rewrite <- Ei, (kdepth_height Hord i) by lia.
  destruct (height_below (ht i) i ltac:(lia) eq_refl) as (j & Hj & Hl). pose proof (longest_ge j Hj). lia.
Qed.

(** *** an early call of a layer inherits the distance to the end of a later one *)
Definition linv (k : nat) (st : (nat -> nat) * (nat -> nat)) : Prop :=
  (forall i, (k <= i < length g)%nat -> (ht i <= fst st i)%nat) /\
  (forall i j nj, (k <= j)%nat -> nth_error g j = Some nj -> In i (fn_parents nj) -> (S (ht j) <= fst st i)%nat) /\
  (forall j nj, (k <= j)%nat -> nth_error g j = Some nj -> (ht j <= snd st (fn_op nj))%nat) /\
  (forall i j ni nj, (k <= i <= j)%nat -> nth_error g i = Some ni -> nth_error g j = Some nj -> fn_op ni = fn_op nj -> (ht j <= fst st i)%nat).

Lemma linv_step : forall k st, linv (S k) st -> (k < length g)%nat -> linv k (kdepth_step g st k).
Proof.
  intros k [nd od] (H1 & H2 & H3 & H4) Hk. unfold kdepth_step. destruct (nth_error g k) as [nk|] eqn:Ek; [|apply nth_error_None in Ek; lia].
  cbn [fst snd] in *. set (d := Nat.max (nd k) (od (fn_op nk))).
  assert (Hk2 : (ht k <= nd k)%nat).
  { destruct (ht_attained k Hk) as [E | (j & nj & Ej & Hin & E)]; [lia|]. rewrite E. apply (H2 k j nj); auto. exact (Ht j nj k Ej Hin). }
  assert (Hge : forall j, (k <= j)%nat -> raise_parents d (fn_parents nk) (upd nd k d) j = upd nd k d j).
  { intros j Hj. apply raise_out. intros Q. pose proof (Ht k nk j Ek Q). lia. }
  assert (Hd1 : (nd k <= d)%nat) by (unfold d; lia). assert (Hd2 : (od (fn_op nk) <= d)%nat) by (unfold d; lia). clearbody d.
  assert (Hup : forall i, (nd i <= raise_parents d (fn_parents nk) (upd nd k d) i)%nat).
  { intros i. eapply Nat.le_trans; [|apply raise_mono]. destruct (Nat.eq_dec i k) as [->|Hne]; [rewrite upd_eq; exact Hd1|rewrite upd_neq by exact Hne; lia]. }
  split; [|split; [|split]]; cbn [fst snd].
  - intros i Hi. eapply Nat.le_trans; [|apply Hup]. destruct (Nat.eq_dec i k) as [->|Hne]; [exact Hk2|apply H1; lia].
  - intros i j nj Hj Ej Hin. destruct (Nat.eq_dec j k) as [->|Hne].
    + rewrite Ek in Ej. injection Ej as <-. eapply Nat.le_trans; [|apply raise_in; exact Hin]. lia.
    + eapply Nat.le_trans; [apply (H2 i j nj); auto; lia|apply Hup].
  - intros j nj Hj Ej. destruct (Nat.eq_dec j k) as [->|Hne].
    + rewrite Ek in Ej. injection Ej as <-. rewrite upd_eq. lia.
    + specialize (H3 j nj ltac:(lia) Ej). destruct (Nat.eq_dec (fn_op nj) (fn_op nk)) as [E|E]; [rewrite E in *; rewrite upd_eq; lia|rewrite upd_neq by exact E; exact H3].
  - intros i j ni nj Hij Ei Ej Eo. destruct (Nat.eq_dec i k) as [->|Hne].
    + rewrite Hge, upd_eq by lia. rewrite Ek in Ei. injection Ei as <-. destruct (Nat.eq_dec j k) as [->|Hj]; [lia|].
      specialize (H3 j nj ltac:(lia) Ej). rewrite <- Eo in H3. lia.
    + eapply Nat.le_trans; [apply (H4 i j ni nj); auto; lia|apply Hup].
Qed.

Lemma kdepth_call : forall i j ni nj, (i <= j)%nat -> nth_error g i = Some ni -> nth_error g j = Some nj -> fn_op ni = fn_op nj -> (ht j <= kdepths g i)%nat.
Proof.
  intros i j ni nj Hij Ei Ej Eo.
  assert (G : forall k st, linv k st -> (k <= length g)%nat -> linv 0 (fold_left (kdepth_step g) (rev (seq 0 k)) st)).
  { induction k as [|k IH]; intros st H Hk; [exact H|]. rewrite seq_S, rev_app_distr. cbn [rev app fold_left Nat.add].
    apply IH; [apply linv_step; auto|lia]. }
  destruct (G (length g) (fun _ => O, fun _ => O)) as (_ & _ & _ & C).
  - assert (Hno : forall k nk, (length g <= k)%nat -> nth_error g k = Some nk -> False).
    { intros k nk Hk Ek. assert (k < length g)%nat by (apply nth_error_Some; congruence). lia. }
    split; [intros; lia|]. split; [|split]; cbn [fst snd].
    + intros p k nk Hk Ek. exfalso. exact (Hno k nk Hk Ek).
    + intros k nk Hk Ek. exfalso. exact (Hno k nk Hk Ek).
    + intros p k np nk Hk Ep. exfalso. apply (Hno p np); [lia|exact Ep].
  - lia.
  - exact (C i j ni nj (conj (Nat.le_0_l i) Hij) Ei Ej Eo).
Qed.

Lemma output_nodes_two_depths : forall i j ni nj, (i <= j)%nat -> nth_error g i = Some ni -> nth_error g j = Some nj -> fn_op ni = fn_op nj ->
  (forall k, (k < length g)%nat -> (lv k < lv i + ht j)%nat) -> forall outs, output_nodes g outs = Err KeyError.
Proof.
  intros i j ni nj Hij Ei Ej Eo Hlong outs. apply output_nodes_missing.
  assert (Hi : (i < length g)%nat) by (apply nth_error_Some; congruence).
  pose proof (kdepth_call i j ni nj Hij Ei Ej Eo). pose proof (kdepth_longest i Hi). destruct longest_in as (k & Hk & E). specialize (Hlong k Hk). lia.
Qed.
End Shared.

(** ** From a conversion that succeeds to the values of its nodes *)
Lemma foldR_inv : forall (S I : Type) (step : S -> I -> result S) (Inv : list I -> S -> Prop) (l : list I) s0 s1,
  (forall pre i post s s', l = pre ++ i :: post -> Inv pre s -> step s i = Ok s' -> Inv (pre ++ [i]) s') ->
  Inv [] s0 -> foldR step l s0 = Ok s1 -> Inv l s1.
Proof.
  intros S I step Inv l s0 s1 Hstep H0.
  assert (G : forall post pre s, l = pre ++ post -> Inv pre s -> foldR step post s = Ok s1 -> Inv l s1).
  { induction post as [|i post IH]; intros pre s E HI H.
    - rewrite app_nil_r in E. subst. cbn in H. injection H as <-. exact HI.
    - cbn in H. destruct (step s i) as [s'|] eqn:Es; [|discriminate H]. cbn in H.
      apply (IH (pre ++ [i]) s'); [rewrite <- app_assoc; exact E|exact (Hstep pre i post s s' E HI Es)|exact H]. }
  apply (G l [] s0); auto.
Qed.

Definition known {A} (om : omap A) (i : nat) : list A := match om i with Some o => o | None => [] end.

Lemma convert_nodes_values : forall A (g : fgraph A) (om0 om : omap A) its, topo g -> sources_input g ->
  convert_nodes g om0 its = Ok om -> evaluates g om0 its (known om) /\ forall i, (i < length g)%nat -> om i = Some (known om i).
Proof.
  intros A g om0 om1 its Ht Hs H. destruct (dico_ok g Ht) as (dico & Ed & Hspec & Hdom).
  unfold convert_nodes in H. rewrite Ed in H. cbn [bind] in H.
  destruct (foldR (convert_node g) (node_order g dico) (om0, its)) as [st|] eqn:Ef; [|discriminate H]. cbn [bind] in H. injection H as H. subst om1.
  set (Inv := fun (pre : list nat) (st : omap A * list A) =>
     (forall i, In i pre -> exists nod, nth_error g i = Some nod /\ fst st i = Some (known (fst st) i) /\
        match om0 i with
        | Some l => known (fst st) i = l
        | None => node_out nod (match fn_parents nod with [] => its | ps => concat (map (known (fst st)) ps) end) = Ok (known (fst st) i)
        end) /\
     (forall i, ~ In i pre -> fst st i = om0 i) /\
     ((forall j nj, In j pre -> nth_error g j = Some nj -> fn_parents nj = []) -> snd st = its)).
  assert (HI : Inv (node_order g dico) st).
  { apply (foldR_inv _ _ (convert_node g) Inv (node_order g dico) (om0, its) st); [|split; [intros i []|split; [reflexivity|reflexivity]]|exact Ef].
    intros pre i post [om out] [om' out'] E (I1 & I2 & I3) Es. cbn [fst snd] in *.
    assert (Hi : (i < length g)%nat) by (apply (order_in g Ht dico Hspec); rewrite E; apply in_or_app; right; left; reflexivity).
    assert (Hnew : ~ In i pre).
    { pose proof (NoDup_order g dico Hspec) as N. rewrite E in N. apply NoDup_remove_2 in N. intros Q; apply N; apply in_or_app; left; exact Q. }
    assert (Hpar : forall j nj, nth_error g j = Some nj -> In j (pre ++ [i]) -> forall p, In p (fn_parents nj) -> In p pre).
    { intros j nj Ej Hj p Hp. assert (Hjl : (j < length g)%nat) by (apply nth_error_Some; congruence).
      pose proof (key_parent g dico Hspec j nj p Ej Hp) as K. pose proof (Ht j nj p Ej Hp) as T.
      apply in_app_or in Hj. destruct Hj as [Hj | [<- | []]].
      - apply in_split in Hj. destruct Hj as (p1 & p2 & Ep). rewrite Ep in E. rewrite Ep. apply in_or_app. left.
        apply (order_key g Ht dico Hspec j p p1 (p2 ++ i :: post) Hjl ltac:(lia) K). rewrite E, <- app_assoc. reflexivity.
      - apply (order_key g Ht dico Hspec i p pre post Hi ltac:(lia) K E). }
    destruct (nth_error g i) as [nod|] eqn:En; [|apply nth_error_None in En; lia].
    unfold convert_node in Es. rewrite (I2 i Hnew), En in Es.
    destruct (om0 i) as [l0|] eqn:E0.
    - injection Es as <- <-. split; [|split]; cbn [fst snd].
      + intros j Hj. apply in_app_or in Hj. destruct Hj as [Hj | [<- | []]]; [apply I1; exact Hj|]. exists nod. split; [exact En|].
        unfold known. rewrite (I2 i Hnew), E0. auto.
      + intros j Hj. apply I2. intros Q; apply Hj; apply in_or_app; left; exact Q.
      + intros Hall. apply I3. intros j nj Hj. apply Hall. apply in_or_app; left; exact Hj.
    - set (ins := match fn_parents nod with [] => its | ps => concat (map (known om) ps) end) in *.
      assert (Eins : match fn_parents nod with
             | [] => Ok out
             | ps => l <- mapR (fun p => match om p with Some o => Ok o | None => Err KeyError end) ps ; Ok (concat l)
             end = Ok ins).
      { unfold ins. pose proof (Hpar i nod En ltac:(apply in_or_app; right; left; reflexivity)) as Hp0. destruct (fn_parents nod) as [|p0 ps0] eqn:Eps.
        - rewrite I3; [reflexivity|]. intros j nj Hj Ej. apply (order_sources g Ht dico Hspec i j nod nj pre post En Eps E Hj Ej).
        - assert (Em : mapR (fun p => match om p with Some o => Ok o | None => Err KeyError end) (p0 :: ps0) = Ok (map (known om) (p0 :: ps0))).
          { assert (Hp : forall p, In p (p0 :: ps0) -> om p = Some (known om p)).
            { intros p Hp. destruct (I1 p (Hp0 p Hp)) as (np & _ & Q & _). exact Q. }
            clear -Hp. induction (p0 :: ps0) as [|a q IH]; [reflexivity|]. cbn. rewrite (Hp a) by (left; reflexivity). cbn.
            rewrite IH by (intros; apply Hp; right; auto). reflexivity. }
          rewrite Em. reflexivity. }
      rewrite Eins in Es. cbn [bind] in Es.
      destruct (node_out nod ins) as [o|] eqn:Eo; unfold node_out in Eo; rewrite Eo in Es; cbn [bind] in Es; [|discriminate Es].
      injection Es as <- <-.
      assert (Hkn : forall j, j <> i -> known (upd om i (Some o)) j = known om j) by (intros j Hj; unfold known; rewrite upd_neq by exact Hj; reflexivity).
      assert (Hki : known (upd om i (Some o)) i = o) by (unfold known; rewrite upd_eq; reflexivity).
      assert (Hkm : forall j nj, nth_error g j = Some nj -> In j (pre ++ [i]) -> map (known (upd om i (Some o))) (fn_parents nj) = map (known om) (fn_parents nj)).
      { intros j nj Ej Hj. apply map_ext_in. intros p Hp. apply Hkn. intros ->. apply Hnew. exact (Hpar j nj Ej Hj i Hp). }
      split; [|split]; cbn [fst snd].
      + intros j Hj. pose proof Hj as Hj'. apply in_app_or in Hj. destruct Hj as [Hj | [<- | []]].
        * assert (Hne : j <> i) by (intros ->; contradiction). destruct (I1 j Hj) as (nj & Ej & Q1 & Q2). exists nj. split; [exact Ej|].
          rewrite Hkn by exact Hne. rewrite upd_neq by exact Hne. split; [exact Q1|]. pose proof (Hkm j nj Ej Hj') as Hm.
          destruct (om0 j); [exact Q2|]. destruct (fn_parents nj); [exact Q2|]. rewrite Hm. exact Q2.
        * exists nod. split; [exact En|]. rewrite Hki, E0, upd_eq. split; [reflexivity|].
          assert (Ei : match fn_parents nod with [] => its | ps => concat (map (known (upd om i (Some o))) ps) end = ins).
          { unfold ins. pose proof (Hkm i nod En Hj') as Hm. destruct (fn_parents nod); [reflexivity|]. rewrite Hm. reflexivity. }
          rewrite Ei. unfold node_out. exact Eo.
      + intros j Hj. rewrite upd_neq; [apply I2; intros Q; apply Hj; apply in_or_app; left; exact Q|].
        intros ->. apply Hj; apply in_or_app; right; left; reflexivity.
      + intros Hall. pose proof (Hall i nod ltac:(apply in_or_app; right; left; reflexivity) En) as Ep. rewrite (Hs i nod En Ep) in Eo. injection Eo as <-.
        unfold ins. rewrite Ep. reflexivity. }
  destruct HI as (I1 & _ & _). split.
  - intros i nod En. destruct (I1 i) as (nod' & En' & _ & Q); [apply (order_in g Ht dico Hspec); apply nth_error_Some; congruence|].
    rewrite En in En'. injection En' as <-. destruct (om0 i); exact Q.
  - intros i Hi. destruct (I1 i) as (nod' & En' & Q & _); [apply (order_in g Ht dico Hspec); exact Hi|]. exact Q.
Qed.

(** ** The conversion does not depend on which nodes share a layer *)
Definition no_outside {A} (g : fgraph A) (om0 : omap A) : Prop := forall i, om0 i <> None -> (i < length g)%nat.

Lemma relabel_topo : forall A ids (g : fgraph A), length ids = length g -> topo g -> topo (relabel ids g).
Proof.
  intros A ids g Hl Ht i nod p E Hp. rewrite relabel_nth in E by exact Hl. destruct (nth_error g i) as [nd|] eqn:Eg; [|discriminate E].
  destruct (nth_error ids i) as [k|]; [|discriminate E]. injection E as <-. exact (Ht i nd p Eg Hp).
Qed.

Lemma convert_nodes_relabel : forall A ids (g : fgraph A) om0 its om, length ids = length g -> topo g -> sources_input g -> no_outside g om0 ->
  convert_nodes g om0 its = Ok om -> exists om', convert_nodes (relabel ids g) om0 its = Ok om' /\ forall i, (i < length g)%nat -> om' i = om i.
Proof.
  intros A ids g om0 its om Hl Ht Hs H0 H. destruct (convert_nodes_values A g om0 om its Ht Hs H) as [He Hom].
  destruct (convert_nodes_eval A (relabel ids g) om0 its (known om)) as (om' & E & Hom').
  - apply relabel_topo; auto.
  - apply relabel_sources; auto.
  - intros i Q. rewrite relabel_length by exact Hl. apply H0. exact Q.
  - apply relabel_evaluates; auto.
  - exists om'. split; [exact E|]. intros i Hi. rewrite Hom' by (rewrite relabel_length by exact Hl; exact Hi). symmetry. apply Hom. exact Hi.
Qed.

Lemma deepestb_parents : forall A B (g : fgraph A) (g' : fgraph B) lv, parents_of g' = parents_of g -> forall l, filter (deepestb g' lv) l = filter (deepestb g lv) l.
Proof.
  intros A B g g' lv H l. unfold deepestb. assert (E : length g' = length g).
  { apply (f_equal (@length _)) in H. unfold parents_of in H. rewrite !map_length in H. exact H. }
  rewrite E. reflexivity.
Qed.

Section Transfer.
Variables (ids : list nat) (lv ht : nat -> nat) (pss : list (list nat)).
Hypothesis Hacy : acyclic pss.
Hypothesis Hlv : longest_path pss lv.
Hypothesis Hht : height pss ht.
Hypothesis Hid : length ids = length pss.
Hypothesis Hne : pss <> [].
Hypothesis Hord : in_order ids ht.

Lemma shared_outputs : forall A (g : fgraph A) outs, parents_of g = pss -> map fn_op g = ids -> outputs_apart pss ids lv outs ->
  (forall o, In o outs -> (o < length pss)%nat) -> output_nodes g outs = Ok (filter (deepestb g lv) outs).
Proof.
  intros A g outs Hp Hi Hap Ho.
  assert (Hg : g <> []) by (intros Q; rewrite Q in Hp; cbn in Hp; congruence).
  assert (Ht : topo g) by (apply topo_acyclic; rewrite Hp; exact Hacy).
  apply (output_nodes_found g Ht lv); rewrite ?Hp, ?Hi; auto.
  - apply (in_order_longest g Ht lv) with (ht := ht); rewrite ?Hp, ?Hi; auto.
  - intros o Q. specialize (Ho o Q). rewrite <- Hp in Ho. unfold parents_of in Ho. rewrite map_length in Ho. exact Ho.
Qed.

(** [g]: each node has its own operation *)
Lemma convert_forward_relabel : forall A (g : fgraph A) outs om0 its r, parents_of g = pss -> unshared g -> sources_input g -> no_outside g om0 ->
  outputs_apart pss ids lv outs -> (forall o, In o outs -> (o < length pss)%nat) ->
  convert_forward g outs om0 its = Ok r -> convert_forward (relabel ids g) outs om0 its = Ok r.
Proof.
  intros A g outs om0 its r Hp Hu Hs H0 Hap Ho H.
  assert (Hg : g <> []) by (intros Q; rewrite Q in Hp; cbn in Hp; congruence).
  assert (Ht : topo g) by (apply topo_acyclic; rewrite Hp; exact Hacy).
  assert (Hlen : length g = length pss) by (rewrite <- Hp; unfold parents_of; rewrite map_length; reflexivity).
  assert (Hl : length ids = length g) by congruence.
  assert (Eo : output_nodes g outs = Ok (filter (deepestb g lv) outs)).
  { apply output_nodes_ok; auto; [rewrite Hp; exact Hlv|]. intros o Q. rewrite Hlen. auto. }
  assert (Eo' : output_nodes (relabel ids g) outs = Ok (filter (deepestb g lv) outs)).
  { rewrite <- (deepestb_parents A A g (relabel ids g)) by (apply relabel_parents; exact Hl). apply shared_outputs; auto.
    - rewrite relabel_parents by exact Hl. exact Hp.
    - apply relabel_ops. exact Hl. }
  unfold convert_forward in *. destruct (convert_nodes g om0 its) as [om|] eqn:En; [|discriminate H]. cbn [bind] in H.
  destruct (convert_nodes_relabel A ids g om0 its om Hl Ht Hs H0 En) as (om' & En' & Hom). rewrite En'. cbn [bind]. rewrite Eo in H. rewrite Eo'. cbn [bind] in *.
  rewrite (mapR_ext _ _ (fun i => match om' i with Some o => Ok o | None => Err KeyError end) (fun i => match om i with Some o => Ok o | None => Err KeyError end)); [exact H|].
  intros i Q. apply filter_In in Q. rewrite Hom; [reflexivity|]. rewrite Hlen. apply Ho. apply Q.
Qed.

Lemma clone_forward_relabel : forall D n mode final (g : fgraph tensor) outs z r, parents_of g = pss -> unshared g -> sources_input g ->
  outputs_apart pss ids lv outs -> (forall o, In o outs -> (o < length pss)%nat) ->
  clone_forward D n mode final g outs z = Ok r -> clone_forward D n mode final (relabel ids g) outs z = Ok r.
Proof.
  intros D n mode final g outs z r Hp Hu Hs Hap Ho H. unfold clone_forward in *. destruct (get_input_tensors (Some D) mode n z) as [its|]; [|discriminate H].
  cbn [bind] in *. destruct (convert_forward g outs (fun _ => None) its) as [o|] eqn:E; [|discriminate H]. cbn [bind] in H.
  rewrite (convert_forward_relabel tensor g outs (fun _ => None) its o Hp Hu Hs); auto. intros i Q. exfalso. apply Q. reflexivity.
Qed.

Lemma convert_backward_relabel : forall D n mode final ids0 (g : graph) outs back fm fm' its r, map snd g = pss -> length ids0 = length pss -> NoDup ids0 ->
  outputs_apart pss ids lv outs -> (forall o, In o outs -> (o < length pss)%nat) ->
  (forall l, crown_model mode D n g l back fm' its = crown_model mode D n g l back fm its) ->
  convert_backward D n mode final ids0 g outs back fm its = Ok r -> convert_backward D n mode final ids g outs back fm' its = Ok r.
Proof.
  intros D n mode final ids0 g outs back fm fm' its r Hp Hl0 Hnd Hap Ho Hfm H. unfold convert_backward in *.
  assert (Hlen : length g = length pss) by (rewrite <- Hp, map_length; reflexivity).
  assert (Hg : forall k, length k = length g -> bshape k g <> []).
  { intros k Hk Q. apply (f_equal (@length _)) in Q. rewrite bshape_length in Q by exact Hk. cbn in Q. destruct pss; [contradiction|cbn in Hlen; lia]. }
  assert (P0 : parents_of (bshape ids0 g) = pss) by (rewrite bshape_parents by congruence; exact Hp).
  assert (P1 : parents_of (bshape ids g) = pss) by (rewrite bshape_parents by congruence; exact Hp).
  assert (Eo : output_nodes (bshape ids0 g) outs = Ok (filter (deepestb (bshape ids0 g) lv) outs)).
  { apply output_nodes_ok; rewrite ?P0; auto.
    - apply topo_acyclic. rewrite P0. exact Hacy.
    - unfold unshared. rewrite bshape_ids by congruence. exact Hnd.
    - apply Hg. congruence.
    - intros o Q. rewrite bshape_length by congruence. rewrite Hlen. auto. }
  assert (Eo' : output_nodes (bshape ids g) outs = Ok (filter (deepestb (bshape ids0 g) lv) outs)).
  { rewrite <- (deepestb_parents unit unit (bshape ids0 g) (bshape ids g)) by congruence. apply shared_outputs; auto. apply bshape_ids. congruence. }
  destruct ((match back with Some _ => true | None => false end && (1 <? length outs)%nat)%bool); [discriminate H|].
  rewrite Eo in H. rewrite Eo'. cbn [bind] in *. rewrite Hfm. exact H.
Qed.

Lemma clone_backward_relabel : forall D n mode final fg ids0 (g : graph) outs back z r, map snd g = pss -> length ids0 = length pss -> NoDup ids0 ->
  (forall h, fg = Some h -> parents_of h = pss /\ unshared h /\ sources_input h) ->
  outputs_apart pss ids lv outs -> (forall o, In o outs -> (o < length pss)%nat) ->
  (forall fm fm' l its, (forall i, (i < length g)%nat -> fm' i = fm i) -> crown_model mode D n g l back fm' its = crown_model mode D n g l back fm its) ->
  clone_backward D n mode final fg ids0 g outs back z = Ok r -> clone_backward D n mode final (option_map (relabel ids) fg) ids g outs back z = Ok r.
Proof.
  intros D n mode final fg ids0 g outs back z r Hp Hl0 Hnd Hfg Hap Ho Hext H. unfold clone_backward in *.
  destruct (get_input_tensors (Some D) mode n z) as [its|]; [|discriminate H]. cbn [bind] in *.
  assert (Hlen : length g = length pss) by (rewrite <- Hp, map_length; reflexivity).
  destruct fg as [h|]; cbn [option_map] in *.
  - destruct (Hfg h eq_refl) as (Ph & Uh & Sh). assert (Lh : length h = length pss) by (rewrite <- Ph; unfold parents_of; rewrite map_length; reflexivity).
    assert (Hl : length ids = length h) by congruence.
    assert (Ht : topo h) by (apply topo_acyclic; rewrite Ph; exact Hacy).
    destruct (convert_nodes h (fun _ => None) its) as [om|] eqn:En; [|discriminate H]. cbn [bind] in H.
    destruct (convert_nodes_relabel tensor ids h (fun _ => None) its om Hl Ht Sh ltac:(intros i Q; exfalso; apply Q; reflexivity) En) as (om' & En' & Hom).
    rewrite En'. cbn [bind]. rewrite (shared_outputs tensor (relabel ids h) outs); [|rewrite relabel_parents by exact Hl; exact Ph|apply relabel_ops; exact Hl|exact Hap|exact Ho].
    cbn [bind]. destruct (output_nodes h outs) as [q|]; [|discriminate H]. cbn [bind] in H.
    apply (convert_backward_relabel D n mode final ids0 g outs back om om'); auto. intros l. apply Hext. intros i Hi. apply Hom. congruence.
  - cbn [bind] in *. apply (convert_backward_relabel D n mode final ids0 g outs back (fun _ => None)); auto.
Qed.
End Transfer.

Local Open Scope R_scope.
(** ** Single outputs, chains *)
Lemma single_apart : forall pss ids lv o, longest_path pss lv -> (forall j, (j < length pss)%nat -> leads_to pss o j) -> (o < length pss)%nat -> outputs_apart pss ids lv [o].
Proof.
  intros pss ids lv o Hlv Hall Ho o' i a [<-|[]] [Hi Hd] _ _. specialize (Hall i Hi). specialize (Hd o Ho).
  assert (G : forall j, leads_to pss o j -> j = o \/ (lv j < lv o)%nat).
  { intros j H. induction H as [|j k ps E Hj Hk IH]; [left; reflexivity|]. right. pose proof (Hlv k ps E) as Q. destruct ps as [|q ps]; [contradiction|].
    destruct Q as [Q _]. specialize (Q j Hj). destruct IH as [->|IH]; lia. }
  destruct (G i Hall) as [E|E]; [exact E|lia].
Qed.

Lemma chain_in_order : forall pss ids ht, is_chain pss -> height pss ht -> length ids = length pss -> in_order ids ht.
Proof.
  intros pss ids ht Hc Hht Hl i j a Hij Ei Ej. assert (Hj : (j < length pss)%nat) by (rewrite <- Hl; apply nth_error_Some; congruence). clear Ei Ej.
  assert (G : forall q, (S q < length pss)%nat -> (ht (S q) <= ht q)%nat).
  { intros q Hq. destruct (Hht q ltac:(lia)) as [Q _]. destruct (nth_error pss (S q)) as [ps|] eqn:E; [|apply nth_error_None in E; lia].
    specialize (Q (S q) ps E). rewrite (Hc (S q) ps E) in Q. specialize (Q (or_introl eq_refl)). lia. }
  induction Hij as [|j Hij IH]; [apply G; exact Hj|eapply Nat.le_trans; [apply G; exact Hj|apply IH; lia]].
Qed.

Lemma chain_acyclic : forall pss, is_chain pss -> acyclic pss.
Proof. intros pss H i ps p E Hp. rewrite (H i ps E) in Hp. destruct i; [contradiction|]. destruct Hp as [<-|[]]. lia. Qed.

Lemma chain_single : forall pss, is_chain pss -> forall j, (j < length pss)%nat -> leads_to pss (length pss - 1) j.
Proof.
  intros pss H j Hj. remember (length pss - 1 - j)%nat as d eqn:Ed. revert j Hj Ed. induction d as [|d IH]; intros j Hj Ed.
  - replace j with (length pss - 1)%nat by lia. constructor.
  - destruct (nth_error pss (S j)) as [ps|] eqn:E; [|apply nth_error_None in E; lia].
    apply (leads_step _ _ j (S j) ps E); [rewrite (H (S j) ps E); left; reflexivity|apply IH; lia].
Qed.

Lemma height_exists : forall pss, acyclic pss -> exists ht, height pss ht.
Proof.
  intros pss Hacy. set (g := relabel (seq 0 (length pss)) (map (fun ps => mk_fnode O (@KInput unit) ps) pss)).
  assert (Hlen : length (seq 0 (length pss)) = length (map (fun ps => mk_fnode O (@KInput unit) ps) pss)) by (rewrite seq_length, map_length; reflexivity).
  assert (Hp : parents_of g = pss).
  { unfold g. rewrite relabel_parents by exact Hlen. unfold parents_of. rewrite map_map. cbn. apply map_id. }
  assert (Hu : unshared g) by (unfold unshared, g; rewrite relabel_ops by exact Hlen; apply seq_NoDup).
  assert (Ht : topo g) by (apply topo_acyclic; rewrite Hp; exact Hacy).
  exists (kdepths g). intros i Hi.
  assert (Hnth : forall j ps, nth_error pss j = Some ps -> exists nod, nth_error g j = Some nod /\ fn_parents nod = ps).
  { intros j ps E. rewrite <- Hp in E. unfold parents_of in E. rewrite nth_error_map in E. destruct (nth_error g j) as [nod|]; [|discriminate E]. cbn in E. injection E as <-. eauto. }
  split.
  - intros j ps E Hin. destruct (Hnth j ps E) as (nod & En & <-). exact (kdepth_parent g Ht j nod i En Hin).
  - destruct (Nat.eq_dec (kdepths g i) 0) as [E|E]; [left; exact E|right].
    destruct (kdepth_child g Ht Hu i E) as (j & nj & Ej & Hin & Q). exists j, (fn_parents nj). split; [|split; auto].
    rewrite <- Hp. unfold parents_of. rewrite nth_error_map, Ej. reflexivity.
Qed.

(** ** Networks *)
Lemma crown_model_ext : forall mode D n (g : graph) l back fm fm' its, acyclic (map snd g) -> (forall i, (i < length g)%nat -> fm' i = fm i) ->
  crown_model mode D n g l back fm' its = crown_model mode D n g l back fm its.
Proof.
  intros mode D n g l back fm fm' its Hacy Hfm.
  assert (G : forall q imap, (forall L ps p, In (L, ps) q -> In p ps -> (p < length g)%nat) -> get_input_nodes mode D n its fm' g q imap = get_input_nodes mode D n its fm g q imap).
  { induction q as [|[L ps] q IH]; intros imap Hq; [reflexivity|]. cbn [get_input_nodes].
    assert (E : node_inputs mode D n its fm' g imap ps = node_inputs mode D n its fm g imap ps).
    { unfold node_inputs. destruct ps as [|p0 ps0]; [reflexivity|]. f_equal. apply mapR_ext. intros p Hp. rewrite Hfm; [reflexivity|].
      apply (Hq L (p0 :: ps0)); [left; reflexivity|exact Hp]. }
    rewrite E. destruct (node_inputs mode D n its fm g imap ps) as [ts|]; [|reflexivity]. cbn [bind]. apply IH. intros L' ps' p Q. apply (Hq L' ps' p). right. exact Q. }
  unfold crown_model. destruct (_ && _)%bool; [reflexivity|]. rewrite G; [reflexivity|].
  intros L ps p Q Hp. apply In_nth_error in Q. destruct Q as [i Q]. assert (i < length g)%nat by (apply nth_error_Some; congruence).
  assert (p < i)%nat; [|lia]. apply (Hacy i ps p); [|exact Hp]. rewrite nth_error_map, Q. reflexivity.
Qed.

Lemma net_sources : forall ke sp opts net, (0 < sp_n sp)%nat -> net_ok (sp_n sp) net -> sources_input (decomon_net ke sp opts net).
Proof.
  intros ke sp opts net Hn Hnet i nod En Ep. destruct (net_node_inv ke sp opts net Hn i nod En) as (q & ps & Ei & ->). destruct q as [L|]; [|reflexivity].
  destruct (Hnet i (Some L) ps Ei) as [_ [Q _]]. contradiction.
Qed.

Lemma converted_shared_same : forall ids ht ke D m mode final fwd bwd n net o z ts,
  (0 < n)%nat -> net_ok n net -> single_output net o ->
  length ids = length net -> height (map snd net) ht -> in_order ids ht ->
  converted ke D m mode final fwd bwd n net o z = Ok ts -> converted_shared ids ke D m mode final fwd bwd n net o z = Ok ts.
Proof.
  intros ids ht ke D m mode final fwd bwd n net o z ts Hn Hnet [Ho Hall] Hl Hht Hord H. set (sp := mk_spec false mode D n) in *.
  assert (Hacy : acyclic (map snd net)) by (apply (net_acyclic sp net Hnet)).
  destruct (longest_path_exists _ Hacy) as [lv Hlv].
  assert (Ho' : (o < length (map snd net))%nat) by (rewrite map_length; exact Ho).
  assert (Hall' : forall j, (j < length (map snd net))%nat -> leads_to (map snd net) o j) by (rewrite map_length; exact Hall).
  pose proof (single_apart (map snd net) ids lv o Hlv Hall' Ho') as Hap.
  assert (Hl' : length ids = length (map snd net)) by (rewrite map_length; exact Hl).
  assert (Hne : map snd net <> []) by (intros Q; rewrite Q in Ho'; cbn in Ho'; lia).
  assert (Houts : forall o', In o' [o] -> (o' < length (map snd net))%nat) by (intros o' [<-|[]]; exact Ho').
  assert (Hph : parents_of (decomon_net ke sp fwd net) = map snd net) by (apply (net_parents ke sp fwd net Hn)).
  assert (Huh : unshared (decomon_net ke sp fwd net)) by (apply (net_unshared ke sp fwd net Hn)).
  assert (Hsh : sources_input (decomon_net ke sp fwd net)) by (apply net_sources; [exact Hn|exact Hnet]).
  assert (Hpb : map snd (backward_net ke sp bwd n net) = map snd net) by (apply (bnet_parents ke sp bwd net)).
  unfold converted, converted_shared in *. fold sp in H |- *. destruct (get_direction m).
  - apply (clone_forward_relabel ids lv ht (map snd net)); auto.
  - assert (G : clone_backward D n mode final (option_map (relabel ids) (match m with CROWN => None | _ => Some (decomon_net ke sp fwd net) end)) ids (backward_net ke sp bwd n net) [o] None z = Ok ts).
    { apply (clone_backward_relabel ids lv ht (map snd net) Hacy Hlv Hht Hl' Hne Hord D n mode final _ (seq 0 (length net))); auto.
      - rewrite seq_length, map_length. reflexivity.
      - apply seq_NoDup.
      - intros h E. destruct m; try discriminate E; injection E as <-; auto.
      - intros fm fm' l its Hfm. apply crown_model_ext; [rewrite Hpb; exact Hacy|exact Hfm]. }
    destruct m; exact G.
Qed.

Lemma shared_bounds : forall ids ht ke D m mode final fwd bwd n net o v z,
  0 < ke -> (0 < n)%nat -> norm_ok D -> net_ok n net -> net_value net v -> single_output net o -> (mode = IBP \/ exists y, in_dom D n z y) ->
  clone_fits D m mode final fwd bwd net -> clone_gaps ke D m mode fwd bwd n net z ->
  length ids = length net -> height (map snd net) ht -> in_order ids ht ->
  exists ts, converted_shared ids ke D m mode final fwd bwd n net o z = Ok ts /\ valid D final false (in_dom D n z) n (net_dim n net o) (v o) ts.
Proof.
  intros ids ht ke D m mode final fwd bwd n net o v z Hke Hn HD Hnet Hv Ho He Hf Hg Hl Hht Hord.
  destruct (converted_sound ke D m mode final fwd bwd n net o v z Hke Hn HD Hnet Hv Ho He Hf Hg) as (ts & E & V).
  exists ts. split; [|exact V]. apply (converted_shared_same ids ht); auto.
Qed.

(** sequential models, whatever the layers shared *)
Lemma chain_bounds : forall ids ke D m mode final fwd bwd n net v z,
  0 < ke -> (0 < n)%nat -> norm_ok D -> net_ok n net -> net_value net v -> is_chain (map snd net) -> net <> [] -> (mode = IBP \/ exists y, in_dom D n z y) ->
  clone_fits D m mode final fwd bwd net -> clone_gaps ke D m mode fwd bwd n net z -> length ids = length net ->
  exists ts, converted_shared ids ke D m mode final fwd bwd n net (length net - 1) z = Ok ts /\
    valid D final false (in_dom D n z) n (net_dim n net (length net - 1)) (v (length net - 1)%nat) ts.
Proof.
  intros ids ke D m mode final fwd bwd n net v z Hke Hn HD Hnet Hv Hc Hne He Hf Hg Hl.
  destruct (height_exists _ (chain_acyclic _ Hc)) as [ht Hht].
  assert (Hl' : length ids = length (map snd net)) by (rewrite map_length; exact Hl).
  apply (shared_bounds ids ht); auto.
  - split; [destruct net; [contradiction|cbn; lia]|]. intros j Hj. pose proof (chain_single _ Hc j) as Q. rewrite map_length in Q. apply Q. exact Hj.
  - exact (chain_in_order _ ids ht Hc Hht Hl').
Qed.

(** ** The rewritten model *)
Definition kg_ids (g : kgraph) : list nat := map (fun q => fst (fst q)) g.
Lemma preprocess_shared : forall g y v lv ht outs its, acyclic (map snd g) ->
  (forall i k o ps, nth_error g i = Some (k, o, ps) -> ps = [] -> o = None) -> g <> [] -> kg_value g y v ->
  longest_path (map snd g) lv -> height (map snd g) ht -> in_order (kg_ids g) ht -> outputs_apart (map snd g) (kg_ids g) lv outs ->
  (forall o, In o outs -> (o < length g)%nat) ->
  preprocess (kg_nodes g) outs (kg_inputs g y) its = Ok (map v (filter (deepestb (kg_nodes g) lv) outs)).
Proof.
  intros g y v lv ht outs its Hacy Hsrc Hne Hv Hlv Hht Hord Hap Ho.
  assert (Hpar : parents_of (kg_nodes g) = map snd g).
  { unfold parents_of, kg_nodes. rewrite map_map. apply map_ext. intros [[k o] ps]. reflexivity. }
  assert (Hlen : length (kg_nodes g) = length g) by (unfold kg_nodes; apply map_length).
  assert (Ht : topo (kg_nodes g)) by (apply topo_acyclic; rewrite Hpar; exact Hacy).
  assert (Hnth : forall i nod, nth_error (kg_nodes g) i = Some nod -> exists k o ps, nth_error g i = Some (k, o, ps) /\
    nod = mk_fnode k match o with Some L => split_kind L | None => KInput end ps).
  { intros i nod E. unfold kg_nodes in E. rewrite nth_error_map in E. destruct (nth_error g i) as [[[k o] ps]|]; [|discriminate E].
    injection E as <-. do 3 eexists. split; reflexivity. }
  unfold preprocess. rewrite (convert_forward_eval vec (kg_nodes g) (kg_inputs g y) its (fun i => [v i]) outs (filter (deepestb (kg_nodes g) lv) outs)).
  - rewrite concat_single. reflexivity.
  - exact Ht.
  - intros i nod E Ep. destruct (Hnth i nod E) as (k & o & ps & Eg & ->). cbn in Ep |- *. rewrite (Hsrc i k o ps Eg Ep). reflexivity.
  - intros i Q. unfold kg_inputs in Q. rewrite Hlen. apply nth_error_Some. intros N. rewrite N in Q. apply Q. reflexivity.
  - intros i nod E. destruct (Hnth i nod E) as (k & o & ps & Eg & ->). unfold kg_inputs. rewrite Eg. pose proof (Hv i k o ps Eg) as Q.
    destruct o as [L|]; [|rewrite Q; reflexivity].
    unfold node_out. cbn [fn_kind fn_parents split_kind]. destruct ps as [|p ps]; [specialize (Hsrc i k _ _ Eg eq_refl); discriminate Hsrc|].
    rewrite concat_single, split_same, Q. reflexivity.
  - apply (shared_outputs (kg_ids g) lv ht (map snd g)); auto.
    + intros Q. apply Hne. destruct g; [reflexivity|discriminate Q].
    + unfold kg_nodes, kg_ids. rewrite map_map. apply map_ext. intros [[k o] ps]. reflexivity.
    + intros o Q. specialize (Ho o Q). rewrite map_length. exact Ho.
  - intros o Q. apply filter_In in Q. rewrite Hlen. apply Ho. apply Q.
Qed.
