(** Proofs about op_sort and op_split. *)
From Coq Require Import Reals Lra Lia Psatz List Arith Bool ZArith Permutation Sorted.
From Verif Require Import RLib Spec M_Core M_Utils M_MergeLayers M_Ops P_Core P_Utils P_MergeLayers P_Axis P_Ops.
Import ListNotations.
Local Open Scope R_scope.

(** ** set_nth *)
Lemma set_nth_length : forall A (l : list A) i a, length (set_nth l i a) = length l.
Proof. induction l; intros [|i] b; cbn; auto. Qed.
Lemma nth_set_nth : forall A (l : list A) i k a d, (i < length l)%nat ->
  nth k (set_nth l i a) d = if Nat.eqb k i then a else nth k l d.
Proof.
  induction l; intros i k b d H; cbn [length] in H; [lia|].
  destruct i, k; cbn; auto. apply IHl. lia.
Qed.
Lemma map_set_nth : forall A B (f : A -> B) l i a, map f (set_nth l i a) = set_nth (map f l) i (f a).
Proof. induction l; intros [|i] b; cbn; auto. rewrite IHl. auto. Qed.
Lemma set_nth_app : forall A (l1 l2 : list A) a b, set_nth (l1 ++ a :: l2) (length l1) b = l1 ++ b :: l2.
Proof. induction l1; intros; cbn; auto. rewrite IHl1. auto. Qed.

(** ** the comparator network on values *)
Definition vstep (l : list R) (i j : nat) : list R :=
  set_nth (set_nth l j (Rmax (nth i l 0) (nth j l 0))) i (Rmin (nth i l 0) (nth j l 0)).
Fixpoint vinner (l : list R) (i : nat) (js : list nat) : list R :=
  match js with [] => l | j :: q => vinner (vstep l i j) i q end.
Fixpoint vouter (n : nat) (l : list R) (is : list nat) : list R :=
  match is with [] => l | i :: q => vouter n (vinner l i (seq (S i) (n - S i))) q end.

Lemma vstep_length : forall l i j, length (vstep l i j) = length l.
Proof. intros. unfold vstep. rewrite !set_nth_length. auto. Qed.
Lemma vinner_length : forall js l i, length (vinner l i js) = length l.
Proof. induction js; intros; cbn; auto. rewrite IHjs, vstep_length. auto. Qed.

Lemma vstep_nth : forall l i j k, (i < j < length l)%nat ->
  nth k (vstep l i j) 0 = if Nat.eqb k i then Rmin (nth i l 0) (nth j l 0)
    else if Nat.eqb k j then Rmax (nth i l 0) (nth j l 0) else nth k l 0.
Proof.
  intros. unfold vstep. rewrite nth_set_nth by (rewrite set_nth_length; lia).
  rewrite nth_set_nth by lia. reflexivity.
Qed.

Lemma vstep_perm : forall l i j, (i < j < length l)%nat -> Permutation (vstep l i j) l.
Proof.
  intros l i j H.
  destruct (nth_split l 0 (n := i) ltac:(lia)) as (l1 & r & E & L1).
  assert (Hr : (j - S i < length r)%nat).
  { apply (f_equal (@length R)) in E. rewrite app_length in E. cbn [length] in E. lia. }
  destruct (nth_split r 0 (n := (j - S i)%nat) Hr) as (l2 & l3 & E2 & L2).
  set (a := nth i l 0) in *. set (b := nth (j - S i) r 0) in *.
  assert (Eb : nth j l 0 = b).
  { rewrite E. rewrite app_nth2 by lia. replace (j - length l1)%nat with (S (j - S i)) by lia. reflexivity. }
  unfold vstep. rewrite Eb. fold a.
  assert (E3 : set_nth (set_nth l j (Rmax a b)) i (Rmin a b) = l1 ++ Rmin a b :: l2 ++ Rmax a b :: l3).
  { rewrite E, E2.
    replace (l1 ++ a :: l2 ++ b :: l3) with ((l1 ++ a :: l2) ++ b :: l3) by (rewrite <- app_assoc; reflexivity).
    replace j with (length (l1 ++ a :: l2)) at 1 by (rewrite app_length; cbn [length]; lia).
    rewrite set_nth_app. rewrite <- app_assoc. cbn [app]. rewrite <- L1. apply set_nth_app. }
  rewrite E3. rewrite E, E2.
  apply Permutation_app_head.
  destruct (Rle_dec a b).
  - rewrite Rmin_left, Rmax_right by lra. apply Permutation_refl.
  - rewrite Rmin_right, Rmax_left by lra.
    apply perm_trans with (b :: a :: l2 ++ l3).
    + apply perm_skip. apply Permutation_sym. apply Permutation_middle.
    + apply perm_trans with (a :: b :: l2 ++ l3); [apply perm_swap|]. apply perm_skip. apply Permutation_middle.
Qed.

Definition inv (n i : nat) (l : list R) : Prop :=
  forall a c, (a < i)%nat -> (a < c < n)%nat -> nth a l 0 <= nth c l 0.

Lemma vinner_spec : forall js l i n, length l = n -> inv n i l ->
  (forall j, In j js -> (i < j < n)%nat) ->
  forall done, (forall c, In c done -> (i < c < n)%nat /\ nth i l 0 <= nth c l 0) ->
  Permutation (vinner l i js) l /\ inv n i (vinner l i js) /\
  (forall c, In c done \/ In c js -> nth i (vinner l i js) 0 <= nth c (vinner l i js) 0).
Proof.
  induction js as [|j js IH]; intros l i n Hl Hi Hjs done Hd; cbn [vinner].
  - repeat split; auto. intros c [H|[]]. apply Hd; auto.
  - assert (Hj : (i < j < n)%nat) by (apply Hjs; left; auto).
    assert (Hi' : inv n i (vstep l i j)).
    { intros a c Ha Hc. rewrite !vstep_nth by lia.
      destruct (Nat.eqb_spec a i); [lia|]. destruct (Nat.eqb_spec a j); [lia|].
      pose proof (Hi a i Ha ltac:(lia)). pose proof (Hi a j Ha ltac:(lia)).
      destruct (Nat.eqb_spec c i); [apply Rmin_glb; auto|].
      destruct (Nat.eqb_spec c j); [eapply Rle_trans; [|apply Rmax_l]; auto|]. auto. }
    destruct (IH (vstep l i j) i n ltac:(rewrite vstep_length; auto) Hi' ltac:(intros; apply Hjs; right; auto) (j :: done)) as (P & I & C).
    { intros c [<-|Hc].
      - split; auto. rewrite !vstep_nth by lia. rewrite Nat.eqb_refl. destruct (Nat.eqb_spec j i); [lia|]. rewrite Nat.eqb_refl.
        eapply Rle_trans; [apply Rmin_l|apply Rmax_l].
      - destruct (Hd c Hc) as [Hc1 Hc2]. split; auto. rewrite !vstep_nth by lia. rewrite Nat.eqb_refl.
        destruct (Nat.eqb_spec c i); [lia|].
        destruct (Nat.eqb_spec c j); [eapply Rle_trans; [apply Rmin_l|apply Rmax_l]|].
        eapply Rle_trans; [apply Rmin_l|auto]. }
    repeat split; auto.
    + eapply perm_trans; [exact P|]. apply vstep_perm. lia.
    + intros c [H|[->|H]]; apply C; [left; right; auto | left; left; auto | right; auto].
Qed.

Lemma vouter_spec : forall m i l n, length l = n -> inv n i l -> (i + m <= n)%nat ->
  Permutation (vouter n l (seq i m)) l /\ inv n (i + m) (vouter n l (seq i m)) /\ length (vouter n l (seq i m)) = n.
Proof.
  induction m; intros i l n Hl Hi Hm; cbn [seq vouter].
  - rewrite Nat.add_0_r. auto.
  - destruct (vinner_spec (seq (S i) (n - S i)) l i n Hl Hi ltac:(intros j Hj; apply in_seq in Hj; lia) [] ltac:(intros c [])) as (P & I & C).
    assert (I' : inv n (S i) (vinner l i (seq (S i) (n - S i)))).
    { intros a c Ha Hc. destruct (Nat.eq_dec a i) as [->|]; [|apply I; lia].
      apply C. right. apply in_seq. lia. }
    destruct (IHm (S i) (vinner l i (seq (S i) (n - S i))) n ltac:(rewrite vinner_length; auto) I' ltac:(lia)) as (P2 & I2 & L2).
    repeat split; auto.
    + eapply perm_trans; eauto.
    + replace (i + S m)%nat with (S i + m)%nat by lia. auto.
Qed.

Lemma sorted_nth : forall l, (forall a c, (a < c < length l)%nat -> nth a l 0 <= nth c l 0) -> StronglySorted Rle l.
Proof.
  induction l as [|x l IH]; intros H; constructor.
  - apply IH. intros a c Hac. apply (H (S a) (S c)). cbn [length]. lia.
  - apply Forall_forall. intros y Hy. destruct (In_nth l y 0 Hy) as (c & Hc & <-). apply (H 0%nat (S c)). cbn [length]. lia.
Qed.

Lemma sort_network : forall l, StronglySorted Rle (vouter (length l) l (seq 0 (length l - 1))) /\
  Permutation (vouter (length l) l (seq 0 (length l - 1))) l.
Proof.
  intros l. destruct (vouter_spec (length l - 1) 0 l (length l) eq_refl) as (P & I & L).
  - intros a c Ha; lia.
  - lia.
  - split; auto. apply sorted_nth. intros a c Hac. apply I; lia.
Qed.

(** a list has a single sorted permutation *)
Lemma sorted_perm_unique : forall l l', StronglySorted Rle l -> StronglySorted Rle l' -> Permutation l l' -> l = l'.
Proof.
  induction l as [|x l IH]; intros l' H H' P.
  - apply Permutation_nil in P. auto.
  - destruct l' as [|y l']; [apply Permutation_sym, Permutation_nil in P; discriminate|].
    inversion H as [|? ? S1 F1]; inversion H' as [|? ? S2 F2]; subst.
    assert (x = y).
    { apply Rle_antisym.
      - assert (Hy : In y (x :: l)) by (eapply Permutation_in; [apply Permutation_sym; exact P|left; auto]).
        destruct Hy as [->|Hy]; [lra|]. rewrite Forall_forall in F1. auto.
      - assert (Hx : In x (y :: l')) by (eapply Permutation_in; [exact P|left; auto]).
        destruct Hx as [->|Hx]; [lra|]. rewrite Forall_forall in F2. auto. }
    subst y. f_equal. apply IH; auto. eapply Permutation_cons_inv; eauto.
Qed.

(** ** the network on bounds *)
Definition step_gaps (ke : R) (sp : spec) (m : nat) (l : list (full tensor)) (i j : nat) : Prop :=
  let d := mk_full empty_tensor empty_tensor empty_tensor empty_tensor empty_tensor empty_tensor empty_tensor empty_tensor empty_tensor in
  let input_i := extract (sp_mode sp) (sp_dc sp) (nth i l d) in
  let input_j := extract (sp_mode sp) (sp_dc sp) (nth j l d) in
  max_gaps_ok ke sp m input_i input_j /\ min_gaps_ok ke sp m input_i input_j.
Fixpoint inner_gaps (ke : R) (sp : spec) (m : nat) (l : list (full tensor)) (i : nat) (js : list nat) : Prop :=
  match js with
  | [] => True
  | j :: q => step_gaps ke sp m l i j /\ forall l', sort_step ke sp l i j = Ok l' -> inner_gaps ke sp m l' i q
  end.
Fixpoint outer_gaps (ke : R) (sp : spec) (m n : nat) (l : list (full tensor)) (is : list nat) : Prop :=
  match is with
  | [] => True
  | i :: q => inner_gaps ke sp m l i (seq (S i) (n - S i)) /\
      forall l', sort_inner ke sp l i (seq (S i) (n - S i)) = Ok l' -> outer_gaps ke sp m n l' q
  end.

Section Net.
Variables (ke : R) (sp : spec) (S : vec -> Prop) (m : nat).
Hypotheses (Hke : 0 < ke) (Hn : (0 < sp_n sp)%nat) (Hd : dom_ok (sp_dom sp) (sp_mode sp)).

Definition vf (f : vec -> vec) (r : full tensor) : Prop :=
  vfull (sp_dom sp) (get_ibp (sp_mode sp)) (get_affine (sp_mode sp)) S (sp_n sp) m f r.
(** the records of l bound, at every point, the values of F z j *)
Definition net_ok (F : vec -> nat -> list R) (l : list (full tensor)) : Prop :=
  (forall z j, length (F z j) = length l) /\
  forall c r, nth_error l c = Some r -> vf (fun z j => nth c (F z j) 0) r.

Lemma vf_ext : forall (f g : vec -> vec) r, (forall z j, f z j = g z j) -> vf f r -> vf g r.
Proof.
  intros f g r H [C A]. split.
  - intros Hi z j Hz Hj. rewrite <- H. apply C; auto.
  - intros Ha. destruct (A Ha) as [X B]. split; auto. intros z j Hz Hj. rewrite <- H. apply B; auto.
Qed.

Lemma nth_error_set_nth : forall A (l : list A) i k a, (i < length l)%nat ->
  nth_error (set_nth l i a) k = if Nat.eqb k i then Some a else nth_error l k.
Proof.
  induction l; intros i k b H; cbn [length] in H; [lia|].
  destruct i, k; cbn; auto. apply IHl. lia.
Qed.

Lemma sort_step_sound : forall F l i j, net_ok F l -> (i < j < length l)%nat -> step_gaps ke sp m l i j ->
  exists l', sort_step ke sp l i j = Ok l' /\ net_ok (fun z q => vstep (F z q) i j) l' /\ length l' = length l.
Proof.
  intros F l i j [HL HF] Hij [G1 G2]. unfold sort_step. cbv zeta in *.
  set (d := mk_full empty_tensor empty_tensor empty_tensor empty_tensor empty_tensor empty_tensor empty_tensor empty_tensor empty_tensor) in *.
  assert (Vi : forall c, (c < length l)%nat -> op_sp sp S m (fun z q => nth c (F z q) 0) (extract (sp_mode sp) (sp_dc sp) (nth c l d))).
  { intros c Hc. apply vfull_valid. apply HF. apply nth_error_nth'. auto. }
  destruct (maximum_sound ke sp None S m _ _ _ _ Hke Hn Hd I (Vi i ltac:(lia)) (Vi j ltac:(lia)) G1) as (oa & Ea & Va).
  destruct (minimum_sound ke sp None S m _ _ _ _ Hke Hn Hd I (Vi i ltac:(lia)) (Vi j ltac:(lia)) G2) as (ob & Eb & Vb).
  rewrite Ea. cbn [bind]. rewrite Eb. cbn [bind].
  destruct (get_full_sound sp true true S m _ oa Hn Hd Va) as (ra & Era & Cra & Ara).
  destruct (get_full_sound sp true true S m _ ob Hn Hd Vb) as (rb & Erb & Crb & Arb).
  rewrite Era, Erb. cbn [bind]. rewrite orb_true_r in *.
  eexists. split; [reflexivity|]. split; [split|].
  - intros. rewrite vstep_length, !set_nth_length. auto.
  - intros c r Hr. rewrite nth_error_set_nth in Hr by (rewrite set_nth_length; lia).
    rewrite nth_error_set_nth in Hr by lia.
    destruct (Nat.eqb_spec c i) as [->|Hci].
    { injection Hr as <-. apply vf_ext with (f := fun z q => Rmin (nth i (F z q) 0) (nth j (F z q) 0)).
      - intros. rewrite vstep_nth by (rewrite HL; lia). rewrite Nat.eqb_refl. auto.
      - split; auto. }
    destruct (Nat.eqb_spec c j) as [->|Hcj].
    { injection Hr as <-. apply vf_ext with (f := fun z q => Rmax (nth i (F z q) 0) (nth j (F z q) 0)).
      - intros. rewrite vstep_nth by (rewrite HL; lia). destruct (Nat.eqb_spec j i); [lia|]. rewrite Nat.eqb_refl. auto.
      - split; auto. }
    eapply vf_ext; [|apply HF; exact Hr]. intros. cbv beta. rewrite vstep_nth by (rewrite HL; lia).
    destruct (Nat.eqb_spec c i); [lia|]. destruct (Nat.eqb_spec c j); [lia|]. auto.
  - rewrite !set_nth_length. auto.
Qed.

Lemma sort_inner_sound : forall js F l i, net_ok F l -> (forall j, In j js -> (i < j < length l)%nat) ->
  inner_gaps ke sp m l i js ->
  exists l', sort_inner ke sp l i js = Ok l' /\ net_ok (fun z q => vinner (F z q) i js) l' /\ length l' = length l.
Proof.
  induction js as [|j js IH]; intros F l i HF Hjs Hg; cbn [sort_inner vinner].
  - exists l. auto.
  - destruct Hg as [G1 G2].
    destruct (sort_step_sound F l i j HF (Hjs j (or_introl eq_refl)) G1) as (l1 & E1 & V1 & L1).
    rewrite E1. cbn [bind].
    destruct (IH _ l1 i V1) as (l2 & E2 & V2 & L2).
    + intros. rewrite L1. apply Hjs. right; auto.
    + apply G2. auto.
    + exists l2. split; [exact E2|]. split; [exact V2|congruence].
Qed.

Lemma sort_outer_sound : forall is F l n, net_ok F l -> length l = n -> (forall i, In i is -> (i < n)%nat) ->
  outer_gaps ke sp m n l is ->
  exists l', sort_outer ke sp n l is = Ok l' /\ net_ok (fun z q => vouter n (F z q) is) l' /\ length l' = n.
Proof.
  induction is as [|i is IH]; intros F l n HF Hl His Hg; cbn [sort_outer vouter].
  - exists l. auto.
  - destruct Hg as [G1 G2]. assert (Hi : (i < n)%nat) by (apply His; left; auto).
    destruct (sort_inner_sound (seq (Datatypes.S i) (n - Datatypes.S i)) F l i HF) as (l1 & E1 & V1 & L1); auto.
    { intros j Hj. apply in_seq in Hj. lia. }
    rewrite E1. cbn [bind].
    destruct (IH _ l1 n V1) as (l2 & E2 & V2 & L2); auto; try lia.
    { intros. apply His; right; auto. }
    exists l2. auto.
Qed.
End Net.

(** ** op_sort *)
Definition op_sort_gaps (ke : R) (sp : spec) (s : list nat) (a : nat) (m' : nat) (ts : list tensor) : Prop :=
  sp_mode sp <> IBP -> forall r, get_fullinputs sp false false ts = Ok r ->
  outer_gaps ke sp m' (ax_len s a) (map (fun c => slice_full s a a c r) (seq 0 (ax_len s a))) (seq 0 (ax_len s a - 1)).

Lemma min_gaps_ibp : forall ke sp m a b, sp_mode sp = IBP -> min_gaps_ok ke sp m a b.
Proof. intros ke sp m a b H m0 m1 _ _. apply max_gaps_ibp; auto. Qed.
Lemma inner_gaps_ibp : forall ke sp m js l i, sp_mode sp = IBP -> inner_gaps ke sp m l i js.
Proof. intros ke sp m. induction js; intros l i H; cbn; auto. repeat split; auto using max_gaps_ibp, min_gaps_ibp. Qed.
Lemma outer_gaps_ibp : forall ke sp m n is l, sp_mode sp = IBP -> outer_gaps ke sp m n l is.
Proof. intros ke sp m n. induction is; intros l H; cbn; auto using inner_gaps_ibp. Qed.

Lemma sort_axis : forall mode pre k post axis, axis_ok mode pre post axis ->
  let axis' := if Z.eqb axis (-1) then Z.of_nat (length (pre ++ k :: post)) else axis in
  b_axis (pre ++ k :: post) axis' = Ok (length pre) /\
  (get_affine mode = true -> w_axis (pre ++ k :: post) (axis' + 1) = Ok (length pre)).
Proof.
  intros mode pre k post axis H. cbv zeta. destruct (Z.eqb_spec axis (-1)) as [->|Hne].
  - assert (post = []) by (destruct H as [H|[H [H'|H']]]; unfold pos_axis, neg_axis in *; auto; try lia; destruct post; auto; cbn [length] in H; lia).
    subst post. replace (Z.of_nat (length (pre ++ [k]))) with (pos_axis pre) by (unfold pos_axis; rewrite app_length; cbn; lia).
    split; [apply b_axis_pos|]. intros _. pose proof (w_axis_pos pre k []) as W. unfold shift_axis in W.
    destruct (Z.eqb_spec (pos_axis pre) (-1)); [unfold pos_axis in *; lia|]. exact W.
  - split; [eapply axis_ok_b; eauto|]. intros Ha. pose proof (axis_ok_w mode pre k post axis H Ha) as W.
    unfold shift_axis in W. destruct (Z.eqb_spec axis (-1)); [lia|]. exact W.
Qed.

Lemma unslice_at : forall pre k post c (l : list tensor) i p q, in_shape pre p -> in_shape post q -> (c < k)%nat ->
  unslice (pre ++ k :: post) (length pre) l i (ravel (pre ++ k :: post) (p ++ c :: q)) =
  nth c l empty_tensor i (ravel (pre ++ post) (p ++ q)).
Proof.
  intros. unfold unslice. cbv zeta. rewrite ax_len_mid, ax_inner_mid. rewrite ravel_flat by auto. unfold flat.
  pose proof (ravel_lt _ _ H0). rewrite flat_div, flat_mod by auto.
  rewrite flat_mod, flat_div by auto. rewrite ravel_app by auto. reflexivity.
Qed.

(** position in a block with the axis *)
Lemma position_split_mid : forall pre k post j, (j < prodn (pre ++ k :: post))%nat ->
  exists p c q, in_shape pre p /\ (c < k)%nat /\ in_shape post q /\ j = ravel (pre ++ k :: post) (p ++ c :: q).
Proof.
  intros pre k post j H. destruct (position_split _ _ _ H) as (p & q' & Ip & Iq & ->).
  inversion Iq as [|? c ? q Hc Hq]; subst. exists p, c, q. auto.
Qed.

Lemma nth_map_tensor : forall (sel : full tensor -> tensor) (l : list (full tensor)) c r,
  nth_error l c = Some r -> nth c (map sel l) empty_tensor = sel r.
Proof. intros. apply nth_error_nth. rewrite nth_error_map, H. reflexivity. Qed.

Lemma unslice_vfull : forall sp (S : vec -> Prop) pre k post (f : vec -> vec) r l,
  length l = k -> (0 < k)%nat ->
  (get_affine (sp_mode sp) = true -> forall z, S z -> in_dom (sp_dom sp) (sp_n sp) (f_x r) z) ->
  (forall c rc, nth_error l c = Some rc ->
     vfull (sp_dom sp) (get_ibp (sp_mode sp)) (get_affine (sp_mode sp)) S (sp_n sp) (prodn (pre ++ post)) (slice_fun pre k post c f) rc) ->
  let ibp := get_ibp (sp_mode sp) in
  let a := get_affine (sp_mode sp) in
  let s := pre ++ k :: post in let ab := length pre in
  vfull (sp_dom sp) ibp a S (sp_n sp) (prodn s) f
    (mk_full (f_x r)
    (when ibp (unslice s ab (map f_uc l)))
    (when a (unslice s ab (map f_wu l))) (when a (unslice s ab (map f_bu l)))
    (when ibp (unslice s ab (map f_lc l)))
    (when a (unslice s ab (map f_wl l))) (when a (unslice s ab (map f_bl l))) empty_tensor empty_tensor).
Proof.
  intros sp S pre k post f r l Hl Hk HX HF. cbv zeta. split.
  - intros Hi. rewrite Hi. cbn [when f_uc f_lc]. intros z j Hz Hj.
    destruct (position_split_mid _ _ _ _ Hj) as (p & c & q & Ip & Hc & Iq & ->).
    destruct (nth_error l c) as [rc|] eqn:Erc; [|apply nth_error_None in Erc; lia].
    rewrite !unslice_at by auto. rewrite !(nth_map_tensor _ _ _ _ Erc).
    destruct (HF c rc Erc) as [C _]. specialize (C Hi z (ravel (pre ++ post) (p ++ q)) Hz).
    unfold slice_fun in C. rewrite slice_at in C by auto. apply C. apply ravel_lt. apply in_shape_app; auto.
  - intros Ha. rewrite Ha. cbn [when f_x f_wu f_bu f_wl f_bl]. split; [auto|]. intros z j Hz Hj.
    destruct (position_split_mid _ _ _ _ Hj) as (p & c & q & Ip & Hc & Iq & ->).
    destruct (nth_error l c) as [rc|] eqn:Erc; [|apply nth_error_None in Erc; lia].
    destruct (HF c rc Erc) as [_ A]. destruct (A Ha) as [_ B]. specialize (B z (ravel (pre ++ post) (p ++ q)) Hz).
    unfold slice_fun in B. rewrite slice_at in B by auto.
    assert (E : forall w b : full tensor -> tensor,
      aff (sp_n sp) (unslice (pre ++ k :: post) (length pre) (map w l)) (unslice (pre ++ k :: post) (length pre) (map b l) 0%nat) z
        (ravel (pre ++ k :: post) (p ++ c :: q)) =
      aff (sp_n sp) (w rc) (b rc 0%nat) z (ravel (pre ++ post) (p ++ q))).
    { intros w b. unfold aff. rewrite unslice_at by auto. rewrite (nth_map_tensor _ _ _ _ Erc). f_equal.
      apply dot_ext; auto. intros. rewrite unslice_at by auto. rewrite (nth_map_tensor _ _ _ _ Erc). auto. }
    rewrite !E. apply B. apply ravel_lt. apply in_shape_app; auto.
Qed.

Lemma sort_sound : forall ke sp S pre k post axis (f g : vec -> vec) ts,
  0 < ke -> (0 < sp_n sp)%nat -> dom_ok (sp_dom sp) (sp_mode sp) -> sp_dc sp = false -> (0 < k)%nat ->
  axis_ok (sp_mode sp) pre post axis ->
  (forall z p q, in_shape pre p -> in_shape post q ->
     StronglySorted Rle (line g pre k post z p q) /\ Permutation (line g pre k post z p q) (line f pre k post z p q)) ->
  op_sp sp S (prodn (pre ++ k :: post)) f ts ->
  op_sort_gaps ke sp (pre ++ k :: post) (length pre) (prodn (pre ++ post)) ts ->
  exists out, op_sort ke sp (pre ++ k :: post) axis ts = Ok out /\ op_sp sp S (prodn (pre ++ k :: post)) g out.
Proof.
  intros ke sp S pre k post axis f g ts Hke Hn Hd Hdc Hk Hax Hg H Hgap.
  destruct (get_full_sound sp false false S _ f ts Hn Hd H) as (r & E & C & A).
  rewrite orb_false_r in C.
  destruct (sort_axis _ _ k _ _ Hax) as [Eb Ew]. cbv zeta in Eb, Ew.
  unfold op_sort. rewrite E. cbn [bind]. cbv zeta.
  set (axis' := if Z.eqb axis (-1) then Z.of_nat (length (pre ++ k :: post)) else axis) in *. clearbody axis'.
  rewrite Eb. cbn [bind].
  assert (Eaw : (if get_affine (sp_mode sp) then w_axis (pre ++ k :: post) (axis' + 1) else Ok (length pre)) = Ok (length pre)).
  { destruct (get_affine (sp_mode sp)) eqn:Ea; auto. }
  rewrite Eaw. cbn [bind]. rewrite !ax_len_mid. rewrite Nat.eqb_refl. cbn [negb]. 
  set (l0 := map (fun c => slice_full (pre ++ k :: post) (length pre) (length pre) c r) (seq 0 k)).
  set (F := fun (z : vec) (j : nat) => map (fun c => slice_fun pre k post c f z j) (seq 0 k)).
  assert (N0 : net_ok sp S (prodn (pre ++ post)) F l0).
  { split.
    - intros. unfold F, l0. rewrite !map_length. auto.
    - intros c rc Hc. unfold l0 in Hc. rewrite nth_error_map in Hc.
      destruct (nth_error (seq 0 k) c) as [c'|] eqn:Ec; [|discriminate]. cbn in Hc. injection Hc as <-.
      assert (Hck : (c < k)%nat). { apply nth_error_Some_bound_index in Ec || (assert (c < length (seq 0 k))%nat by (apply nth_error_Some; congruence); rewrite seq_length in *; auto). }
      assert (c' = c). { apply nth_error_nth with (d := 0%nat) in Ec. rewrite seq_nth in Ec by auto. lia. } subst c'.
      apply vf_ext with (f := slice_fun pre k post c f).
      + intros z j. unfold F. rewrite (nth_indep _ 0 (slice_fun pre k post 0 f z j)) by (rewrite map_length, seq_length; auto).
        rewrite (map_nth (fun c => slice_fun pre k post c f z j)). rewrite seq_nth by auto. auto.
      + unfold vf. apply slice_full_sound; auto. split; auto. }
  assert (G : outer_gaps ke sp (prodn (pre ++ post)) k l0 (seq 0 (k - 1))).
  { destruct (sp_mode sp) eqn:Esm.
    - apply outer_gaps_ibp; auto.
    - specialize (Hgap ltac:(congruence) r E). rewrite ax_len_mid in Hgap. exact Hgap.
    - specialize (Hgap ltac:(congruence) r E). rewrite ax_len_mid in Hgap. exact Hgap. }
  destruct (sort_outer_sound ke sp S (prodn (pre ++ post)) Hke Hn Hd (seq 0 (k - 1)) F l0 k N0) as (l & El & Nl & Ll); auto.
  { unfold l0. rewrite map_length, seq_length. auto. }
  { intros i Hi. apply in_seq in Hi. lia. }
  unfold op_sp. rewrite Hdc. rewrite El. cbn [bind]. eexists. split; [reflexivity|].
  apply vfull_valid. apply (unslice_vfull sp S pre k post g r l); auto.
  { intros Ha. apply A; auto. }
  intros c rc Hrc. destruct Nl as [NL NF]. specialize (NF c rc Hrc). unfold vf in NF.
  assert (Hck : (c < k)%nat) by (rewrite <- Ll; apply nth_error_Some; congruence).
  (* the network output is the sorted line of g *)
  assert (Es : forall z j, (j < prodn (pre ++ post))%nat -> nth c (vouter k (F z j) (seq 0 (k - 1))) 0 = slice_fun pre k post c g z j).
  { intros z j Hj. destruct (position_split _ _ _ Hj) as (p & q & Ip & Iq & ->).
    assert (EF : F z (ravel (pre ++ post) (p ++ q)) = line f pre k post z p q).
    { unfold F, line. apply map_ext. intros. unfold slice_fun. rewrite slice_at by auto. auto. }
    rewrite EF. destruct (Hg z p q Ip Iq) as [G1 G2].
    destruct (sort_network (line f pre k post z p q)) as [S1 S2].
    replace (length (line f pre k post z p q)) with k in S1, S2 by (unfold line; rewrite map_length, seq_length; auto).
    rewrite (sorted_perm_unique _ (line g pre k post z p q) S1 G1).
    - unfold line. rewrite (nth_indep _ 0 (g z (ravel (pre ++ k :: post) (p ++ 0%nat :: q)))) by (rewrite map_length, seq_length; auto).
      rewrite (map_nth (fun c => g z (ravel (pre ++ k :: post) (p ++ c :: q)))). rewrite seq_nth by auto.
      unfold slice_fun. rewrite slice_at by auto. auto.
    - eapply perm_trans; [exact S2|]. apply Permutation_sym; auto. }
  destruct NF as [NC NA]. split.
  - intros Hi z j Hz Hj. rewrite <- Es by auto. apply (NC Hi); auto.
  - intros Ha. destruct (NA Ha) as [NX NB]. split; auto. intros z j Hz Hj. rewrite <- Es by auto. apply NB; auto.
Qed.

(** ** op_split *)
Lemma split_sound : forall sp S pre k post axis (f : vec -> vec) ts,
  (0 < sp_n sp)%nat -> dom_ok (sp_dom sp) (sp_mode sp) -> sp_dc sp = false ->
  axis_ok (sp_mode sp) pre post axis ->
  op_sp sp S (prodn (pre ++ k :: post)) f ts ->
  exists outs, op_split sp (pre ++ k :: post) axis ts = Ok outs /\ length outs = k /\
    forall c (g : vec -> vec), (c < k)%nat ->
      (forall z p q, in_shape pre p -> in_shape post q ->
         g z (ravel (pre ++ post) (p ++ q)) = f z (ravel (pre ++ k :: post) (p ++ c :: q))) ->
      op_sp sp S (prodn (pre ++ post)) g (nth c outs []).
Proof.
  intros sp S pre k post axis f ts Hn Hd Hdc Hax H.
  destruct (get_full_sound sp false false S _ f ts Hn Hd H) as (r & E & C & A).
  rewrite orb_false_r in C.
  destruct (sort_axis _ _ k _ _ Hax) as [Eb Ew]. cbv zeta in Eb, Ew.
  unfold op_split. rewrite E. cbn [bind]. cbv zeta.
  set (axis' := if Z.eqb axis (-1) then Z.of_nat (length (pre ++ k :: post)) else axis) in *. clearbody axis'.
  rewrite Eb. cbn [bind].
  assert (Eaw : (if get_affine (sp_mode sp) then w_axis (pre ++ k :: post) (axis' + 1) else Ok (length pre)) = Ok (length pre)).
  { destruct (get_affine (sp_mode sp)) eqn:Ea; auto. }
  rewrite Eaw. cbn [bind]. rewrite !ax_len_mid. rewrite Nat.eqb_refl. cbn [negb]. unfold op_sp. rewrite Hdc.
  eexists. split; [reflexivity|]. split; [rewrite map_length, seq_length; auto|].
  intros c g Hc Hg.
  rewrite (nth_indep _ [] (extract (sp_mode sp) false (slice_full (pre ++ k :: post) (length pre) (length pre) 0 r))) by (rewrite map_length, seq_length; auto).
  rewrite (map_nth (fun c => extract (sp_mode sp) false (slice_full (pre ++ k :: post) (length pre) (length pre) c r))).
  rewrite seq_nth by auto. apply vfull_valid. cbn [Nat.add].
  destruct (slice_full_sound sp S pre k post c f r (get_ibp (sp_mode sp)) (get_affine (sp_mode sp)) Hc (conj C A)) as [C' A'].
  assert (Eg : forall z j, (j < prodn (pre ++ post))%nat -> slice_fun pre k post c f z j = g z j).
  { intros z j Hj. destruct (position_split _ _ _ Hj) as (p & q & Ip & Iq & ->). rewrite Hg by auto.
    unfold slice_fun. rewrite slice_at by auto. auto. }
  split.
  - intros Hi z j Hz Hj. rewrite <- Eg by auto. apply (C' Hi); auto.
  - intros Ha. destruct (A' Ha) as [X B]. split; auto. intros z j Hz Hj. rewrite <- Eg by auto. apply B; auto.
Qed.
