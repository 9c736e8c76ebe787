(** Sub-boxes: refine_boxes (C50), and the functions that use them. *)
From Coq Require Import Reals Lra Lia List Arith Bool ZArith.
From Verif Require Import RLib Spec M_Core M_State M_Wrapper Spec_Wrapper P_Core P_Wrapper.
Import ListNotations.
Local Open Scope R_scope.

Lemma argmax_from_range : forall l best bi i, (bi < i)%nat -> (argmax_from best bi i l < i + length l)%nat.
Proof.
  induction l as [|x l IH]; intros best bi i H; cbn; [lia|].
  destruct (Rlt_dec best x); [specialize (IH x i (S i))|specialize (IH best bi (S i))]; lia.
Qed.
Lemma argmax_range : forall l, l <> [] -> (argmax l < length l)%nat.
Proof. intros [|x l] H; [congruence|]. cbn. pose proof (argmax_from_range l x 0 1 ltac:(lia)). lia. Qed.

Lemma set_nth_len : forall l j v, length (set_nth j v l) = length l.
Proof. induction l as [|x l IH]; intros [|j] v; cbn; try reflexivity. rewrite IH. reflexivity. Qed.
Lemma set_nth_get : forall l j v i, (j < length l)%nat -> nth i (set_nth j v l) 0 = if (i =? j)%nat then v else nth i l 0.
Proof.
  induction l as [|x l IH]; intros j v i H; cbn in H; [lia|].
  destruct j as [|j], i as [|i]; cbn; try reflexivity. apply IH. lia.
Qed.

Lemma widths_len : forall p n, length (fst p) = n -> length (snd p) = n -> length (widths p) = n.
Proof. intros p n H1 H2. unfold widths. rewrite map_length, combine_length, H1, H2. lia. Qed.

Lemma sub_of_refl : forall n p, sample_ok n p -> sub_of n p p.
Proof. intros n p (L1 & L2 & H). split; [exact L1|]. split; [exact L2|]. intros i Hi. specialize (H i Hi). lra. Qed.
Lemma sub_of_sample : forall n p' p, sub_of n p' p -> sample_ok n p'.
Proof. intros n p' p (L1 & L2 & H). split; [exact L1|]. split; [exact L2|]. intros i Hi. specialize (H i Hi). lra. Qed.
Lemma sub_of_trans : forall n a b c, sub_of n a b -> sub_of n b c -> sub_of n a c.
Proof.
  intros n a b c (L1 & L2 & H) (_ & _ & H'). split; [exact L1|]. split; [exact L2|].
  intros i Hi. specialize (H i Hi). specialize (H' i Hi). lra.
Qed.
Lemma sub_of_in : forall n a b z, sub_of n a b -> in_sample n a z -> in_sample n b z.
Proof. intros n a b z (_ & _ & H) Z i Hi. specialize (H i Hi). specialize (Z i Hi). lra. Qed.

Lemma half0_sub : forall n p j, sample_ok n p -> (j < n)%nat -> sub_of n (half0 p j) p.
Proof.
  intros n p j (L1 & L2 & H) J. unfold sub_of, half0; cbn. rewrite set_nth_len. split; [exact L1|]. split; [exact L2|].
  intros i Hi. unfold lvec in *. rewrite set_nth_get by lia. pose proof (H i Hi). pose proof (H j J). unfold middle.
  destruct (i =? j)%nat eqn:E; [apply Nat.eqb_eq in E; subst i|]; lra.
Qed.
Lemma half1_sub : forall n p j, sample_ok n p -> (j < n)%nat -> sub_of n (half1 p j) p.
Proof.
  intros n p j (L1 & L2 & H) J. unfold sub_of, half1; cbn. rewrite set_nth_len. split; [exact L1|]. split; [exact L2|].
  intros i Hi. unfold lvec in *. rewrite set_nth_get by lia. pose proof (H i Hi). pose proof (H j J). unfold middle.
  destruct (i =? j)%nat eqn:E; [apply Nat.eqb_eq in E; subst i|]; lra.
Qed.
Lemma halves_cover : forall n p j z, sample_ok n p -> (j < n)%nat -> in_sample n p z -> in_sample n (half0 p j) z \/ in_sample n (half1 p j) z.
Proof.
  intros n p j z (L1 & L2 & H) J Z. destruct (Rle_dec (z j) (middle p j)) as [C|C]; [left|right]; intros i Hi; pose proof (Z i Hi) as W; unfold lvec, half0, half1 in *; cbn.
  - rewrite set_nth_get by lia. destruct (i =? j)%nat eqn:E; [apply Nat.eqb_eq in E; subst i|]; lra.
  - rewrite set_nth_get by lia. destruct (i =? j)%nat eqn:E; [apply Nat.eqb_eq in E; subst i|]; lra.
Qed.

(** a list of boxes partitions p: included in p and covering it *)
Definition covers (n : nat) (l : list box) (p : box) : Prop :=
  Forall (fun q => sub_of n q p) l /\ forall z, in_sample n p z -> exists q, In q l /\ in_sample n q z.

Lemma covers_one : forall n p, sample_ok n p -> covers n [p] p.
Proof. intros n p H. split; [constructor; [apply sub_of_refl; exact H|constructor]|]. intros z Z. exists p. split; [left; reflexivity|exact Z]. Qed.

Lemma covers_split : forall n l p, (0 < n)%nat -> covers n l p -> covers n (split_boxes l) p.
Proof.
  intros n l p N [S C]. rewrite Forall_forall in S.
  assert (J : forall q, In q l -> (argmax (widths q) < n)%nat).
  { intros q I. destruct (S q I) as (L1 & L2 & _). pose proof (widths_len q n L1 L2) as W. rewrite <- W. apply argmax_range. intro X. rewrite X in W. cbn in W. lia. }
  split.
  - apply Forall_forall. intros q I. unfold split_boxes in I. apply in_app_or in I.
    destruct I as [I|I]; apply in_map_iff in I; destruct I as [q0 [<- I]];
    (eapply sub_of_trans; [|apply S; exact I]); [apply half0_sub|apply half1_sub]; auto; eapply sub_of_sample; apply S; exact I.
  - intros z Z. destruct (C z Z) as [q [I Q]].
    destruct (halves_cover n q (argmax (widths q)) z (sub_of_sample _ _ _ (S q I)) (J q I) Q) as [X|X].
    + exists (half0 q (argmax (widths q))). split; [|exact X]. apply in_or_app. left. apply in_map_iff. exists q; split; [reflexivity|exact I].
    + exists (half1 q (argmax (widths q))). split; [|exact X]. apply in_or_app. right. apply in_map_iff. exists q; split; [reflexivity|exact I].
Qed.

Fixpoint split_iter (q : nat) (l : list box) : list box := match q with O => l | S q' => split_iter q' (split_boxes l) end.

Lemma split_iter_len : forall q l, length (split_iter q l) = (2 ^ q * length l)%nat.
Proof.
  induction q as [|q IH]; intros l; cbn [split_iter]; [cbn; lia|]. rewrite IH. unfold split_boxes. rewrite app_length, !map_length. cbn [Nat.pow]. nia.
Qed.
Lemma split_iter_covers : forall n q l p, (0 < n)%nat -> covers n l p -> covers n (split_iter q l) p.
Proof. intros n q. induction q as [|q IH]; intros l p N C; cbn; [exact C|]. apply IH; [exact N|]. apply covers_split; assumption. Qed.

Lemma refine_loop_spec : forall fuel k N bs, (0 < k)%nat -> (N <= fuel + k)%nat -> exists q,
  refine_loop fuel k N bs = ((2 ^ q * k)%nat, map (split_iter q) bs) /\ (q = 0%nat \/ 2 ^ q * k <= N)%nat /\ (N < 2 * (2 ^ q * k))%nat.
Proof.
  induction fuel as [|fuel IH]; intros k N bs K F; cbn [refine_loop].
  - exists 0%nat. cbn [Nat.pow split_iter]. rewrite map_id, Nat.mul_1_l. split; [reflexivity|]. split; [left; reflexivity|lia].
  - destruct (2 * k <=? N)%nat eqn:E.
    + apply Nat.leb_le in E. destruct (IH (2 * k)%nat N (map split_boxes bs) ltac:(lia) ltac:(lia)) as (q & R & A & B).
      exists (S q). rewrite R. rewrite map_map. cbn [Nat.pow split_iter].
      replace (2 ^ q * (2 * k))%nat with (2 * 2 ^ q * k)%nat by lia. split; [reflexivity|].
      split; [right|lia]. destruct A as [-> | A]; [cbn [Nat.pow]; lia|lia].
    + apply Nat.leb_gt in E. exists 0%nat. cbn [Nat.pow split_iter]. rewrite map_id, Nat.mul_1_l. split; [reflexivity|]. split; [left; reflexivity|lia].
Qed.

(** ** Blocks of an array *)
Lemma concat_nth : forall {A} k (l : list (list A)) b i d, Forall (fun r => length r = k) l -> (b < length l)%nat -> (i < k)%nat ->
  nth (b * k + i) (concat l) d = nth i (nth b l []) d.
Proof.
  intros A k l b i d H. revert b. induction H as [|r l E F IH]; intros b B I; [cbn in B; lia|]. cbn [concat].
  destruct b as [|b].
  - cbn [nth]. rewrite app_nth1 by lia. f_equal.
  - cbn [nth]. rewrite app_nth2 by (rewrite E; nia). rewrite E. replace (S b * k + i - k)%nat with (b * k + i)%nat by nia. apply IH; [cbn in B; lia|exact I].
Qed.

Lemma nth_firstn : forall {A} k (l : list A) i d, (i < k)%nat -> nth i (firstn k l) d = nth i l d.
Proof. intros A k. induction k as [|k IH]; intros [|x l] i d H; [lia|lia|destruct i; reflexivity|]. destruct i; cbn; [reflexivity|apply IH; lia]. Qed.
Lemma nth_skipn : forall {A} k (l : list A) i d, nth i (skipn k l) d = nth (k + i) l d.
Proof. intros A k. induction k as [|k IH]; intros [|x l] i d; cbn; try reflexivity; [destruct i; reflexivity|apply IH]. Qed.

Lemma chunks_nth : forall {A} c k (l : list A) b i d, (b < c)%nat -> (i < k)%nat -> nth i (nth b (chunks c k l) []) d = nth (b * k + i) l d.
Proof.
  intros A c. induction c as [|c IH]; intros k l b i d B I; [lia|]. cbn [chunks]. destruct b as [|b]; cbn [nth].
  - apply nth_firstn. exact I.
  - rewrite IH by lia. rewrite nth_skipn. f_equal. nia.
Qed.

Lemma chunks_rows : forall {A} c k (l : list A), length l = (c * k)%nat -> Forall (fun r => length r = k) (chunks c k l).
Proof.
  intros A c. induction c as [|c IH]; intros k l H; cbn; constructor.
  - rewrite firstn_length. nia.
  - apply IH. rewrite skipn_length. nia.
Qed.

Lemma firstn_skipn_concat : forall {A} k (l : list (list A)) i, Forall (fun r => length r = k) l -> (i < length l)%nat ->
  firstn k (skipn (i * k) (concat l)) = nth i l [].
Proof.
  intros A k l i H. revert i. induction H as [|r l E F IH]; intros i I; [cbn in I; lia|]. cbn [concat]. destruct i as [|i].
  - cbn [Nat.mul skipn nth]. rewrite firstn_app, E, Nat.sub_diag, firstn_O, app_nil_r, firstn_all2 by lia. reflexivity.
  - cbn [nth]. rewrite skipn_app, E. replace (S i * k - k)%nat with (i * k)%nat by nia. rewrite skipn_all2 by (rewrite E; nia). cbn [app]. apply IH. cbn in I; lia.
Qed.

(** ** refine_boxes *)

Definition refined (q : nat) (xmin xmax : arr R) : list (list box) := map (fun p => split_iter q [p]) (combine (a_rows xmin) (a_rows xmax)).

Lemma refine_boxes_eq : forall n xmin xmax N, a_tail xmin = [n] -> exists q,
  refine_boxes xmin xmax N = Ok (mk_arr [2 ^ q; n]%nat (map (fun l => concat (map fst l)) (refined q xmin xmax)), mk_arr [2 ^ q; n]%nat (map (fun l => concat (map snd l)) (refined q xmin xmax)))
  /\ (q = 0%nat \/ 2 ^ q <= Z.to_nat N)%nat /\ (Z.to_nat N < 2 * 2 ^ q)%nat.
Proof.
  intros n xmin xmax N T. unfold refine_boxes. rewrite T. cbn [length Nat.ltb Nat.leb].
  destruct (refine_loop_spec (Z.to_nat N) 1 (Z.to_nat N) (map (fun p => [p]) (combine (a_rows xmin) (a_rows xmax))) ltac:(lia) ltac:(lia)) as (q & E & A & B).
  exists q. rewrite Nat.mul_1_r in *. rewrite map_map in E. rewrite E. split; [reflexivity|]. split; assumption.
Qed.

Lemma refined_covers : forall n q xmin xmax b, boxes_ok n xmin xmax -> consistent n xmin xmax -> (b < alen xmin)%nat ->
  covers n (nth b (refined q xmin xmax) []) (the_box xmin xmax b) /\ length (nth b (refined q xmin xmax) []) = (2 ^ q)%nat.
Proof.
  intros n q xmin xmax b BO C B. destruct (combine_ne _ _ _ BO) as [Ls _].
  assert (E : nth b (refined q xmin xmax) [] = split_iter q [the_box xmin xmax b]).
  { unfold refined. rewrite (nth_indep _ [] (split_iter q [(([] : list R), ([] : list R))])) by (rewrite map_length, Ls; exact B).
    rewrite (map_nth (fun p => split_iter q [p])). rewrite <- (the_box_combine n xmin xmax b BO). reflexivity. }
  rewrite E. split.
  - apply split_iter_covers; [apply BO|]. apply covers_one. pose proof (samples_ok n xmin xmax BO C) as F. rewrite Forall_forall in F.
    rewrite <- (the_box_combine n xmin xmax b BO). apply F, nth_In. rewrite Ls. exact B.
  - rewrite split_iter_len. cbn [length]. lia.
Qed.

Lemma sub_lens : forall n l p, covers n l p -> Forall (fun r => length r = n) (map fst l) /\ Forall (fun r => length r = n) (map snd l).
Proof.
  intros n l p [S _]. rewrite Forall_forall in S. split; apply Forall_forall; intros r I; apply in_map_iff in I; destruct I as [q [<- I]]; apply S in I; apply I.
Qed.

Theorem refine_boxes_sound : forall n xmin xmax N, boxes_ok n xmin xmax -> consistent n xmin xmax -> a_tail xmin = [n] ->
  exists q a c, refine_boxes xmin xmax N = Ok (a, c) /\ a_tail a = [2 ^ q; n]%nat /\ a_tail c = [2 ^ q; n]%nat /\ alen a = alen xmin /\ alen c = alen xmin /\
    (q = 0%nat \/ (2 ^ q <= Z.to_nat N)%nat) /\ (Z.to_nat N < 2 * 2 ^ q)%nat /\
    forall b, (b < alen xmin)%nat ->
      (forall i, (i < 2 ^ q)%nat -> sub_of n (sub_box n a c b i) (the_box xmin xmax b)) /\
      (forall z, in_sample n (the_box xmin xmax b) z -> exists i, (i < 2 ^ q)%nat /\ in_sample n (sub_box n a c b i) z).
Proof.
  intros n xmin xmax N BO C T. destruct (refine_boxes_eq n xmin xmax N T) as (q & E & A & B).
  destruct (combine_ne _ _ _ BO) as [Ls _].
  exists q. eexists _, _. split; [exact E|]. cbn [a_tail]. split; [reflexivity|]. split; [reflexivity|].
  unfold alen at 1 3; cbn [a_rows]. unfold refined at 1 2. rewrite !map_length, Ls. split; [reflexivity|]. split; [reflexivity|]. split; [exact A|]. split; [exact B|].
  intros b Hb. destruct (refined_covers n q xmin xmax b BO C Hb) as [CV L]. destruct (sub_lens _ _ _ CV) as [F1 F2].
  assert (SB : forall i, (i < 2 ^ q)%nat -> sub_box n (mk_arr [2 ^ q; n]%nat (map (fun l => concat (map fst l)) (refined q xmin xmax))) (mk_arr [2 ^ q; n]%nat (map (fun l => concat (map snd l)) (refined q xmin xmax))) b i = nth i (nth b (refined q xmin xmax) []) ([], [])).
  { intros i I. unfold sub_box. cbn [a_rows].
    rewrite (map_nth (fun l : list box => concat (map fst l)) (refined q xmin xmax) [] b : nth b (map (fun l : list box => concat (map fst l)) (refined q xmin xmax)) [] = _).
    rewrite (map_nth (fun l : list box => concat (map snd l)) (refined q xmin xmax) [] b : nth b (map (fun l : list box => concat (map snd l)) (refined q xmin xmax)) [] = _).
    rewrite !firstn_skipn_concat by (try assumption; rewrite map_length, L; exact I).
    rewrite nth_fst, nth_snd. symmetry. apply surjective_pairing. }
  destruct CV as [S V]. rewrite Forall_forall in S. split.
  - intros i I. rewrite SB by exact I. apply S, nth_In. rewrite L. exact I.
  - intros z Z. destruct (V z Z) as [p [I P]]. apply In_nth with (d := ([], [])) in I. destruct I as [i [Li <-]]. rewrite L in Li.
    exists i. split; [exact Li|]. rewrite SB by exact Li. exact P.
Qed.

(** several axes: x_max is not used *)
Theorem refine_boxes_axes : forall xmin xmax N, (2 <= length (a_tail xmin))%nat -> refine_boxes xmin xmax N = refine_boxes xmin xmin N.
Proof.
  intros xmin xmax N H. unfold refine_boxes. destruct (a_tail xmin) as [|s0 [|s1 q]]; cbn in H; try lia. reflexivity.
Qed.

(** ** The sub-boxes as samples *)

Lemma concat_refined : forall q xmin xmax, map fst (concat (refined q xmin xmax)) = concat (map (map fst) (refined q xmin xmax)) /\ map snd (concat (refined q xmin xmax)) = concat (map (map snd) (refined q xmin xmax)).
Proof. intros. rewrite !concat_map. split; reflexivity. Qed.

Lemma map_concat_concat : forall {A B} (g : A -> list B) (ls : list (list A)), concat (map (fun l => concat (map g l)) ls) = concat (map g (concat ls)).
Proof. intros A B g ls. induction ls as [|l ls IH]; cbn; [reflexivity|]. rewrite map_app, concat_app, IH. reflexivity. Qed.

Lemma refined_all : forall n q xmin xmax, boxes_ok n xmin xmax -> consistent n xmin xmax ->
  Forall (fun l => length l = (2 ^ q)%nat) (refined q xmin xmax) /\ Forall (sample_ok n) (concat (refined q xmin xmax)) /\ length (refined q xmin xmax) = alen xmin.
Proof.
  intros n q xmin xmax BO C. destruct (combine_ne _ _ _ BO) as [Ls _].
  assert (LR : length (refined q xmin xmax) = alen xmin) by (unfold refined; rewrite map_length, Ls; reflexivity).
  split; [|split; [|exact LR]].
  - apply Forall_forall. intros l I. apply In_nth with (d := []) in I. destruct I as [b [Hb <-]]. rewrite LR in Hb. apply (refined_covers n q xmin xmax b BO C Hb).
  - apply Forall_forall. intros p I. apply in_concat in I. destruct I as [l [I J]]. apply In_nth with (d := []) in I. destruct I as [b [Hb <-]]. rewrite LR in Hb.
    destruct (refined_covers n q xmin xmax b BO C Hb) as [[S _] _]. rewrite Forall_forall in S. eapply sub_of_sample. apply S. exact J.
Qed.

Lemma sub_boxes_eq : forall n xmin xmax ns, boxes_ok n xmin xmax -> consistent n xmin xmax -> a_tail xmin = [n] -> (1 < ns)%Z -> exists q, (1 <= q)%nat /\
  sub_boxes xmin xmax ns = Ok ((2 ^ q)%nat, mk_arr [n] (map fst (concat (refined q xmin xmax))), mk_arr [n] (map snd (concat (refined q xmin xmax)))).
Proof.
  intros n xmin xmax ns BO C T NS. unfold sub_boxes. destruct (1 <? ns)%Z eqn:E; [|apply Z.ltb_ge in E; lia].
  destruct (refine_boxes_eq n xmin xmax ns T) as (q & RB & A & B). rewrite RB. cbn [bind a_tail].
  destruct (refined_all n q xmin xmax BO C) as (F1 & F2 & _). rewrite Forall_forall in F2.
  assert (N0 : (0 < n)%nat) by apply BO.
  assert (K : forall g : box -> list R, (forall p, sample_ok n p -> length (g p) = n) ->
    reshape (mk_arr [2 ^ q; n]%nat (map (fun l => concat (map g l)) (refined q xmin xmax))) [n] = Ok (mk_arr [n] (map g (concat (refined q xmin xmax))))).
  { intros g G. assert (FL : Forall (fun r => length r = n) (map g (concat (refined q xmin xmax)))).
    { apply Forall_forall. intros r I. apply in_map_iff in I. destruct I as [p [<- I]]. apply G, F2, I. }
    etransitivity; [|exact (reshape_same (mk_arr [n] (map g (concat (refined q xmin xmax)))) [n] n ltac:(cbn; lia) N0 FL)].
    unfold reshape, flatten. cbn [a_rows]. rewrite map_concat_concat. reflexivity. }
  rewrite (K fst) by (intros p X; apply X). cbn [bind]. rewrite (K snd) by (intros p X; apply X). cbn [bind].
  exists q. split; [|reflexivity]. destruct q; [cbn in B; lia|lia].
Qed.

Lemma row_max_ge : forall l x, In x l -> x <= row_max l.
Proof.
  intros [|a l] x H; [contradiction|]. cbn [row_max]. unfold max_list.
  assert (G : forall l a x, (x = a \/ In x l) -> x <= fold_left Rmax l a).
  { clear. induction l as [|b l IH]; intros a x [-> | H]; cbn.
    - lra.
    - contradiction.
    - eapply Rle_trans; [apply Rmax_l|]. apply IH. left. reflexivity.
    - destruct H as [-> | H]; [eapply Rle_trans; [apply Rmax_r|]; apply IH; left; reflexivity|]. apply IH. right. exact H. }
  apply G. destruct H as [-> | H]; [left; reflexivity|right; exact H].
Qed.
Lemma row_max_in : forall l, l <> [] -> In (row_max l) l.
Proof.
  intros [|a l] H; [congruence|]. cbn [row_max]. unfold max_list. clear H. revert a. induction l as [|b l IH]; intro a; cbn [fold_left].
  - left; reflexivity.
  - destruct (IH (Rmax a b)) as [E|E].
    + unfold Rmax in E |- *. destruct (Rle_dec a b); [right; left; exact E|left; exact E].
    + right; right; exact E.
Qed.
Lemma row_min_le : forall l x, In x l -> row_min l <= x.
Proof.
  intros [|a l] x H; [contradiction|]. cbn [row_min]. unfold min_list.
  assert (G : forall l a x, (x = a \/ In x l) -> fold_left Rmin l a <= x).
  { clear. induction l as [|b l IH]; intros a x [-> | H]; cbn.
    - lra.
    - contradiction.
    - eapply Rle_trans; [|apply Rmin_l]. apply IH. left. reflexivity.
    - destruct H as [-> | H]; [eapply Rle_trans; [|apply Rmin_r]; apply IH; left; reflexivity|]. apply IH. right. exact H. }
  apply G. destruct H as [-> | H]; [left; reflexivity|right; exact H].
Qed.
Lemma row_min_in : forall l, l <> [] -> In (row_min l) l.
Proof.
  intros [|a l] H; [congruence|]. cbn [row_min]. unfold min_list. clear H. revert a. induction l as [|b l IH]; intro a; cbn [fold_left].
  - left; reflexivity.
  - destruct (IH (Rmin a b)) as [E|E].
    + unfold Rmin in E |- *. destruct (Rle_dec a b); [left; exact E|right; left; exact E].
    + right; right; exact E.
Qed.

Lemma reduce_split_eq : forall red B s (vals : list (list R)), (0 < B)%nat -> (1 < s)%nat -> length vals = (B * s)%nat -> Forall (fun r => length r = 1%nat) vals ->
  forall t, reduce_split red s (mk_arr t vals) = Ok (mk_arr [] (map (fun r => [red r]) (chunks B s (concat vals)))).
Proof.
  intros red B s vs B0 S L F t. unfold reduce_split. destruct (1 <? s)%nat eqn:E; [|apply Nat.ltb_ge in E; lia].
  unfold reshape, flatten. cbn [a_rows prodn]. rewrite Nat.mul_1_r, (concat_len 1), L, Nat.mul_1_r by exact F.
  destruct (s =? 0)%nat eqn:Z; [apply Nat.eqb_eq in Z; lia|]. rewrite Nat.mod_mul, Nat.eqb_refl, Nat.div_mul by lia. cbn [bind a_rows]. reflexivity.
Qed.

(** C49, sub-boxes and one output *)
Theorem range_box_sub_sound : forall a f xmin xmax bs ns, let m := the_model a in
  is_box (wm_domain m) = true -> wm_bb m = false -> boxes_ok (wm_n m) xmin xmax -> consistent (wm_n m) xmin xmax -> a_tail xmin = [wm_n m] -> (1 < ns)%Z -> wm_k m = 1%nat ->
  (forall b p, (b < alen xmin)%nat -> sub_of (wm_n m) p (the_box xmin xmax b) -> sound_on m f p) ->
  exists u l, get_range_box a xmin xmax bs ns = Ok (u, l) /\ alen u = alen xmin /\ alen l = alen xmin /\
    forall b z, (b < alen xmin)%nat -> in_sample (wm_n m) (the_box xmin xmax b) z -> cell l b 0 <= f z 0%nat <= cell u b 0.
Proof.
  intros a f xmin xmax bs ns m D BB BO C T NS K SO. unfold get_range_box.
  rewrite (consistent_dec (wm_n m)) by assumption. cbn [bind]. rewrite box_model_ok by exact D. cbn [bind]. fold m.
  destruct (sub_boxes_eq (wm_n m) xmin xmax ns BO C T NS) as (q & Q & E). rewrite E. cbn [bind].
  destruct (refined_all (wm_n m) q xmin xmax BO C) as (F1 & F2 & LR).
  set (s := concat (refined q xmin xmax)) in *.
  assert (B0 : (0 < alen xmin)%nat) by apply BO.
  assert (P2 : (2 <= 2 ^ q)%nat) by (destruct q; [lia|cbn [Nat.pow]; pose proof (Nat.pow_nonzero 2 q ltac:(lia)); lia]).
  assert (Ls : length s = (alen xmin * 2 ^ q)%nat) by (unfold s; rewrite (concat_len (2 ^ q)) by exact F1; rewrite LR; reflexivity).
  assert (Ns : s <> []) by (intro X; rewrite X in Ls; cbn in Ls; nia).
  destruct (samples_boxes_ok (wm_n m) [wm_n m] s ltac:(apply BO) Ns F2) as [BO' C'].
  rewrite to_samples_ok by (try assumption; rewrite BB; reflexivity). cbn [bind a_rows]. rewrite combine_map_fst_snd.
  assert (SS : Forall (sound_on m f) s).
  { apply Forall_forall. intros p I. unfold s in I. apply in_concat in I. destruct I as [l [I J]]. apply In_nth with (d := []) in I. destruct I as [b [Hb <-]]. rewrite LR in Hb.
    destruct (refined_covers (wm_n m) q xmin xmax b BO C Hb) as [[S _] _]. rewrite Forall_forall in S. exact (SO b p Hb (S p J)). }
  destruct (range_eval_sound m f s SS) as (us & ls & EV & L1 & L2 & X).
  assert (RR : (if (0 <? bs)%Z then rs <- mapR (range_call m) (slices (Z.to_nat bs) s) ; u <- np_concat (map fst rs) ; l <- np_concat (map snd rs) ; Ok (u, l) else range_eval m s)
    = Ok (mk_arr (wm_out m) us, mk_arr (wm_out m) ls)).
  { destruct (0 <? bs)%Z eqn:Eb; [|exact EV]. apply Z.ltb_lt in Eb. rewrite range_batch; try assumption; [apply BO|lia]. }
  cbn [bind] in RR |- *. rewrite RR. cbn [bind fst snd].
  assert (FU : Forall (fun r => length r = 1%nat) us).
  { apply Forall_forall. intros r I. apply In_nth with (d := []) in I. destruct I as [i [Hi <-]]. rewrite L1 in Hi. specialize (X i Hi). rewrite K in X. apply X. }
  assert (FL : Forall (fun r => length r = 1%nat) ls).
  { apply Forall_forall. intros r I. apply In_nth with (d := []) in I. destruct I as [i [Hi <-]]. rewrite L2 in Hi. specialize (X i Hi). rewrite K in X. apply X. }
  rewrite (reduce_split_eq row_max (alen xmin) (2 ^ q) us) by (try assumption; lia). cbn [bind].
  rewrite (reduce_split_eq row_min (alen xmin) (2 ^ q) ls) by (try assumption; lia). cbn [bind].
  eexists _, _. split; [reflexivity|]. do 2 (split; [unfold alen at 1; cbn [a_rows]; rewrite map_length, chunks_length; reflexivity|]).
  intros b z Hb Z. unfold cell; cbn [a_rows].
  destruct (refined_covers (wm_n m) q xmin xmax b BO C Hb) as [[_ CV] Lb]. destruct (CV z Z) as [p [I P]].
  apply In_nth with (d := ([], [])) in I. destruct I as [i [Li Ep]]. rewrite Lb in Li.
  assert (Hi : (b * 2 ^ q + i < length s)%nat) by (rewrite Ls; nia).
  assert (Es : nth (b * 2 ^ q + i) s ([], []) = p).
  { unfold s. rewrite (concat_nth (2 ^ q)) by (try assumption; rewrite LR; exact Hb). exact Ep. }
  specialize (X _ Hi). rewrite Es, K in X. destruct X as (_ & _ & X). specialize (X z 0%nat P ltac:(lia)).
  assert (G : forall (red : list R -> R) (vs : list (list R)), nth 0 (nth b (map (fun r => [red r]) (chunks (alen xmin) (2 ^ q) (concat vs))) []) 0 = red (nth b (chunks (alen xmin) (2 ^ q) (concat vs)) [])).
  { intros red vs. rewrite (nth_indep _ [] [red []]) by (rewrite map_length, chunks_length; exact Hb). rewrite (map_nth (fun r => [red r])). reflexivity. }
  rewrite !G.
  assert (V : forall vs : list (list R), length vs = length s -> Forall (fun r => length r = 1%nat) vs -> In (nth 0 (nth (b * 2 ^ q + i) vs []) 0) (nth b (chunks (alen xmin) (2 ^ q) (concat vs)) [])).
  { intros vs L F. rewrite <- (concat_nth 1 vs (b * 2 ^ q + i) 0 0) by (try assumption; try lia; rewrite L; exact Hi).
    rewrite Nat.mul_1_r, Nat.add_0_r. rewrite <- (chunks_nth (alen xmin) (2 ^ q)) by assumption. apply nth_In.
    pose proof (chunks_rows (alen xmin) (2 ^ q) (concat vs)) as CR. rewrite (concat_len 1), L, Ls, Nat.mul_1_r in CR by exact F. specialize (CR eq_refl). rewrite Forall_forall in CR.
    rewrite CR; [exact Li|]. apply nth_In. rewrite chunks_length. exact Hb. }
  split.
  - eapply Rle_trans; [apply row_min_le, V; assumption|apply X].
  - eapply Rle_trans; [apply X|apply row_max_ge, V; assumption].
Qed.
