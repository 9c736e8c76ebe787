(** Proofs about the user functions: arrays, batches, ranges (C49). *)
From Coq Require Import Reals Lra Lia List Arith Bool ZArith.
From Verif Require Import RLib Spec M_Core M_State M_Wrapper Spec_Wrapper P_Core.
Import ListNotations.
Local Open Scope R_scope.

(** ** Arrays *)

Lemma concat_len : forall {A} k (l : list (list A)), Forall (fun r => length r = k) l -> length (concat l) = (length l * k)%nat.
Proof. intros A k l H. induction H as [|r l E F IH]; cbn; [reflexivity|]. rewrite app_length, IH, E. reflexivity. Qed.

Lemma chunks_concat : forall {A} k (l : list (list A)), Forall (fun r => length r = k) l -> chunks (length l) k (concat l) = l.
Proof.
  intros A k l H. induction H as [|r l E F IH]; cbn; [reflexivity|].
  rewrite firstn_app, skipn_app, E, Nat.sub_diag, firstn_O, skipn_O, app_nil_r, firstn_all2, skipn_all2 by lia.
  cbn. rewrite IH. reflexivity.
Qed.

Lemma chunks_length : forall {A} c k (l : list A), length (chunks c k l) = c.
Proof. intros A c; induction c as [|c IH]; intros; cbn; [reflexivity|rewrite IH; reflexivity]. Qed.

Lemma reshape_same : forall {A} (a : arr A) t k, prodn t = k -> (0 < k)%nat -> rows_of k a -> reshape a t = Ok (mk_arr t (a_rows a)).
Proof.
  intros A a t k <- K H. unfold reshape, flatten.
  rewrite (concat_len (prodn t)) by exact H.
  destruct (prodn t =? 0)%nat eqn:E; [apply Nat.eqb_eq in E; lia|].
  rewrite Nat.mod_mul, Nat.eqb_refl, Nat.div_mul by lia. rewrite chunks_concat by exact H. reflexivity.
Qed.

Lemma reshape_first_same : forall {A} (a : arr A) k, (0 < alen a)%nat -> rows_of k a -> reshape_first a (alen a) = Ok (mk_arr [k] (a_rows a)).
Proof.
  intros A a k K H. unfold reshape_first, flatten.
  rewrite (concat_len k) by exact H. change (length (a_rows a)) with (alen a).
  destruct (alen a =? 0)%nat eqn:E; [apply Nat.eqb_eq in E; lia|].
  rewrite (Nat.mul_comm (alen a) k), Nat.mod_mul, Nat.eqb_refl, Nat.div_mul by lia. unfold alen. rewrite chunks_concat by exact H. reflexivity.
Qed.

Lemma nat_list_eqb_refl : forall l, nat_list_eqb l l = true.
Proof. induction l as [|a l IH]; cbn; [reflexivity|]. rewrite Nat.eqb_refl; exact IH. Qed.

Lemma np_concat_same : forall {A} t (l : list (arr A)), l <> [] -> Forall (fun a => a_tail a = t) l -> np_concat l = Ok (mk_arr t (concat (map a_rows l))).
Proof.
  intros A t [|a l] N F; [congruence|]. unfold np_concat.
  assert (E : a_tail a = t) by (inversion F; assumption).
  assert (G : forallb (fun b => nat_list_eqb (a_tail b) (a_tail a)) (a :: l) = true).
  { apply forallb_forall. intros b H. rewrite Forall_forall in F. rewrite (F _ H), E. apply nat_list_eqb_refl. }
  rewrite G, E. reflexivity.
Qed.

(** ** Slices *)

Lemma slices_seq : forall {A} (b c : nat) (l : list A), (0 < b)%nat -> (length l <= b * c)%nat ->
  concat (map (fun i => firstn b (skipn (b * i) l)) (seq 0 c)) = l.
Proof.
  intros A b c. induction c as [|c IH]; intros l B L.
  - destruct l; [reflexivity|]. cbn in L. lia.
  - cbn [seq map concat]. rewrite Nat.mul_0_r, skipn_O.
    rewrite <- seq_shift, map_map.
    rewrite (map_ext (fun i => firstn b (skipn (b * S i) l)) (fun i => firstn b (skipn (b * i) (skipn b l)))).
    + rewrite IH; [apply firstn_skipn|exact B|]. rewrite skipn_length. nia.
    + intro i. f_equal. replace (b * S i)%nat with (b * i + b)%nat by nia.
      clear. revert l. induction b as [|b IHb]; intros l; [rewrite Nat.add_0_r, skipn_O; reflexivity|].
      generalize (S b * i)%nat as q. intro q. revert l. generalize (S b) as k. clear.
      intro k. induction k as [|k IHk]; intros l; [rewrite Nat.add_0_r, skipn_O; reflexivity|].
      destruct l; [rewrite !skipn_nil; reflexivity|]. rewrite Nat.add_succ_r. cbn [skipn]. apply IHk.
Qed.

Definition nslices (b len : nat) : nat := (len / b + (if (0 <? len mod b)%nat then 1 else 0))%nat.

Lemma nslices_bound : forall b len, (0 < b)%nat -> (len <= b * nslices b len)%nat.
Proof.
  intros b len B. unfold nslices. pose proof (Nat.div_mod len b ltac:(lia)) as E.
  destruct (0 <? len mod b)%nat eqn:M.
  - pose proof (Nat.mod_upper_bound len b ltac:(lia)). nia.
  - apply Nat.ltb_ge in M. nia.
Qed.

Lemma nslices_lt : forall b len i, (0 < b)%nat -> (i < nslices b len)%nat -> (b * i < len)%nat.
Proof.
  intros b len i B L. unfold nslices in L. pose proof (Nat.div_mod len b ltac:(lia)) as E.
  destruct (0 <? len mod b)%nat eqn:M.
  - apply Nat.ltb_lt in M. assert (i <= len / b)%nat by lia. nia.
  - assert (i < len / b)%nat by lia. nia.
Qed.

Lemma slices_concat : forall {A} b (l : list A), (0 < b)%nat -> concat (slices b l) = l.
Proof. intros A b l B. apply slices_seq; [exact B|]. apply (nslices_bound b (length l) B). Qed.

Lemma slices_length : forall {A} b (l : list A), length (slices b l) = nslices b (length l).
Proof. intros. unfold slices. rewrite map_length, seq_length. reflexivity. Qed.

Lemma slices_nonempty : forall {A} b (l s : list A), (0 < b)%nat -> In s (slices b l) -> s <> [].
Proof.
  intros A b l s B H. unfold slices in H. apply in_map_iff in H. destruct H as [i [E I]]. apply in_seq in I.
  pose proof (nslices_lt b (length l) i B ltac:(unfold nslices; lia)) as L. subst s. intro C.
  assert (Z : length (firstn b (skipn (b * i) l)) = 0%nat) by (rewrite C; reflexivity).
  rewrite firstn_length, skipn_length in Z. lia.
Qed.

Lemma slices_ne : forall {A} b (l : list A), (0 < b)%nat -> l <> [] -> slices b l <> [].
Proof. intros A b l B N C. apply N. rewrite <- (slices_concat b l B), C. reflexivity. Qed.

Lemma slices_in : forall {A} b (l s : list A), (0 < b)%nat -> In s (slices b l) -> incl s l.
Proof. intros A b l s B H x I. rewrite <- (slices_concat b l B). apply in_concat. exists s; split; assumption. Qed.

(** ** mapR *)

Lemma mapR_app : forall {A B} (f : A -> result B) l1 l2, mapR f (l1 ++ l2) = (a <- mapR f l1 ; b <- mapR f l2 ; Ok (a ++ b)).
Proof.
  intros A B f l1 l2. induction l1 as [|x l1 IH]; cbn.
  - destruct (mapR f l2); reflexivity.
  - rewrite IH. destruct (f x); cbn; [|reflexivity]. destruct (mapR f l1); cbn; [|reflexivity]. destruct (mapR f l2); reflexivity.
Qed.

Lemma mapR_concat : forall {A B} (f : A -> result B) ls, mapR f (concat ls) = (r <- mapR (mapR f) ls ; Ok (concat r)).
Proof.
  intros A B f ls. induction ls as [|l ls IH]; cbn; [reflexivity|].
  rewrite mapR_app, IH. destruct (mapR f l); cbn; [|reflexivity]. destruct (mapR (mapR f) ls); reflexivity.
Qed.

Lemma mapR_ext_in : forall {A B} (f g : A -> result B) l, (forall a, In a l -> f a = g a) -> mapR f l = mapR g l.
Proof.
  intros A B f g l H. induction l as [|a l IH]; cbn; [reflexivity|].
  rewrite (H a) by (left; reflexivity). rewrite IH by (intros; apply H; right; assumption). reflexivity.
Qed.

Lemma mapR_map : forall {A B C} (g : A -> B) (f : B -> result C) l, mapR f (map g l) = mapR (fun a => f (g a)) l.
Proof. intros. induction l as [|a l IH]; cbn; [reflexivity|]. rewrite IH. reflexivity. Qed.

Lemma mapR_bind_ok : forall {A B C} (f : A -> result B) (g : B -> C) l,
  mapR (fun a => b <- f a ; Ok (g b)) l = (r <- mapR f l ; Ok (map g r)).
Proof.
  intros. induction l as [|a l IH]; cbn; [reflexivity|].
  rewrite IH. destruct (f a); cbn; [|reflexivity]. destruct (mapR f l); reflexivity.
Qed.

Lemma mapR_ok : forall {A B} (f : A -> result B) (l : list A), (forall a, In a l -> exists b, f a = Ok b) ->
  exists r, mapR f l = Ok r /\ length r = length l.
Proof.
  intros A B f l H. induction l as [|a l IH]; cbn; [exists []; split; reflexivity|].
  destruct (H a) as [b E]; [left; reflexivity|]. destruct IH as [r [E2 L]]; [intros; apply H; right; assumption|].
  exists (b :: r). rewrite E, E2. cbn. rewrite L. split; reflexivity.
Qed.

Lemma mapR_nth : forall {A B} (f : A -> result B) l r, mapR f l = Ok r -> length r = length l /\
  forall i da db, (i < length l)%nat -> f (nth i l da) = Ok (nth i r db).
Proof.
  intros A B f l. induction l as [|a l IH]; cbn; intros r H.
  - inversion H; subst. split; [reflexivity|]. intros; lia.
  - destruct (f a) as [b|] eqn:E; cbn in H; [|discriminate].
    destruct (mapR f l) as [q|] eqn:E2; cbn in H; [|discriminate]. inversion H; subst.
    destruct (IH q eq_refl) as [L N]. split; [cbn; lia|]. intros [|i] da db I; cbn; [exact E|]. apply N; lia.
Qed.

(** ** The consistency check *)

Definition pair_ok (p : box) : Prop := forall i, (i < length (fst p))%nat -> lvec (fst p) i <= lvec (snd p) i.

Lemma flat_cell : forall n (a : list (list R)) q, Forall (fun r => length r = n) a -> (0 < n)%nat ->
  nth q (concat a) 0 = nth (q mod n) (nth (q / n) a []) 0.
Proof.
  intros n a q H N. revert q. induction H as [|r l E F IH]; intros q; cbn.
  - transitivity 0; [destruct q; reflexivity|]. destruct (q / n)%nat; destruct (q mod n)%nat; reflexivity.
  - destruct (lt_dec q n) as [L|L].
    + rewrite app_nth1 by lia. rewrite Nat.div_small, Nat.mod_small by lia. reflexivity.
    + rewrite app_nth2 by lia. rewrite E, IH.
      replace q with ((q - n) + 1 * n)%nat at 3 4 by lia. rewrite Nat.div_add, Nat.mod_add by lia.
      rewrite Nat.add_comm. reflexivity.
Qed.

Lemma combine_nth_in : forall {A B} (l : list A) (l' : list B) i a b, length l = length l' -> (i < length l)%nat -> In (nth i l a, nth i l' b) (combine l l').
Proof. intros A B l l' i a b E L. rewrite <- combine_nth by exact E. apply nth_In. rewrite combine_length. lia. Qed.

Lemma in_combine_nth : forall {A B} (l : list A) (l' : list B) p a b, length l = length l' -> In p (combine l l') -> exists i, (i < length l)%nat /\ p = (nth i l a, nth i l' b).
Proof.
  intros A B l l' p a b E H. apply In_nth with (d := (a, b)) in H. destruct H as [i [L N]]. rewrite combine_length in L.
  exists i. split; [lia|]. rewrite <- N. apply combine_nth. exact E.
Qed.

Lemma lens_same : forall n (l l' : list (list R)), Forall (fun r => length r = n) l -> Forall (fun r => length r = n) l' -> length l = length l' ->
  nat_list_eqb (map (@length R) l) (map (@length R) l') = true.
Proof.
  intros n l l' H. revert l'. induction H as [|r l E F IH]; intros [|r' l'] H' L; cbn in *; try reflexivity; try discriminate L.
  inversion H' as [|x y X1 X2]; subst. rewrite X1, Nat.eqb_refl. apply IH; [assumption|lia].
Qed.

Lemma check_box_cases : forall n xmin xmax, boxes_ok n xmin xmax ->
  (consistent n xmin xmax /\ check_box xmin xmax = Ok tt) \/ (~ consistent n xmin xmax /\ check_box xmin xmax = Err UserWarning).
Proof.
  intros n xmin xmax (N & H1 & H2 & L & B). unfold check_box.
  rewrite (lens_same n) by assumption. cbn [negb].
  assert (LF : length (flatten xmin) = (alen xmin * n)%nat) by (apply concat_len; exact H1).
  assert (LF' : length (flatten xmax) = (alen xmin * n)%nat) by (rewrite L; apply concat_len; exact H2).
  destruct (length (flatten xmin) =? 0)%nat eqn:Z; [apply Nat.eqb_eq in Z; nia|].
  destruct (existsb _ _) eqn:X.
  - right. split; [|reflexivity]. intro C. apply existsb_exists in X. destruct X as [p [I D]].
    destruct (Rlt_dec _ _) as [V|]; [|discriminate].
    destruct (in_combine_nth (flatten xmin) (flatten xmax) p 0 0 ltac:(lia) I) as [i [Li E]]. subst p. cbn in V.
    unfold flatten in V. rewrite (flat_cell n (a_rows xmin)), (flat_cell n (a_rows xmax)) in V by assumption.
    assert (i / n < alen xmin)%nat by (apply Nat.div_lt_upper_bound; lia).
    assert (i mod n < n)%nat by (apply Nat.mod_upper_bound; lia).
    specialize (C (i / n)%nat (i mod n)%nat ltac:(assumption) ltac:(assumption)). unfold cell in C. lra.
  - left. split; [|reflexivity]. intros b i Hb Hi.
    destruct (Rle_dec (cell xmin b i) (cell xmax b i)) as [Y|Y]; [exact Y|exfalso].
    assert (T : existsb (fun p => if Rlt_dec (snd p - fst p) 0 then true else false) (combine (flatten xmin) (flatten xmax)) = true).
    { apply existsb_exists. exists (nth (b * n + i) (flatten xmin) 0, nth (b * n + i) (flatten xmax) 0). split.
      - apply combine_nth_in; [lia|]. rewrite LF. nia.
      - cbn. unfold flatten. rewrite (flat_cell n (a_rows xmin)), (flat_cell n (a_rows xmax)) by assumption.
        rewrite (Nat.add_comm (b * n) i), Nat.div_add, Nat.mod_add, Nat.div_small, Nat.mod_small by lia. cbn [Nat.add].
        unfold cell in Y. destruct (Rlt_dec _ _); [reflexivity|lra]. }
    congruence.
Qed.

Lemma consistent_dec : forall n xmin xmax, boxes_ok n xmin xmax -> consistent n xmin xmax -> check_box xmin xmax = Ok tt.
Proof. intros n xmin xmax H C. destruct (check_box_cases n xmin xmax H) as [[_ E]|[N _]]; [exact E|contradiction]. Qed.

(** boxes as samples *)
Lemma to_samples_ok : forall m b xmin xmax, (wm_bb m && negb b)%bool = false -> boxes_ok (wm_n m) xmin xmax ->
  to_samples m b xmin xmax = Ok (combine (a_rows xmin) (a_rows xmax)).
Proof.
  intros m b xmin xmax BB (N & H1 & H2 & L & _). unfold to_samples. rewrite BB.
  rewrite (reshape_same xmin [1%nat; wm_n m] (wm_n m)) by (try assumption; cbn; lia). cbn [bind].
  rewrite (reshape_same xmax [1%nat; wm_n m] (wm_n m)) by (try assumption; cbn; lia). reflexivity.
Qed.

(** a list of samples of a consistent array *)
Definition sample_ok (n : nat) (p : box) : Prop := length (fst p) = n /\ length (snd p) = n /\ forall i, (i < n)%nat -> lvec (fst p) i <= lvec (snd p) i.

Lemma samples_boxes_ok : forall n t (s : list box), (0 < n)%nat -> s <> [] -> Forall (sample_ok n) s ->
  boxes_ok n (mk_arr t (map fst s)) (mk_arr t (map snd s)) /\ consistent n (mk_arr t (map fst s)) (mk_arr t (map snd s)).
Proof.
  intros n t s N E F. rewrite Forall_forall in F. split.
  - split; [exact N|]. unfold rows_of, alen; cbn. rewrite !map_length. split; [|split; [|split]].
    + apply Forall_forall. intros r H. apply in_map_iff in H. destruct H as [p [<- I]]. apply F in I. apply I.
    + apply Forall_forall. intros r H. apply in_map_iff in H. destruct H as [p [<- I]]. apply F in I. apply I.
    + reflexivity.
    + destruct s; [congruence|cbn; lia].
  - intros b i Hb Hi. unfold alen in Hb; cbn in Hb. rewrite map_length in Hb. unfold cell; cbn.
    change (@nil R) with (fst (@nil R, @nil R)) at 1. rewrite map_nth.
    change (@nil R) with (snd (@nil R, @nil R)) at 3. rewrite map_nth.
    destruct (F (nth b s ([], [])) (nth_In _ _ Hb)) as (_ & _ & H). exact (H i Hi).
Qed.

Lemma samples_ok : forall n xmin xmax, boxes_ok n xmin xmax -> consistent n xmin xmax -> Forall (sample_ok n) (combine (a_rows xmin) (a_rows xmax)).
Proof.
  intros n xmin xmax (N & H1 & H2 & L & _) C. apply Forall_forall. intros p H.
  destruct (in_combine_nth (a_rows xmin) (a_rows xmax) p [] [] L H) as [b [Hb E]]. subst p.
  unfold rows_of in *. rewrite Forall_forall in H1, H2. unfold sample_ok; cbn. split; [|split].
  - apply H1, nth_In, Hb.
  - apply H2, nth_In. unfold alen in L; lia.
  - intros i Hi. apply (C b i Hb Hi).
Qed.

Lemma combine_map_fst_snd : forall {A B} (s : list (A * B)), combine (map fst s) (map snd s) = s.
Proof. intros A B s; induction s as [|[a b] s IH]; cbn; [reflexivity|rewrite IH; reflexivity]. Qed.

Lemma range_call_eval : forall m s, (0 < wm_n m)%nat -> is_box (wm_domain m) = true -> wm_bb m = false -> s <> [] -> Forall (sample_ok (wm_n m)) s ->
  range_call m s = range_eval m s.
Proof.
  intros m s N D BB E F. unfold range_call.
  destruct (samples_boxes_ok (wm_n m) [1%nat; wm_n m] s N E F) as [BO C].
  rewrite (consistent_dec (wm_n m)) by assumption. cbn [bind]. unfold box_model. rewrite D. cbn [bind].
  rewrite to_samples_ok by (try assumption; rewrite BB; reflexivity). cbn [bind a_rows]. rewrite combine_map_fst_snd. reflexivity.
Qed.

(** the result does not depend on the batch size *)
Lemma range_batch : forall m samples b, (0 < wm_n m)%nat -> is_box (wm_domain m) = true -> wm_bb m = false -> samples <> [] -> Forall (sample_ok (wm_n m)) samples -> (0 < b)%nat ->
  (rs <- mapR (range_call m) (slices b samples) ; u <- np_concat (map fst rs) ; l <- np_concat (map snd rs) ; Ok (u, l)) = range_eval m samples.
Proof.
  intros m samples b N D BB E F B.
  rewrite (mapR_ext_in (range_call m) (range_eval m)).
  2:{ intros s H. apply range_call_eval; try assumption; [eapply slices_nonempty; eassumption|].
      rewrite Forall_forall in *. intros p I. apply F. eapply slices_in; eassumption. }
  unfold range_eval. rewrite <- (slices_concat b samples B) at 2. rewrite mapR_concat.
  rewrite (mapR_bind_ok (mapR (range_sample m)) (fun r => (mk_arr (wm_out m) (map fst r), mk_arr (wm_out m) (map snd r)))).
  destruct (mapR (mapR (range_sample m)) (slices b samples)) as [rs|] eqn:R; cbn [bind]; [|reflexivity].
  assert (NE : rs <> []).
  { apply mapR_nth in R. destruct R as [L _]. intro X. subst rs. cbn in L. pose proof (slices_ne b samples B E) as Y.
    destruct (slices b samples); [congruence|cbn in L; lia]. }
  rewrite !map_map. cbn [fst snd].
  rewrite (np_concat_same (wm_out m)).
  2:{ destruct rs; [congruence|discriminate]. }
  2:{ apply Forall_forall. intros a H. apply in_map_iff in H. destruct H as [q [<- _]]. reflexivity. }
  cbn [bind]. rewrite (np_concat_same (wm_out m)).
  2:{ destruct rs; [congruence|discriminate]. }
  2:{ apply Forall_forall. intros a H. apply in_map_iff in H. destruct H as [q [<- _]]. reflexivity. }
  cbn [bind]. rewrite !map_map. cbn [a_rows].
  rewrite !concat_map. reflexivity.
Qed.

(** ** Bounds on a box *)

Lemma box_up_max : forall n lo hi w b, (forall i, (i < n)%nat -> lo i <= hi i) ->
  is_max (in_box n lo hi) (fun z => rsum n (fun i => w i * z i) + b) (box_up n lo hi w b).
Proof.
  intros n lo hi w b H. unfold box_up. rewrite <- rsum_plus.
  exact (get_upper_box_max n lo hi (fun i _ => w i) (fun _ => b) 0%nat H).
Qed.

Lemma box_up_sound : forall n lo hi w b z, in_box n lo hi z -> rsum n (fun i => w i * z i) + b <= box_up n lo hi w b.
Proof.
  intros n lo hi w b z H. unfold box_up. rewrite <- rsum_plus.
  exact (get_upper_box_sound n lo hi (fun i _ => w i) (fun _ => b) z 0%nat H).
Qed.

Lemma box_low_sound : forall n lo hi w b z, in_box n lo hi z -> box_low n lo hi w b <= rsum n (fun i => w i * z i) + b.
Proof.
  intros n lo hi w b z H. unfold box_low. rewrite <- rsum_plus.
  exact (get_lower_box_sound n lo hi (fun i _ => w i) (fun _ => b) z 0%nat H).
Qed.

Lemma nth_tab : forall (g : nat -> R) k j, (j < k)%nat -> nth j (map g (seq 0 k)) 0 = g j.
Proof.
  intros g k j H. rewrite (nth_indep _ 0 (g 0%nat)) by (rewrite map_length, seq_length; exact H).
  rewrite map_nth, seq_nth by exact H. reflexivity.
Qed.

Lemma nth_fst : forall (r : list (list R * list R)) b, nth b (map fst r) [] = fst (nth b r ([], [])).
Proof. intros r b. exact (map_nth fst r ([], []) b). Qed.
Lemma nth_snd : forall (r : list (list R * list R)) b, nth b (map snd r) [] = snd (nth b r ([], [])).
Proof. intros r b. exact (map_nth snd r ([], []) b). Qed.

Definition encloses (k : nat) (S : vec -> Prop) (f : vec -> vec) (u l : list R) : Prop :=
  length u = k /\ length l = k /\ forall z j, S z -> (j < k)%nat -> nth j l 0 <= f z j <= nth j u 0.

Lemma range_sample_sound : forall m f p, sound_on m f p -> exists u l, range_sample m p = Ok (u, l) /\ encloses (wm_k m) (in_sample (wm_n m) p) f u l.
Proof.
  intros m f p (mode & ts & dc & M & P & V). unfold range_sample. rewrite P. cbn [bind].
  unfold wmode in M. destruct V as [L V].
  destruct (wm_ibp m), (wm_affine m); inversion M; subst mode; clear M.
  - destruct ts as [|x [|u [|wu [|bu [|l [|wl [|bl q]]]]]]]; try contradiction. destruct V as (_ & C & A).
    eexists _, _. split; [reflexivity|]. split; [rewrite map_length, seq_length; reflexivity|]. split; [rewrite map_length, seq_length; reflexivity|].
    intros z j Z J. rewrite !nth_tab by exact J. specialize (C z j Z J). specialize (A z j Z J). unfold aff, dot in A.
    pose proof (box_up_sound (wm_n m) _ _ (fun i => wu i j) (bu 0%nat j) z Z) as U.
    pose proof (box_low_sound (wm_n m) _ _ (fun i => wl i j) (bl 0%nat j) z Z) as W. cbn beta in U, W. unfold lvec in U, W.
    split; [apply Rmax_lub|apply Rmin_glb]; lra.
  - destruct ts as [|u [|l q]]; try contradiction.
    eexists _, _. split; [reflexivity|]. split; [rewrite map_length, seq_length; reflexivity|]. split; [rewrite map_length, seq_length; reflexivity|].
    intros z j Z J. rewrite !nth_tab by exact J. exact (V z j Z J).
  - destruct ts as [|x [|wu [|bu [|wl [|bl q]]]]]; try contradiction. destruct V as (_ & A).
    eexists _, _. split; [reflexivity|]. split; [rewrite map_length, seq_length; reflexivity|]. split; [rewrite map_length, seq_length; reflexivity|].
    intros z j Z J. rewrite !nth_tab by exact J. specialize (A z j Z J). unfold aff, dot in A.
    pose proof (box_up_sound (wm_n m) _ _ (fun i => wu i j) (bu 0%nat j) z Z) as U.
    pose proof (box_low_sound (wm_n m) _ _ (fun i => wl i j) (bl 0%nat j) z Z) as W. cbn beta in U, W. unfold lvec in U, W. lra.
Qed.

Lemma range_eval_sound : forall m f s, Forall (sound_on m f) s ->
  exists us ls, range_eval m s = Ok (mk_arr (wm_out m) us, mk_arr (wm_out m) ls) /\ length us = length s /\ length ls = length s /\
    forall b, (b < length s)%nat -> encloses (wm_k m) (in_sample (wm_n m) (nth b s ([], []))) f (nth b us []) (nth b ls []).
Proof.
  intros m f s F. unfold range_eval. rewrite Forall_forall in F.
  destruct (mapR_ok (range_sample m) s) as [r [E L]].
  { intros p I. destruct (range_sample_sound m f p (F p I)) as (u & l & E & _). eauto. }
  rewrite E. cbn [bind]. exists (map fst r), (map snd r). split; [reflexivity|]. rewrite !map_length. split; [exact L|]. split; [exact L|].
  intros b B. destruct (mapR_nth _ _ _ E) as [_ N]. specialize (N b ([], []) ([], []) B).
  destruct (range_sample_sound m f (nth b s ([], [])) (F _ (nth_In _ _ B))) as (u & l & E2 & X).
  pose proof (eq_trans (eq_sym E2) N) as N'. injection N' as N'. rewrite nth_fst, nth_snd. rewrite <- N'. exact X.
Qed.

Lemma the_box_combine : forall n xmin xmax b, boxes_ok n xmin xmax -> nth b (combine (a_rows xmin) (a_rows xmax)) ([], []) = the_box xmin xmax b.
Proof. intros n xmin xmax b (_ & _ & _ & L & _). apply combine_nth. exact L. Qed.

Lemma combine_ne : forall n xmin xmax, boxes_ok n xmin xmax -> length (combine (a_rows xmin) (a_rows xmax)) = alen xmin /\ combine (a_rows xmin) (a_rows xmax) <> [].
Proof.
  intros n xmin xmax (_ & _ & _ & L & B). assert (E : length (combine (a_rows xmin) (a_rows xmax)) = alen xmin) by (rewrite combine_length; unfold alen in *; lia).
  split; [exact E|]. intro X. rewrite X in E. cbn in E. lia.
Qed.

Lemma box_model_ok : forall a, is_box (wm_domain (the_model a)) = true -> box_model a = Ok (the_model a).
Proof. intros [c|d] H; cbn in *; [reflexivity|rewrite H; reflexivity]. Qed.


Lemma sub_boxes_one : forall xmin xmax k, small k -> sub_boxes xmin xmax k = Ok (1%nat, xmin, xmax).
Proof. intros xmin xmax k H. unfold sub_boxes. destruct (1 <? k)%Z eqn:E; [apply Z.ltb_lt in E; unfold small in H; lia|reflexivity]. Qed.

(** C49 *)
Theorem range_box_sound : forall a f xmin xmax bs ns, let m := the_model a in
  is_box (wm_domain m) = true -> wm_bb m = false -> boxes_ok (wm_n m) xmin xmax -> consistent (wm_n m) xmin xmax -> small ns ->
  (forall b, (b < alen xmin)%nat -> sound_on m f (the_box xmin xmax b)) ->
  exists u l, get_range_box a xmin xmax bs ns = Ok (u, l) /\ a_tail u = wm_out m /\ a_tail l = wm_out m /\ alen u = alen xmin /\ alen l = alen xmin /\
    forall b z j, (b < alen xmin)%nat -> in_sample (wm_n m) (the_box xmin xmax b) z -> (j < wm_k m)%nat -> cell l b j <= f z j <= cell u b j.
Proof.
  intros a f xmin xmax bs ns m D BB BO C NS SO. unfold get_range_box.
  rewrite (consistent_dec (wm_n m)) by assumption. cbn [bind]. rewrite box_model_ok by exact D. cbn [bind].
  rewrite sub_boxes_one by exact NS. cbn [bind]. fold m. rewrite to_samples_ok by (try assumption; rewrite BB; reflexivity). cbn [bind].
  set (s := combine (a_rows xmin) (a_rows xmax)).
  destruct (combine_ne _ _ _ BO) as [Ls Ns]. fold s in Ls, Ns.
  destruct (range_eval_sound m f s) as (us & ls & E & L1 & L2 & X).
  { apply Forall_forall. intros p I. apply In_nth with (d := ([], [])) in I. destruct I as [b [Hb <-]]. unfold s at 1.
    rewrite (the_box_combine (wm_n m)) by exact BO. apply SO. rewrite <- Ls. exact Hb. }
  assert (R : (if (0 <? bs)%Z then rs <- mapR (range_call m) (slices (Z.to_nat bs) s) ; u <- np_concat (map fst rs) ; l <- np_concat (map snd rs) ; Ok (u, l) else range_eval m s)
    = Ok (mk_arr (wm_out m) us, mk_arr (wm_out m) ls)).
  { destruct (0 <? bs)%Z eqn:Eb; [|exact E]. apply Z.ltb_lt in Eb. rewrite range_batch; try assumption; [apply BO|apply samples_ok; assumption|lia]. }
  cbn [bind] in R |- *. rewrite R. cbn [bind fst snd]. unfold reduce_split. cbn [Nat.ltb Nat.leb bind].
  exists (mk_arr (wm_out m) us), (mk_arr (wm_out m) ls). 
  split; [reflexivity|]. split; [reflexivity|]. split; [reflexivity|]. split; [exact (eq_trans L1 Ls)|]. split; [exact (eq_trans L2 Ls)|].
  intros b z j Hb Z J. unfold cell; cbn [a_rows]. rewrite <- Ls in Hb. specialize (X b Hb). unfold s in X. rewrite (the_box_combine (wm_n m)) in X by exact BO.
  destruct X as (_ & _ & X). exact (X z j Z J).
Qed.

Theorem range_box_reject : forall a xmin xmax bs ns n, boxes_ok n xmin xmax -> ~ consistent n xmin xmax -> get_range_box a xmin xmax bs ns = Err UserWarning.
Proof.
  intros a xmin xmax bs ns n BO NC. unfold get_range_box. destruct (check_box_cases n xmin xmax BO) as [[C _]|[_ E]]; [contradiction|]. rewrite E. reflexivity.
Qed.
