(** Adversarial scores on boxes: get_adv_box (C46). *)
From Coq Require Import Reals Lra Lia List Arith Bool ZArith.
From Verif Require Import RLib Spec M_Core M_State M_Wrapper Spec_Wrapper P_Core P_Wrapper P_WrapperRefine.
Import ListNotations.
Local Open Scope R_scope.

(** ** Penalised maxima *)

Lemma block_max_ge : forall k up t s, (t < k)%nat -> (s < k)%nat -> up t s <= block_max k up.
Proof.
  intros k up t s T S. unfold block_max. eapply Rle_trans; [|apply (rmax_ge k (fun s => rmax k (fun t => up t s)) s S)].
  apply (rmax_ge k (fun t => up t s) t T).
Qed.
Lemma block_max_attained : forall k up, (0 < k)%nat -> exists t s, (t < k)%nat /\ (s < k)%nat /\ block_max k up = up t s.
Proof.
  intros k up K. unfold block_max. destruct (rmax_attained k (fun s => rmax k (fun t => up t s)) K) as (s & S & E).
  destruct (rmax_attained k (fun t => up t s) K) as (t & T & E2). exists t, s. split; [exact T|]. split; [exact S|]. rewrite E. exact E2.
Qed.
Lemma block_min_le : forall k up t s, (t < k)%nat -> (s < k)%nat -> block_min k up <= up t s.
Proof.
  intros k up t s T S. unfold block_min. eapply Rle_trans; [apply (rmin_le k (fun s => rmin k (fun t => up t s)) s S)|].
  apply (rmin_le k (fun t => up t s) t T).
Qed.

Lemma batch_range : forall k ups up t s, In up ups -> (t < k)%nat -> (s < k)%nat -> batch_min k ups <= up t s <= batch_max k ups.
Proof.
  intros k ups up t s I T S. split.
  - eapply Rle_trans; [apply row_min_le, in_map_iff; exists up; split; [reflexivity|exact I]|]. apply block_min_le; assumption.
  - eapply Rle_trans; [apply (block_max_ge k up t s T S)|]. apply row_max_ge, in_map_iff. exists up; split; [reflexivity|exact I].
Qed.

Lemma pen_block : forall k up p lo hi, (0 < k)%nat -> (forall t s, (t < k)%nat -> (s < k)%nat -> lo <= up t s <= hi) ->
  (forall t s, (t < k)%nat -> (s < k)%nat -> p t s = 0 \/ p t s = 1) ->
  let v := block_max k (fun t s => up t s - (1 - p t s) * (hi - lo + 1 / 10)) in
  (exists t s, (t < k)%nat /\ (s < k)%nat /\ p t s = 1) -> pair_max k (fun t s => p t s = 1) up v.
Proof.
  intros k up p lo hi K H P v (t0 & s0 & T0 & S0 & P0). unfold pair_max.
  assert (G : forall t s, (t < k)%nat -> (s < k)%nat -> p t s = 1 -> up t s <= v).
  { intros t s T S E. pose proof (block_max_ge k (fun t s => up t s - (1 - p t s) * (hi - lo + 1 / 10)) t s T S) as B. cbn beta in B. rewrite E in B. unfold v. lra. }
  split; [exact G|].
  destruct (block_max_attained k (fun t s => up t s - (1 - p t s) * (hi - lo + 1 / 10)) K) as (t & s & T & S & E).
  fold v in E. destruct (P t s T S) as [Z|O].
  - exfalso. rewrite Z in E. pose proof (H t s T S). pose proof (H t0 s0 T0 S0). pose proof (G t0 s0 T0 S0 P0). lra.
  - exists t, s. split; [exact T|]. split; [exact S|]. split; [exact O|]. rewrite O in E. lra.
Qed.

(** ** Samples with their labels *)

Definition trow (tgt : option (list Z)) (src : list Z) : list Z := match tgt with Some r => r | None => map (fun v => (1 - v)%Z) src end.
Definition row_pair (src : list Z) (tgt : option (list Z)) (t s : nat) : Prop :=
  nth s src 0%Z = 1%Z /\ match tgt with None => nth t src 0%Z = 0%Z | Some r => nth t r 0%Z = 1%Z end.
Definition row01 (k : nat) (r : list Z) : Prop := length r = k /\ forall j, (j < k)%nat -> nth j r 0%Z = 0%Z \/ nth j r 0%Z = 1%Z.
Definition opt01 (k : nat) (r : option (list Z)) : Prop := match r with None => True | Some r => row01 k r end.

Lemma trow01 : forall k src tgt, row01 k src -> opt01 k tgt -> row01 k (trow tgt src).
Proof.
  intros k src [r|] [L H] T; [exact T|]. cbn. split; [rewrite map_length; exact L|].
  intros j J. rewrite (nth_indep _ 0%Z (1 - 0)%Z) by (rewrite map_length; lia). rewrite (map_nth (fun v => (1 - v)%Z)). destruct (H j J) as [-> | ->]; [right|left]; reflexivity.
Qed.

Lemma mask_pair : forall k src tgt t s, row01 k src -> opt01 k tgt -> (t < k)%nat -> (s < k)%nat ->
  (pair_mask (trow tgt src, src) t s = 0 \/ pair_mask (trow tgt src, src) t s = 1) /\ (pair_mask (trow tgt src, src) t s = 1 <-> row_pair src tgt t s).
Proof.
  intros k src tgt t s [L H] T Ht Hs. unfold pair_mask, zat, row_pair. cbn [fst snd].
  assert (TT : exists v, nth t (trow tgt src) 0%Z = v /\ (v = 0%Z \/ v = 1%Z) /\ (v = 1%Z <-> match tgt with None => nth t src 0%Z = 0%Z | Some r => nth t r 0%Z = 1%Z end)).
  { eexists. split; [reflexivity|]. destruct (trow01 k src tgt (conj L H) T) as [_ H']. split; [apply H'; exact Ht|].
    destruct tgt as [r|]; cbn [trow]; [tauto|].
    rewrite (nth_indep _ 0%Z (1 - 0)%Z) by (rewrite map_length; lia). rewrite (map_nth (fun v => (1 - v)%Z)). lia. }
  destruct TT as (v & -> & V & W). rewrite <- W.
  destruct V as [-> | ->], (H s Hs) as [-> | ->]; cbn [IZR]; split; try (left; lra); try (right; lra); split; intro X; try lra; try (destruct X; discriminate); try (split; reflexivity).
Qed.

Lemma combine_len_eq : forall {A B} (l : list A) (l' : list B), length l = length l' -> map fst (combine l l') = l /\ map snd (combine l l') = l'.
Proof.
  intros A B l. induction l as [|a l IH]; intros [|b l'] E; cbn in *; try discriminate; [split; reflexivity|].
  destruct (IH l' ltac:(lia)) as [-> ->]. split; reflexivity.
Qed.

(** rows of a mask and its target *)
Definition rows_opt (tgt : option (arr Z)) (c : nat) : list (option (list Z)) := match tgt with None => repeat None c | Some a => map Some (a_rows a) end.

Lemma penalised_spec : forall k ups src tgt, (0 < k)%nat -> length ups = alen src -> Forall (row01 k) (a_rows src) ->
  match tgt with None => True | Some a => alen a = alen src /\ Forall (row01 k) (a_rows a) end ->
  exists r, penalised k ups src tgt = Ok r /\
    Forall2 (fun q v => (exists t s, (t < k)%nat /\ (s < k)%nat /\ row_pair (fst (snd q)) (snd (snd q)) t s) -> pair_max k (row_pair (fst (snd q)) (snd (snd q))) (fst q) v)
      (combine ups (combine (a_rows src) (rows_opt tgt (alen src)))) r.
Proof.
  intros k ups src tgt K L FS FT. unfold penalised.
  set (tg := match tgt with Some t => t | None => mk_arr (a_tail src) (map (map (fun v => (1 - v)%Z)) (a_rows src)) end).
  assert (TR : a_rows tg = map (fun q => trow (snd q) (fst q)) (combine (a_rows src) (rows_opt tgt (alen src)))).
  { unfold tg, rows_opt, alen. destruct tgt as [a|].
    - destruct FT as [La _]. unfold alen in La. clear -La. revert La. generalize (a_rows src) as l. generalize (a_rows a) as l'. induction l' as [|x l' IH]; intros [|y l] E; cbn in *; try discriminate; [reflexivity|]. f_equal. apply IH. lia.
    - cbn [a_rows]. generalize (a_rows src) as l. induction l as [|x l IH]; cbn; [reflexivity|]. f_equal. exact IH. }
  assert (LO : length (rows_opt tgt (alen src)) = alen src).
  { unfold rows_opt. destruct tgt as [a|]; [rewrite map_length; apply FT|apply repeat_length]. }
  assert (F : Forall (fun q => row01 k (fst q) /\ opt01 k (snd q)) (combine (a_rows src) (rows_opt tgt (alen src)))).
  { apply Forall_forall. intros [s o] I. rewrite Forall_forall in FS. split; [apply FS; eapply in_combine_l; exact I|]. apply in_combine_r in I. cbn.
    unfold rows_opt in I. destruct tgt as [a|].
    - apply in_map_iff in I. destruct I as [r [<- I]]. destruct FT as [_ FT]. rewrite Forall_forall in FT. apply FT. exact I.
    - apply repeat_spec in I. subst o. exact Logic.I. }
  assert (RT : rows_of k tg).
  { unfold rows_of. rewrite TR. apply Forall_forall. intros r I. apply in_map_iff in I. destruct I as [q [<- I]]. rewrite Forall_forall in F. destruct (F q I) as [A B]. apply (trow01 k _ _ A B). }
  assert (RS : rows_of k src) by (eapply Forall_impl; [|exact FS]; intros r X; apply X).
  rewrite (reshape_same tg [k] k) by (try assumption; cbn; lia). cbn [bind].
  rewrite (reshape_same src [k] k) by (try assumption; cbn; lia). cbn [bind a_rows].
  set (items := combine (a_rows src) (rows_opt tgt (alen src))) in *.
  assert (LI : length items = alen src) by (unfold items; rewrite combine_length, LO; unfold alen; lia).
  assert (LT : length (a_rows tg) = length (a_rows src)) by (rewrite TR, map_length, LI; reflexivity).
  unfold bcast at 1. rewrite LT, Nat.eqb_refl. cbn [bind].
  assert (CM : combine (a_rows tg) (a_rows src) = map (fun q => (trow (snd q) (fst q), fst q)) items).
  { rewrite TR. replace (a_rows src) with (map fst items) at 1.
    - clear. induction items as [|x l IH]; cbn; [reflexivity|]. rewrite IH. reflexivity.
    - apply combine_len_eq. rewrite LO. reflexivity. }
  rewrite CM, map_length, LI, L, Nat.eqb_refl. cbn [negb andb].
  unfold bcast. rewrite map_length, LI, L, Nat.eqb_refl. cbn [bind].
  eexists. split; [reflexivity|].
  assert (HB : forall up, In up ups -> forall t s, (t < k)%nat -> (s < k)%nat -> batch_min k ups <= up t s <= batch_max k ups) by (intros up I t s T S; apply batch_range; assumption).
  set (lo := batch_min k ups) in *. set (hi := batch_max k ups) in *.
  clear TR CM RT LT LI LO FT FS RS L. clearbody lo hi items. revert items F.
  induction ups as [|up ups IH]; intros [|q items] F; cbn [combine map]; constructor.
  - intros (t & s & T & S & P). cbn [fst snd] in *. inversion F as [|? ? [Q1 Q2] F']; subst.
    destruct (pen_block k up (pair_mask (trow (snd q) (fst q), fst q)) lo hi K) as [A B].
    + apply HB. left; reflexivity.
    + intros t' s' T' S'. apply (mask_pair k _ _ t' s' Q1 Q2 T' S').
    + exists t, s. split; [exact T|]. split; [exact S|]. apply (mask_pair k _ _ t s Q1 Q2 T S). exact P.
    + split.
      * intros t' s' T' S' P'. apply A; [exact T'|exact S'|]. apply (mask_pair k _ _ t' s' Q1 Q2 T' S'). exact P'.
      * destruct B as (t' & s' & T' & S' & P' & E). exists t', s'. split; [exact T'|]. split; [exact S'|]. split; [|exact E]. apply (mask_pair k _ _ t' s' Q1 Q2 T' S'). exact P'.
  - apply IH; [intros u I; apply HB; right; exact I|]. inversion F; assumption.
Qed.

(** the affine block: the maximum over the box of the difference of the affine bounds *)
Lemma affine_upper_max : forall n x wu bu wl bl t s, (forall i, (i < n)%nat -> x 0%nat i <= x 1%nat i) ->
  is_max (in_box n (x 0%nat) (x 1%nat)) (fun z => aff n wu (bu 0%nat) z t - aff n wl (bl 0%nat) z s) (affine_upper n x wu bu wl bl t s).
Proof.
  intros n x wu bu wl bl t s H. pose proof (box_up_max n (x 0%nat) (x 1%nat) (fun i => wu i t - wl i s) (bu 0%nat t - bl 0%nat s) H) as [A (z & Z & E)].
  assert (Q : forall z, aff n wu (bu 0%nat) z t - aff n wl (bl 0%nat) z s = rsum n (fun i => (wu i t - wl i s) * z i) + (bu 0%nat t - bl 0%nat s)).
  { intro y. unfold aff, dot. rewrite (rsum_ext n (fun i => (wu i t - wl i s) * y i) (fun i => wu i t * y i - wl i s * y i)) by (intros; ring). rewrite rsum_minus. ring. }
  split.
  - intros y Y. rewrite Q. apply A. exact Y.
  - exists z. split; [exact Z|]. rewrite Q. exact E.
Qed.

Lemma pair_box_of : forall n k x wu bu wl bl pairs v, (forall i, (i < n)%nat -> x 0%nat i <= x 1%nat i) -> pair_max k pairs (affine_upper n x wu bu wl bl) v ->
  pair_box_max n k x pairs (fun t s z => aff n wu (bu 0%nat) z t - aff n wl (bl 0%nat) z s) v.
Proof.
  intros n k x wu bu wl bl pairs v H [A (t & s & T & S & P & E)]. split.
  - intros t' s' z T' S' P' Z. eapply Rle_trans; [|apply (A t' s' T' S' P')]. apply (affine_upper_max n x wu bu wl bl t' s' H). exact Z.
  - destruct (affine_upper_max n x wu bu wl bl t s H) as [_ (z & Z & Ez)]. exists t, s, z. split; [exact T|]. split; [exact S|]. split; [exact P|]. split; [exact Z|]. rewrite Ez. exact E.
Qed.

(** ** One batch *)

(** a sample, its source row and its target row *)
Notation item := (box * (list Z * option (list Z)))%type.

Definition item_ok (m : wmodel) (f : vec -> vec) (q : item) : Prop := sound_on m f (fst q) /\ sample_ok (wm_n m) (fst q) /\ row01 (wm_k m) (fst (snd q)) /\ opt01 (wm_k m) (snd (snd q)).

Definition has_pair (k : nat) (pairs : nat -> nat -> Prop) : Prop := exists t s, (t < k)%nat /\ (s < k)%nat /\ pairs t s.

Definition scored (m : wmodel) (q : item) (v : R) : Prop := forall mode ts, wmode m = Some mode -> wm_predict m (wm_domain m) (ztensor (fst q)) None = Ok ts ->
  has_pair (wm_k m) (row_pair (fst (snd q)) (snd (snd q))) -> is_score mode (wm_n m) (wm_k m) (row_pair (fst (snd q)) (snd (snd q))) ts v.

Lemma in_lo : forall n p, sample_ok n p -> in_sample n p (lvec (fst p)).
Proof. intros n p (_ & _ & H) i Hi. specialize (H i Hi). lra. Qed.

Lemma Forall2_map_l : forall {A B C} (P : B -> C -> Prop) (g : A -> B) l r, Forall2 P (map g l) r -> Forall2 (fun a c => P (g a) c) l r.
Proof. intros A B C P g l. induction l as [|a l IH]; intros r H; inversion H; subst; constructor; auto. Qed.

Lemma min_rows_spec : forall {A} (P Q : A -> R -> Prop) l r r', Forall2 P l r -> Forall2 Q l r' -> Forall2 (fun a v => exists x y, P a x /\ Q a y /\ v = Rmin x y) l (min_rows r r').
Proof.
  intros A P Q l r r' H. revert r'. induction H as [|a x l r PA F IH]; intros r' H'; inversion H'; subst; cbn; constructor.
  - eexists _, _. split; [exact PA|]. split; [eassumption|reflexivity].
  - apply IH. assumption.
Qed.

Definition tgt_rows (tgt : option (list (list Z))) (c : nat) : list (option (list Z)) := match tgt with None => repeat None c | Some l => map Some l end.

Lemma unpack_sound : forall m f p ts, sound_on m f p -> sample_ok (wm_n m) p -> wm_predict m (wm_domain m) (ztensor p) None = Ok ts ->
  exists b, unpack_output (wm_ibp m) (wm_affine m) ts = Ok b /\ (wm_affine m = true -> forall i, (i < wm_n m)%nat -> bn_x b 0%nat i <= bn_x b 1%nat i) /\
    forall mode (pairs : nat -> nat -> Prop), wmode m = Some mode -> forall x y,
      (wm_ibp m = true -> pair_max (wm_k m) pairs (ibp_upper (bn_u b) (bn_l b)) x) ->
      (wm_affine m = true -> pair_max (wm_k m) pairs (affine_upper (wm_n m) (bn_x b) (bn_wu b) (bn_bu b) (bn_wl b) (bn_bl b)) y) ->
      is_score mode (wm_n m) (wm_k m) pairs ts (match wm_ibp m, wm_affine m with true, true => Rmin x y | true, false => x | _, _ => y end).
Proof.
  intros m f p ts (mode & ts' & dc & M & P & V) SK E. rewrite E in P. injection P as <-.
  pose proof (in_lo _ _ SK) as Z. destruct V as [L V]. unfold wmode in *.
  destruct (wm_ibp m), (wm_affine m); inversion M; subst mode; clear M.
  - destruct ts as [|x [|u [|wu [|bu [|l [|wl [|bl q]]]]]]]; try contradiction. destruct V as (D & _). specialize (D _ Z). cbn in D.
    assert (X : forall i, (i < wm_n m)%nat -> x 0%nat i <= x 1%nat i) by (intros i Hi; specialize (D i Hi); lra).
    eexists. split; [reflexivity|]. cbn [bn_x bn_u bn_l bn_wu bn_bu bn_wl bn_bl]. split; [intros _; exact X|].
    intros mode pairs M a b A B. inversion M; subst mode. cbn [is_score]. exists a, b. split; [apply A; reflexivity|]. split; [|reflexivity]. apply pair_box_of; [exact X|]. apply B; reflexivity.
  - destruct ts as [|u [|l q]]; try contradiction.
    eexists. split; [reflexivity|]. split; [discriminate|]. intros mode pairs M a b A B. inversion M; subst mode. cbn [is_score]. apply A; reflexivity.
  - destruct ts as [|x [|wu [|bu [|wl [|bl q]]]]]; try contradiction. destruct V as (D & _). specialize (D _ Z). cbn in D.
    assert (X : forall i, (i < wm_n m)%nat -> x 0%nat i <= x 1%nat i) by (intros i Hi; specialize (D i Hi); lra).
    eexists. split; [reflexivity|]. cbn [bn_x bn_u bn_l bn_wu bn_bu bn_wl bn_bl]. split; [intros _; exact X|].
    intros mode pairs M a b A B. inversion M; subst mode. cbn [is_score]. apply pair_box_of; [exact X|]. apply B; reflexivity.
Qed.

Lemma Forall2_nth : forall {A B} (P : A -> B -> Prop) l r i da db, Forall2 P l r -> (i < length l)%nat -> P (nth i l da) (nth i r db).
Proof.
  intros A B P l r i da db H. revert i. induction H as [|a b l r PA F IH]; intros i I; [cbn in I; lia|]. destruct i; cbn; [exact PA|]. apply IH. cbn in I; lia.
Qed.
Lemma Forall2_len : forall {A B} (P : A -> B -> Prop) l r, Forall2 P l r -> length l = length r.
Proof. intros A B P l r H. induction H; cbn; congruence. Qed.
Lemma Forall2_from_nth : forall {A B} (P : A -> B -> Prop) l r da db, length l = length r -> (forall i, (i < length l)%nat -> P (nth i l da) (nth i r db)) -> Forall2 P l r.
Proof.
  intros A B P l. induction l as [|a l IH]; intros [|b r] da db L H; cbn in L; try discriminate; constructor.
  - apply (H 0%nat). cbn; lia.
  - apply (IH r da db); [lia|]. intros i I. apply (H (S i)). cbn; lia.
Qed.

Lemma adv_eval_spec : forall m f items t1 t2 (tgt : option (list (list Z))), wm_bb m = false -> (0 < wm_k m)%nat -> items <> [] ->
  Forall (item_ok m f) items -> map (fun q => snd (snd q)) items = tgt_rows tgt (length items) ->
  exists r, adv_eval m (map fst items) (mk_arr t1 (map (fun q => fst (snd q)) items)) (option_map (mk_arr t2) tgt) = Ok r /\ Forall2 (scored m) items r.
Proof.
  intros m f items t1 t2 tgt BB K NE F T. unfold adv_eval. rewrite BB. cbn [bind].
  pose proof F as F0. rewrite Forall_forall in F.
  rewrite mapR_map.
  destruct (mapR_ok (fun q : item => wm_predict m (wm_domain m) (ztensor (fst q)) None) items) as [outs [EO LO]].
  { intros q I. destruct (F q I) as [(mode & ts & dc & _ & E & _) _]. eauto. }
  rewrite EO. cbn [bind]. destruct (mapR_nth _ _ _ EO) as [_ NO].
  assert (UN : forall i, (i < length items)%nat -> exists b, unpack_output (wm_ibp m) (wm_affine m) (nth i outs []) = Ok b).
  { intros i I. assert (In (nth i items (([], []), ([], None))) items) by (apply nth_In; exact I).
    destruct (F _ H) as (A & B & _). specialize (NO i (([], []), ([], None)) [] I).
    destruct (unpack_sound m f _ _ A B NO) as (b & E & _). eauto. }
  destruct (mapR_ok (unpack_output (wm_ibp m) (wm_affine m)) outs) as [bs [EB LB]].
  { intros ts I. apply In_nth with (d := []) in I. destruct I as [i [Hi <-]]. apply UN. lia. }
  rewrite EB. cbn [bind]. destruct (mapR_nth _ _ _ EB) as [_ NB].
  set (d0 := mk_bnds zero_t zero_t zero_t zero_t zero_t zero_t zero_t).
  set (src := mk_arr t1 (map (fun q : item => fst (snd q)) items)).
  assert (LS : alen src = length items) by (unfold alen, src; cbn; apply map_length).
  assert (RO : rows_opt (option_map (mk_arr t2) tgt) (alen src) = map (fun q => snd (snd q)) items).
  { rewrite T, LS. destruct tgt; reflexivity. }
  assert (SR : Forall (row01 (wm_k m)) (a_rows src)).
  { apply Forall_forall. intros r I. apply in_map_iff in I. destruct I as [q [<- I]]. apply (F q I). }
  assert (TR : match option_map (mk_arr t2) tgt with None => True | Some a => alen a = alen src /\ Forall (row01 (wm_k m)) (a_rows a) end).
  { destruct tgt as [l|]; cbn [option_map]; [|exact I]. cbn [tgt_rows] in T. split.
    - rewrite LS. unfold alen; cbn [a_rows]. rewrite <- (map_length Some l), <- T, map_length. reflexivity.
    - apply Forall_forall. intros r I. cbn [a_rows] in I. assert (J : In (Some r) (map (fun q : item => snd (snd q)) items)) by (rewrite T; apply in_map; exact I).
      apply in_map_iff in J. destruct J as [q [E J]]. destruct (F q J) as (_ & _ & _ & O). rewrite E in O. exact O. }
  assert (PEN : forall g : bnds -> mat, exists r, penalised (wm_k m) (map g bs) src (option_map (mk_arr t2) tgt) = Ok r /\ length r = length items /\
    forall i, (i < length items)%nat -> has_pair (wm_k m) (row_pair (fst (snd (nth i items (([], []), ([], None))))) (snd (snd (nth i items (([], []), ([], None)))))) ->
      pair_max (wm_k m) (row_pair (fst (snd (nth i items (([], []), ([], None))))) (snd (snd (nth i items (([], []), ([], None)))))) (g (nth i bs d0)) (nth i r 0)).
  { intro g. destruct (penalised_spec (wm_k m) (map g bs) src (option_map (mk_arr t2) tgt) K) as (r & E & P); [rewrite map_length, LS; lia|exact SR|exact TR|].
    exists r. split; [exact E|]. rewrite RO in P. pose proof (Forall2_len _ _ _ P) as LP. rewrite !combine_length, !map_length in LP. fold (alen src) in LP. change (length (a_rows src)) with (alen src) in LP. rewrite LS in LP. split; [lia|].
    intros i I HP.
    pose proof (Forall2_nth _ _ _ i (g d0, ([], None)) 0 P) as Q. cbn beta in Q.
    rewrite combine_nth in Q by (rewrite combine_length, !map_length; change (length (a_rows src)) with (alen src); lia).
    rewrite (combine_nth (a_rows src)) in Q by (unfold src; cbn [a_rows]; rewrite !map_length; reflexivity).
    unfold src in Q. cbn [a_rows fst snd] in Q.
    rewrite (map_nth g bs d0 i) in Q.
    rewrite (map_nth (fun q : item => fst (snd q)) items (([], []), ([], None)) i : nth i (map (fun q : item => fst (snd q)) items) [] = _) in Q.
    rewrite (map_nth (fun q : item => snd (snd q)) items (([], []), ([], None)) i : nth i (map (fun q : item => snd (snd q)) items) None = _) in Q.
    apply Q; [|exact HP]. rewrite !combine_length, !map_length. lia. }
  destruct (PEN (fun b => ibp_upper (bn_u b) (bn_l b))) as (ri & Ei & Li & Pi).
  destruct (PEN (fun b => affine_upper (wm_n m) (bn_x b) (bn_wu b) (bn_bu b) (bn_wl b) (bn_bl b))) as (ra & Ea & La & Pa).
  assert (SC : forall i mode ts, (i < length items)%nat -> wmode m = Some mode -> wm_predict m (wm_domain m) (ztensor (fst (nth i items (([], []), ([], None))))) None = Ok ts ->
    has_pair (wm_k m) (row_pair (fst (snd (nth i items (([], []), ([], None))))) (snd (snd (nth i items (([], []), ([], None)))))) ->
    is_score mode (wm_n m) (wm_k m) (row_pair (fst (snd (nth i items (([], []), ([], None))))) (snd (snd (nth i items (([], []), ([], None)))))) ts
      (match wm_ibp m, wm_affine m with true, true => Rmin (nth i ri 0) (nth i ra 0) | true, false => nth i ri 0 | _, _ => nth i ra 0 end)).
  { intros i mode ts I M E HP. pose proof (NO i (([], []), ([], None)) [] I) as N. rewrite E in N. injection N as N.
    assert (IN : In (nth i items (([], []), ([], None))) items) by (apply nth_In; exact I). destruct (F _ IN) as (A & B & _).
    destruct (unpack_sound m f _ _ A B E) as (b & Eb & _ & S).
    pose proof (NB i [] d0 ltac:(lia)) as N2. rewrite <- N, Eb in N2. injection N2 as N2. subst b.
    apply (S mode); [exact M| |]; intros _; [apply Pi|apply Pa]; assumption. }
  destruct (wm_ibp m) eqn:EI, (wm_affine m) eqn:EA.
  - rewrite Ei. cbn [bind]. rewrite Ea. cbn [bind]. eexists. split; [reflexivity|].
    apply (Forall2_from_nth _ _ _ (([], []), ([], None)) 0).
    + unfold min_rows. rewrite map_length, combine_length. lia.
    + intros i I mode ts M E HP. specialize (SC i mode ts I M E HP). unfold min_rows.
      rewrite (nth_indep _ 0 ((fun p => Rmin (fst p) (snd p)) (0, 0))) by (rewrite map_length, combine_length; lia).
      rewrite (map_nth (fun p : R * R => Rmin (fst p) (snd p))), combine_nth by lia. cbn [fst snd]. exact SC.
  - rewrite Ei. cbn [bind]. eexists. split; [reflexivity|]. apply (Forall2_from_nth _ _ _ (([], []), ([], None)) 0); [lia|].
    intros i I mode ts M E HP. exact (SC i mode ts I M E HP).
  - cbn [bind]. rewrite Ea. cbn [bind]. eexists. split; [reflexivity|]. apply (Forall2_from_nth _ _ _ (([], []), ([], None)) 0); [lia|].
    intros i I mode ts M E HP. exact (SC i mode ts I M E HP).
  - destruct items as [|q items]; [contradiction NE; reflexivity|]. exfalso. destruct (F q (or_introl eq_refl)) as [(mode & ts & dc & M & _) _]. unfold wmode in M. rewrite EI, EA in M. discriminate.
Qed.

(** ** Slices *)
Definition sl {A} (b i : nat) (l : list A) : list A := firstn b (skipn (b * i) l).

Lemma sl_map : forall {A B} (g : A -> B) b i l, sl b i (map g l) = map g (sl b i l).
Proof. intros. unfold sl. rewrite skipn_map, firstn_map. reflexivity. Qed.
Lemma sl_incl : forall {A} b i (l : list A), incl (sl b i l) l.
Proof. intros A b i l x H. unfold sl in H. assert (In x (skipn (b * i) l)) by (rewrite <- (firstn_skipn b); apply in_or_app; left; exact H). rewrite <- (firstn_skipn (b * i) l). apply in_or_app; right; assumption. Qed.
Lemma sl_repeat : forall {A} b i (x : A) c, sl b i (repeat x c) = repeat x (length (sl b i (repeat x c))).
Proof.
  intros A b i x c. assert (H : Forall (eq x) (sl b i (repeat x c))).
  { apply Forall_forall. intros y I. apply sl_incl in I. apply repeat_spec in I. symmetry; exact I. }
  revert H. generalize (sl b i (repeat x c)) as l. induction l as [|y l IH]; intros H; [reflexivity|]. inversion H; subst. cbn. f_equal. apply IH. assumption.
Qed.

Lemma combine_map2 : forall {A B C} (f : A -> B) (g : A -> C) l, combine (map f l) (map g l) = map (fun a => (f a, g a)) l.
Proof. intros A B C f g l. induction l as [|a l IH]; cbn; [reflexivity|]. rewrite IH. reflexivity. Qed.

Lemma repeat_map_seq : forall {A} (x : A) c s, repeat x c = map (fun _ => x) (seq s c).
Proof. intros A x c. induction c as [|c IH]; intros s; cbn; [reflexivity|]. rewrite (IH (S s)). reflexivity. Qed.

Lemma Forall2_concat : forall {A B} (P : A -> B -> Prop) ls rs, Forall2 (Forall2 P) ls rs -> Forall2 P (concat ls) (concat rs).
Proof. intros A B P ls rs H. induction H as [|l r ls rs PA F IH]; cbn; [constructor|]. apply Forall2_app; assumption. Qed.

Lemma mapR_Forall2 : forall {A B C} (f : A -> result B) (P : C -> B -> Prop) (g : A -> C) l, (forall a, In a l -> exists b, f a = Ok b /\ P (g a) b) ->
  exists r, mapR f l = Ok r /\ Forall2 P (map g l) r.
Proof.
  intros A B C f P g l. induction l as [|a l IH]; intros H; [exists []; split; [reflexivity|constructor]|].
  destruct (H a (or_introl eq_refl)) as (b & E & Q). destruct IH as (r & E2 & Q2); [intros x I; apply H; right; exact I|].
  exists (b :: r). cbn. rewrite E, E2. split; [reflexivity|]. constructor; assumption.
Qed.

(** the samples of get_adv_box, in one or several batches *)
Definition adv_batch (m : wmodel) (samples : list box) (src : arr Z) (tgt : option (arr Z)) (batch_size : Z) : result (list R) :=
  if (0 <? batch_size)%Z then
    let b := Z.to_nat batch_size in
    let xs := slices b samples in
    let c := length xs in
    rs <- mapR (fun q => adv_call m (fst q) (fst (snd q)) (snd (snd q)))
            (combine xs (combine (arr_slices b src c)
               (match tgt with None => repeat None c | Some t => map Some (arr_slices b t c) end))) ;
    match rs with [] => Err ValueError | _ => Ok (concat rs) end
  else adv_eval m samples src tgt.

(** the samples of the boxes with the labels *)
Definition items_of (samples : list box) (src : list (list Z)) (tgt : option (list (list Z))) : list item := combine samples (combine src (tgt_rows tgt (length src))).

Lemma items_maps : forall samples src tgt, length samples = length src -> match tgt with None => True | Some l => length l = length src end ->
  map fst (items_of samples src tgt) = samples /\ map (fun q => fst (snd q)) (items_of samples src tgt) = src /\
  map (fun q => snd (snd q)) (items_of samples src tgt) = tgt_rows tgt (length (items_of samples src tgt)) /\ length (items_of samples src tgt) = length samples.
Proof.
  intros samples src tgt L T. unfold items_of.
  assert (LT : length (tgt_rows tgt (length src)) = length src) by (destruct tgt; cbn; [rewrite map_length; exact T|apply repeat_length]).
  assert (LC : length (combine src (tgt_rows tgt (length src))) = length src) by (rewrite combine_length; lia).
  destruct (combine_len_eq samples (combine src (tgt_rows tgt (length src))) ltac:(lia)) as [E1 E2].
  destruct (combine_len_eq src (tgt_rows tgt (length src)) ltac:(lia)) as [E3 E4].
  assert (LI : length (combine samples (combine src (tgt_rows tgt (length src)))) = length samples) by (rewrite combine_length; lia).
  split; [exact E1|]. split; [|split; [|exact LI]].
  - rewrite <- (map_map snd fst), E2. exact E3.
  - rewrite <- (map_map snd snd), E2, E4, LI, L. reflexivity.
Qed.

Lemma repeat_rows_eq : forall (a : arr Z) k s, (0 < k)%nat -> (1 <= s)%nat -> a_tail a = [k] -> rows_of k a -> repeat_rows s a [k] = Ok (mk_arr [k] (concat (map (fun r => repeat r s) (a_rows a)))).
Proof.
  intros [t rows] k s K0 S T H. cbn [a_tail] in T. subst t. unfold repeat_rows. destruct (1 <? s)%nat eqn:E.
  - apply Nat.ltb_lt in E. cbn [a_rows a_tail].
    assert (FL : Forall (fun r => length r = k) (concat (map (fun r => repeat r s) rows))).
    { apply Forall_forall. intros r I. apply in_concat in I. destruct I as [l [I J]]. apply in_map_iff in I. destruct I as [r0 [<- I]]. apply repeat_spec in J. subst r0. unfold rows_of in H. cbn [a_rows] in H. rewrite Forall_forall in H. apply H. exact I. }
    etransitivity; [|exact (reshape_same (mk_arr [k] (concat (map (fun r => repeat r s) rows))) [k] k ltac:(cbn; lia) K0 FL)].
    unfold reshape, flatten. cbn [a_rows].
    assert (Q : concat (map (fun r : list Z => concat (repeat r s)) rows) = concat (concat (map (fun r => repeat r s) rows))).
    { clear. induction rows as [|r l IH]; cbn; [reflexivity|]. rewrite concat_app, IH. reflexivity. }
    rewrite Q. reflexivity.
  - apply Nat.ltb_ge in E. assert (s = 1%nat) by lia. subst s. f_equal. f_equal. cbn [a_rows]. clear. induction rows as [|r l IH]; cbn; [reflexivity|]. f_equal. exact IH.
Qed.


Lemma prepare_mask : forall B k a, (0 < B)%nat -> mask_ok B k a -> prepare_labels (LArr a) B = Ok (mk_arr [k] (a_rows a)).
Proof. intros B k a B0 (L & H & _). cbn [prepare_labels]. rewrite <- L. apply reshape_first_same; [rewrite L; exact B0|exact H]. Qed.

Lemma mask_rows : forall B k a, mask_ok B k a -> Forall (row01 k) (a_rows a).
Proof.
  intros B k a (L & H & M). apply Forall_forall. intros r I. unfold rows_of in H. rewrite Forall_forall in H. split; [apply H; exact I|].
  intros j J. apply In_nth with (d := []) in I. destruct I as [b [Hb <-]]. apply (M b j); [unfold alen in L; lia|exact J].
Qed.

Section Batches.
Variable m : wmodel.
Variable ok : item -> Prop.
Variable sp : item -> R -> Prop.
Hypothesis D : is_box (wm_domain m) = true.
Hypothesis K : (0 < wm_k m)%nat.
Hypothesis N : (0 < wm_n m)%nat.
Hypothesis OK : forall q, ok q -> sample_ok (wm_n m) (fst q) /\ row01 (wm_k m) (fst (snd q)) /\ opt01 (wm_k m) (snd (snd q)).
Hypothesis EV : forall items t1 t2 (tgt : option (list (list Z))), items <> [] ->
  Forall ok items -> map (fun q => snd (snd q)) items = tgt_rows tgt (length items) ->
  exists r, adv_eval m (map fst items) (mk_arr t1 (map (fun q => fst (snd q)) items)) (option_map (mk_arr t2) tgt) = Ok r /\ Forall2 sp items r.

Lemma adv_call_spec : forall items t1 t2 (tgt : option (list (list Z))), items <> [] ->
  Forall ok items -> map (fun q => snd (snd q)) items = tgt_rows tgt (length items) ->
  exists r, adv_call m (map fst items) (mk_arr t1 (map (fun q => fst (snd q)) items)) (option_map (mk_arr t2) tgt) = Ok r /\ Forall2 sp items r.
Proof.
  intros items t1 t2 tgt NE F T. unfold adv_call.
  assert (FS : Forall (sample_ok (wm_n m)) (map fst items)).
  { apply Forall_forall. intros p I. apply in_map_iff in I. destruct I as [q [<- I]]. rewrite Forall_forall in F. apply (OK q (F q I)). }
  assert (NE' : map fst items <> []) by (destruct items; [contradiction|discriminate]).
  destruct (samples_boxes_ok (wm_n m) [1%nat; wm_n m] (map fst items) N NE' FS) as [BO C].
  rewrite (consistent_dec (wm_n m)) by assumption. cbn [bind]. unfold box_model. rewrite D. cbn [bind].
  rewrite to_samples_ok by (try assumption; apply andb_false_r). cbn [bind a_rows]. rewrite combine_map_fst_snd.
  assert (LL : alen (mk_arr [1%nat; wm_n m] (map fst (map fst items))) = length items) by (unfold alen; cbn; rewrite !map_length; reflexivity).
  assert (P0 : (0 < length items)%nat) by (destruct items; [contradiction|cbn; lia]).
  rewrite LL.
  assert (S1 : alen (mk_arr t1 (map (fun q : item => fst (snd q)) items)) = length items) by (unfold alen; cbn; apply map_length).
  assert (PS : prepare_labels (LArr (mk_arr t1 (map (fun q : item => fst (snd q)) items))) (length items) = Ok (mk_arr [wm_k m] (map (fun q : item => fst (snd q)) items))).
  { cbn [prepare_labels]. rewrite <- S1. rewrite (reshape_first_same _ (wm_k m)); [reflexivity|rewrite S1; exact P0|].
    unfold rows_of. cbn [a_rows]. apply Forall_forall. intros r I. apply in_map_iff in I. destruct I as [q [<- I]]. rewrite Forall_forall in F. apply (OK q (F q I)). }
  rewrite PS. cbn [bind].
  assert (TG : prepare_opt (option_map LArr (option_map (mk_arr t2) tgt)) (length items) = Ok (option_map (mk_arr [wm_k m]) tgt)).
  { destruct tgt as [l|]; [|reflexivity]. cbn [option_map prepare_opt prepare_labels]. cbn [tgt_rows] in T.
    assert (Ll : alen (mk_arr t2 l) = length items) by (unfold alen; cbn [a_rows]; rewrite <- (map_length Some l), <- T, map_length; reflexivity).
    rewrite <- Ll. rewrite (reshape_first_same _ (wm_k m)); [reflexivity|lia|].
    unfold rows_of. cbn [a_rows]. apply Forall_forall. intros r I.
    assert (J : In (Some r) (map (fun q : item => snd (snd q)) items)) by (rewrite T; apply in_map; exact I).
    apply in_map_iff in J. destruct J as [q [E J]]. rewrite Forall_forall in F. destruct (OK q (F q J)) as (_ & _ & O). rewrite E in O. apply O. }
  rewrite TG. cbn [bind]. apply EV; assumption.
Qed.

Lemma adv_batch_spec : forall items t1 t2 (tgt : option (list (list Z))) bs, items <> [] ->
  Forall ok items -> map (fun q => snd (snd q)) items = tgt_rows tgt (length items) ->
  exists r, adv_batch m (map fst items) (mk_arr t1 (map (fun q => fst (snd q)) items)) (option_map (mk_arr t2) tgt) bs = Ok r /\ Forall2 sp items r.
Proof.
  intros items t1 t2 tgt bs NE F T. unfold adv_batch. destruct (0 <? bs)%Z eqn:B; [|apply EV; assumption].
  apply Z.ltb_lt in B. set (b := Z.to_nat bs). assert (B0 : (0 < b)%nat) by (unfold b; lia). cbv zeta.
  rewrite slices_length, map_length. set (c := nslices b (length items)).
  assert (XS : slices b (map fst items) = map (fun i => map fst (sl b i items)) (seq 0 c)).
  { unfold slices. rewrite map_length. fold (nslices b (length items)). fold c. apply map_ext. intro i. fold (sl b i (map fst items)). apply sl_map. }
  assert (SS : arr_slices b (mk_arr t1 (map (fun q : item => fst (snd q)) items)) c = map (fun i => mk_arr t1 (map (fun q : item => fst (snd q)) (sl b i items))) (seq 0 c)).
  { unfold arr_slices. apply map_ext. intro i. cbn [a_rows a_tail]. f_equal. apply sl_map. }
  assert (TS : (match option_map (mk_arr t2) tgt with None => repeat None c | Some t => map Some (arr_slices b t c) end) =
               map (fun i => option_map (mk_arr t2) (option_map (fun l => sl b i l) tgt)) (seq 0 c)).
  { destruct tgt as [l|]; cbn [option_map]; [|apply repeat_map_seq]. unfold arr_slices. rewrite map_map. reflexivity. }
  rewrite XS, SS, TS, combine_map2, combine_map2, mapR_map. cbn [fst snd].
  destruct (mapR_Forall2 (fun i => adv_call m (map fst (sl b i items)) (mk_arr t1 (map (fun q : item => fst (snd q)) (sl b i items))) (option_map (mk_arr t2) (option_map (fun l => sl b i l) tgt)))
     (Forall2 sp) (fun i => sl b i items) (seq 0 c)) as (rs & E & P).
  { intros i I. apply in_seq in I. apply adv_call_spec; try assumption.
    - intro X. pose proof (nslices_lt b (length items) i B0 ltac:(unfold c in I; lia)) as Y.
      assert (Z : length (sl b i items) = 0%nat) by (rewrite X; reflexivity). unfold sl in Z. rewrite firstn_length, skipn_length in Z. lia.
    - apply Forall_forall. intros q J. rewrite Forall_forall in F. apply F. apply (sl_incl _ _ _ _ J).
    - rewrite <- sl_map. rewrite T. destruct tgt as [l|]; cbn [option_map tgt_rows].
      + apply sl_map.
      + rewrite sl_repeat. f_equal. unfold sl. rewrite !firstn_length, !skipn_length, repeat_length. reflexivity. }
  rewrite E. cbn [bind]. pose proof (Forall2_len _ _ _ P) as LP. rewrite map_length, seq_length in LP.
  assert (C0 : (0 < c)%nat) by (pose proof (nslices_bound b (length items) B0); unfold c; destruct items; [contradiction|cbn [length] in *; nia]).
  destruct rs as [|r0 rs]; [cbn in LP; lia|]. eexists. split; [reflexivity|].
  apply Forall2_concat in P. replace (concat (map (fun i => sl b i items) (seq 0 c))) with items in P; [exact P|].
  symmetry. apply slices_seq; [exact B0|]. apply nslices_bound. exact B0.
Qed.


Lemma adv_box_gen : forall a xmin xmax src tgt bs s samples, the_model a = m -> boxes_ok (wm_n m) xmin xmax -> consistent (wm_n m) xmin xmax ->
  mask_ok (alen xmin) (wm_k m) src -> mask_opt (alen xmin) (wm_k m) tgt -> forall ns xmin' xmax',
  sub_boxes xmin xmax ns = Ok (s, xmin', xmax') -> (1 <= s)%nat -> to_samples m true xmin' xmax' = Ok samples -> length samples = (alen xmin * s)%nat ->
  let items := items_of samples (concat (map (fun r => repeat r s) (a_rows src))) (option_map (fun t => concat (map (fun r => repeat r s) (a_rows t))) tgt) in
  Forall ok items ->
  exists r, Forall2 sp items r /\ get_adv_box a xmin xmax (LArr src) (option_map LArr tgt) bs ns =
    (if (1 <? s)%nat then r' <- reduce_split row_max s (mk_arr [] (map (fun v => [v]) r)) ; Ok (concat (a_rows r')) else Ok r).
Proof.
  intros a xmin xmax src tgt bs s samples EM BO C MS MT ns xmin' xmax' SB S1 TS LS items F.
  assert (B0 : (0 < alen xmin)%nat) by apply BO.
  assert (LR : forall t : arr Z, mask_ok (alen xmin) (wm_k m) t -> length (concat (map (fun r => repeat r s) (a_rows t))) = (alen xmin * s)%nat).
  { intros t (L & _). rewrite (concat_len s); [rewrite map_length; unfold alen in *; rewrite L; reflexivity|].
    apply Forall_forall. intros r I. apply in_map_iff in I. destruct I as [r0 [<- _]]. apply repeat_length. }
  destruct (items_maps samples (concat (map (fun r => repeat r s) (a_rows src))) (option_map (fun t => concat (map (fun r => repeat r s) (a_rows t))) tgt)) as (I1 & I2 & I3 & I4).
  { rewrite LR by exact MS. exact LS. }
  { destruct tgt as [t|]; cbn [option_map]; [|exact I]. rewrite !LR by assumption. reflexivity. }
  fold items in I1, I2, I3, I4.
  destruct (adv_batch_spec items [wm_k m] [wm_k m] (option_map (fun t => concat (map (fun r => repeat r s) (a_rows t))) tgt) bs) as (r & E & P).
  { intro X. rewrite X in I4. cbn in I4. rewrite LS in I4. nia. }
  { exact F. }
  { exact I3. }
  exists r. split; [exact P|]. unfold get_adv_box. rewrite (consistent_dec (wm_n m)) by assumption. cbn [bind].
  rewrite box_model_ok by (rewrite EM; exact D). cbn [bind]. rewrite EM. rewrite SB. cbn [bind]. rewrite TS. cbn [bind].
  rewrite (prepare_mask (alen xmin) (wm_k m)) by assumption. cbn [bind a_tail].
  assert (PO : prepare_opt (option_map LArr tgt) (alen xmin) = Ok (option_map (fun t => mk_arr [wm_k m] (a_rows t)) tgt)).
  { destruct tgt as [t|]; cbn [option_map prepare_opt]; [|reflexivity]. rewrite (prepare_mask (alen xmin) (wm_k m)) by assumption. reflexivity. }
  rewrite PO. cbn [bind].
  rewrite repeat_rows_eq by (try assumption; try reflexivity; apply MS). cbn [bind a_rows].
  assert (PT : (match option_map (fun t => mk_arr [wm_k m] (a_rows t)) tgt with None => Ok None | Some t => r <- repeat_rows s t [wm_k m] ; Ok (Some r) end)
     = Ok (option_map (mk_arr [wm_k m]) (option_map (fun t => concat (map (fun r => repeat r s) (a_rows t))) tgt))).
  { destruct tgt as [t|]; cbn [option_map]; [|reflexivity]. rewrite repeat_rows_eq by (try assumption; try reflexivity; apply MT). reflexivity. }
  rewrite PT. cbn [bind]. unfold adv_batch in E. rewrite I1, I2 in E. cbv zeta in E |- *. cbn [a_rows] in E |- *.
  rewrite E. cbn [bind]. destruct (1 <? s)%nat; reflexivity.
Qed.

End Batches.

(** soundness of a score *)
Lemma score_sound : forall m f q v, sound_on m f (fst q) -> scored m q v ->
  forall z t s, in_sample (wm_n m) (fst q) z -> (t < wm_k m)%nat -> (s < wm_k m)%nat -> row_pair (fst (snd q)) (snd (snd q)) t s -> f z t - f z s <= v.
Proof.
  intros m f q v (mode & ts & dc & M & P & V) SC z t s Z T S PR.
  specialize (SC mode ts M P ltac:(exists t, s; auto)). destruct V as [L V]. unfold wmode in M.
  destruct (wm_ibp m), (wm_affine m); inversion M; subst mode; clear M; cbn [is_score] in SC.
  - destruct ts as [|x [|u [|wu [|bu [|l [|wl [|bl ts]]]]]]]; try contradiction. destruct SC as (a & b & [A _] & [B _] & ->). destruct V as (D & C & AF).
    specialize (A t s T S PR). specialize (D z Z). cbn in D. specialize (B t s z T S PR D).
    destruct (C z t Z T) as [_ Cu]. destruct (C z s Z S) as [Cl _]. destruct (AF z t Z T) as [_ Au]. destruct (AF z s Z S) as [Al _].
    apply Rmin_glb; unfold vt, aff in *; lra.
  - destruct ts as [|u [|l ts]]; try contradiction. destruct SC as [A _]. specialize (A t s T S PR).
    rename V into C. destruct (C z t Z T) as [_ Cu]. destruct (C z s Z S) as [Cl _]. unfold vt in *; lra.
  - destruct ts as [|x [|wu [|bu [|wl [|bl ts]]]]]; try contradiction. destruct SC as [B _]. destruct V as (D & AF).
    specialize (D z Z). cbn in D. specialize (B t s z T S PR D). destruct (AF z t Z T) as [_ Au]. destruct (AF z s Z S) as [Al _]. unfold vt, aff in *; lra.
Qed.
