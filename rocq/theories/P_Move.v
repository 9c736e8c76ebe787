(** Proofs about M_Layers: layers that move entries (flatten, reshape, permute, concatenate, dot). *)
From Coq Require Import Reals Lra Lia Psatz List Arith Bool ZArith Permutation.
From Verif Require Import RLib Spec Spec_Layers M_Core M_Utils M_MergeLayers M_Ops M_Layers.
From Verif Require Import P_Core P_Utils P_MergeLayers P_Axis P_Ops P_Sort.
Import ListNotations.
Local Open Scope R_scope.

Lemma get_full_raw : forall sp D S m f ts,
  valid D (sp_mode sp) (sp_dc sp) S (sp_n sp) m f ts ->
  exists r, get_fullinputs sp false false ts = Ok r /\
    vfull D (get_ibp (sp_mode sp)) (get_affine (sp_mode sp)) S (sp_n sp) m f r.
Proof.
  intros sp D S m f ts H. destruct (valid_unpack _ _ _ _ _ _ _ _ H) as (r & E & V & _).
  exists r. split; auto. unfold get_fullinputs. rewrite E. reflexivity.
Qed.

(** moving entries: the output j reads entry idx j *)
Lemma move_sound : forall sp D (S : vec -> Prop) m mo f idx (op opw : tensor -> tensor) r,
  (forall j, (j < mo)%nat -> (idx j < m)%nat) ->
  (forall t j, (j < mo)%nat -> op t 0%nat j = t 0%nat (idx j)) ->
  (forall t i j, (i < sp_n sp)%nat -> (j < mo)%nat -> opw t i j = t i (idx j)) ->
  vfull D (get_ibp (sp_mode sp)) (get_affine (sp_mode sp)) S (sp_n sp) m f r ->
  vfull D (get_ibp (sp_mode sp)) (get_affine (sp_mode sp)) S (sp_n sp) mo (fun z j => f z (idx j)) (move_full sp op opw r).
Proof.
  intros sp D S m mo f idx op opw r Hi Hop Hw [C A]. split.
  - intros H. unfold move_full. rewrite H. cbn [when f_uc f_lc]. intros z j Hz Hj. rewrite !Hop by auto. apply C; auto.
  - intros H. destruct (A H) as [X B]. unfold move_full. rewrite H. cbn [when f_x f_wu f_bu f_wl f_bl]. split; auto.
    intros z j Hz Hj.
    assert (E : forall (w b : tensor), aff (sp_n sp) (opw w) (op b 0%nat) z j = aff (sp_n sp) w (b 0%nat) z (idx j)).
    { intros w b. unfold aff. rewrite Hop by auto. f_equal. apply dot_ext; auto. }
    rewrite !E. apply B; auto.
Qed.

Lemma move_layer : forall sp (S : vec -> Prop) m mo f idx (op opw : tensor -> tensor) ts,
  (0 < sp_n sp)%nat -> dom_ok (sp_dom sp) (sp_mode sp) ->
  (forall j, (j < mo)%nat -> (idx j < m)%nat) ->
  (forall t j, (j < mo)%nat -> op t 0%nat j = t 0%nat (idx j)) ->
  (forall t i j, (i < sp_n sp)%nat -> (j < mo)%nat -> opw t i j = t i (idx j)) ->
  op_sp sp S m f ts ->
  exists r, get_fullinputs sp false true ts = Ok r /\
    op_sp sp S mo (fun z j => f z (idx j)) (extract (sp_mode sp) (sp_dc sp) (move_full sp op opw r)).
Proof.
  intros sp S m mo f idx op opw ts Hn Hd Hi Hop Hw Hv.
  destruct (get_full_sound sp false true S m f ts Hn Hd Hv) as (r & E & V).
  rewrite orb_false_r in V. exists r. split; auto. apply vfull_valid. eapply move_sound; eauto.
Qed.

(** ** flatten, reshape *)
Lemma flatten_sound : forall sp (cf : bool) ch size S f ts,
  (0 < sp_n sp)%nat -> dom_ok (sp_dom sp) (sp_mode sp) -> (sp_mode sp = IBP \/ cf = false) ->
  op_sp sp S (ch * size) f ts ->
  exists out, decomon_flatten sp cf ch size ts = Ok out /\
    op_sp sp S (ch * size) (fun z j => f z (flatten_idx cf ch size j)) out.
Proof.
  intros sp cf ch size S f ts Hn Hd Hm Hv. unfold decomon_flatten.
  assert (Hi : forall j, (j < ch * size)%nat -> (flatten_idx cf ch size j < ch * size)%nat).
  { intros j Hj. unfold flatten_idx. destruct cf; auto.
    assert (ch <> 0%nat) by (intro K; rewrite K in Hj; lia).
    assert (j mod ch < ch)%nat by (apply Nat.mod_upper_bound; auto).
    assert (j / ch < size)%nat by (apply Nat.div_lt_upper_bound; auto). nia. }
  destruct Hm as [Hm|Hm].
  - destruct (get_full_sound sp false true S _ f ts Hn Hd Hv) as (r & E & C & A).
    rewrite E. cbn [bind]. eexists. split; [reflexivity|]. apply vfull_valid. rewrite Hm in *. split.
    + intros _. unfold move_full. rewrite Hm. cbn [get_ibp when f_uc f_lc]. intros z j Hz Hj. unfold gather. apply C; auto.
    + intros K; discriminate K.
  - subst cf.
    destruct (move_layer sp S _ _ f (flatten_idx false ch size) (gather (flatten_idx false ch size)) (fun t => t) ts Hn Hd Hi) as (r & E & V); auto.
    rewrite E. cbn [bind]. eexists. split; [reflexivity|]. exact V.
Qed.

Lemma reshape_sound : forall sp m S f ts,
  (0 < sp_n sp)%nat -> dom_ok (sp_dom sp) (sp_mode sp) -> op_sp sp S m f ts ->
  exists out, decomon_reshape sp ts = Ok out /\ op_sp sp S m f out.
Proof.
  intros sp m S f ts Hn Hd Hv. unfold decomon_reshape.
  destruct (move_layer sp S m m f (fun j => j) (fun t => t) (fun t => t) ts Hn Hd) as (r & E & V); auto.
  rewrite E. cbn [bind]. eexists. split; [reflexivity|]. exact V.
Qed.

(** ** transposition *)
Lemma index_of_nth : forall l a, In a l -> (index_of a l < length l)%nat /\ nth (index_of a l) l O = a.
Proof.
  induction l as [|b l IH]; intros a H; [destruct H|]. cbn [index_of].
  destruct (Nat.eqb_spec a b) as [->|Hne]; cbn [length nth]; [split; [lia|auto]|].
  destruct H as [->|H]; [congruence|]. destruct (IH a H). split; [lia|auto].
Qed.

Lemma nth_index_of : forall l k, NoDup l -> (k < length l)%nat -> index_of (nth k l O) l = k.
Proof.
  induction l as [|b l IH]; intros k H Hk; [cbn in Hk; lia|]. inversion H; subst.
  destruct k as [|k]; cbn [nth index_of].
  - rewrite Nat.eqb_refl. auto.
  - cbn [length] in Hk. destruct (Nat.eqb_spec (nth k l O) b) as [E|E].
    + exfalso. apply H2. rewrite <- E. apply nth_In. lia.
    + rewrite IH by (auto; lia). auto.
Qed.

Lemma map_nth_seq : forall (l : list nat), map (fun a => nth a l O) (seq 0 (length l)) = l.
Proof.
  induction l as [|a l IH]; auto. cbn [length seq map nth]. f_equal.
  rewrite <- seq_shift, map_map. exact IH.
Qed.

Lemma perm_in : forall perm r a, Permutation perm (seq 0 r) -> (In a perm <-> (a < r)%nat).
Proof.
  intros perm r a H. split; intros K.
  - apply (Permutation_in _ H) in K. apply in_seq in K. lia.
  - apply (Permutation_in _ (Permutation_sym H)). apply in_seq. lia.
Qed.

Lemma nth_permuted : forall perm p k, (k < length perm)%nat -> nth k (permuted perm p) O = nth (nth k perm O) p O.
Proof.
  intros perm p k H. unfold permuted. rewrite (nth_indep _ O ((fun a => nth a p O) O)) by (rewrite map_length; auto).
  apply (map_nth (fun a => nth a p O)).
Qed.

Lemma in_shape_nth : forall s p, in_shape s p <-> length s = length p /\ forall a, (a < length s)%nat -> (nth a p O < nth a s O)%nat.
Proof.
  intros s p. split.
  - intros H. induction H as [|k i s p Hk H IH]; [split; auto; intros a Ha; cbn in Ha; lia|].
    destruct IH as [IH1 IH2]. split; [cbn; lia|]. intros [|a] Ha; cbn [nth]; auto. apply IH2. cbn [length] in Ha. lia.
  - revert p. induction s as [|k s IH]; intros [|i p] [H1 H2]; cbn in H1; try lia; [constructor|].
    constructor.
    + apply (H2 O). cbn; lia.
    + apply IH. split; [lia|]. intros a Ha. apply (H2 (S a)). cbn; lia.
Qed.

Lemma in_shape_permuted : forall perm s p, Permutation perm (seq 0 (length s)) -> in_shape s p ->
  in_shape (permuted perm s) (permuted perm p).
Proof.
  intros perm s p HP H. apply in_shape_nth in H. destruct H as [H1 H2]. apply in_shape_nth.
  unfold permuted at 1 2 3. rewrite !map_length. split; auto.
  intros a Ha. rewrite !nth_permuted by auto. apply H2. apply (perm_in perm _ _ HP). apply nth_In. auto.
Qed.

Definition unperm (perm q : list nat) (r : nat) : list nat := map (fun a => nth (index_of a perm) q O) (seq 0 r).

Lemma unperm_permuted : forall perm p, Permutation perm (seq 0 (length p)) -> unperm perm (permuted perm p) (length p) = p.
Proof.
  intros perm p HP. unfold unperm. transitivity (map (fun a => nth a p O) (seq 0 (length p))); [|apply map_nth_seq]. apply map_ext_in.
  intros a Ha. apply in_seq in Ha. destruct (index_of_nth perm a) as [I1 I2]; [apply (perm_in perm _ _ HP); lia|].
  rewrite nth_permuted by auto. rewrite I2. auto.
Qed.

Lemma permuted_unperm : forall perm q r, Permutation perm (seq 0 r) -> length q = r -> permuted perm (unperm perm q r) = q.
Proof.
  intros perm q r HP Hq.
  assert (Hl : length perm = r) by (rewrite (Permutation_length HP), seq_length; auto).
  assert (Nd : NoDup perm) by (apply (Permutation_NoDup (Permutation_sym HP)), seq_NoDup).
  apply (nth_ext _ _ O O).
  - unfold permuted. rewrite map_length. lia.
  - unfold permuted at 1. rewrite map_length. intros k Hk. rewrite nth_permuted by auto.
    assert (Ha : (nth k perm O < r)%nat) by (apply (perm_in perm _ _ HP), nth_In; auto).
    unfold unperm. rewrite (nth_indep _ O ((fun a => nth (index_of a perm) q O) O)) by (rewrite map_length, seq_length; auto).
    rewrite (map_nth (fun a => nth (index_of a perm) q O)). rewrite seq_nth by auto. cbn [Nat.add].
    rewrite nth_index_of by auto. auto.
Qed.

Lemma unperm_in_shape : forall perm s q, Permutation perm (seq 0 (length s)) -> in_shape (permuted perm s) q ->
  in_shape s (unperm perm q (length s)).
Proof.
  intros perm s q HP H. apply in_shape_nth in H. destruct H as [H1 H2]. apply in_shape_nth.
  unfold permuted in H1, H2. rewrite map_length in H1, H2.
  unfold unperm. rewrite map_length, seq_length. split; auto. intros a Ha.
  rewrite (nth_indep _ O ((fun a => nth (index_of a perm) q O) O)) by (rewrite map_length, seq_length; auto).
  rewrite (map_nth (fun a => nth (index_of a perm) q O)). rewrite seq_nth by auto. cbn [Nat.add].
  destruct (index_of_nth perm a) as [I1 I2]; [apply (perm_in perm _ _ HP); lia|].
  specialize (H2 _ I1). fold (permuted perm s) in H2. rewrite nth_permuted in H2 by auto. rewrite I2 in H2. auto.
Qed.

Lemma prodn_perm : forall s s', Permutation s s' -> prodn s = prodn s'.
Proof. intros s s' H. induction H; cbn [prodn]; try lia. Qed.

Lemma prodn_permuted : forall perm s, Permutation perm (seq 0 (length s)) -> prodn (permuted perm s) = prodn s.
Proof.
  intros perm s H. rewrite <- (map_nth_seq s) at 2. apply prodn_perm. unfold permuted. apply Permutation_map. auto.
Qed.

(** the entry p of the block is read at the permuted multi-index *)
Lemma transpose_at : forall perm s p, Permutation perm (seq 0 (length s)) -> in_shape s p ->
  transpose_idx s perm (ravel (permuted perm s) (permuted perm p)) = ravel s p.
Proof.
  intros perm s p HP H. unfold transpose_idx. rewrite unravel_ravel by (apply in_shape_permuted; auto).
  pose proof (in_shape_length _ _ H) as El. rewrite El. fold (unperm perm (permuted perm p) (length p)).
  rewrite unperm_permuted; auto. rewrite <- El. auto.
Qed.

Lemma transpose_split : forall perm s j, Permutation perm (seq 0 (length s)) -> (j < prodn (permuted perm s))%nat ->
  exists p, in_shape s p /\ j = ravel (permuted perm s) (permuted perm p).
Proof.
  intros perm s j HP Hj. destruct (unravel_spec _ _ Hj) as [I E].
  exists (unperm perm (unravel (permuted perm s) j) (length s)). split; [apply unperm_in_shape; auto|].
  rewrite permuted_unperm; auto. pose proof (in_shape_length _ _ I) as El. rewrite <- El.
  unfold permuted. rewrite map_length. rewrite (Permutation_length HP), seq_length. auto.
Qed.

Lemma transpose_lt : forall perm s j, Permutation perm (seq 0 (length s)) -> (j < prodn (permuted perm s))%nat ->
  (transpose_idx s perm j < prodn s)%nat.
Proof.
  intros perm s j HP Hj. destruct (transpose_split perm s j HP Hj) as (p & I & ->).
  rewrite transpose_at by auto. apply ravel_lt; auto.
Qed.

(** g is f with its axes permuted *)
Definition permutes (perm s : list nat) (f g : vec -> vec) : Prop :=
  forall z p, in_shape s p -> g z (ravel (permuted perm s) (permuted perm p)) = f z (ravel s p).

Lemma permute_sound : forall sp s dims S f g ts,
  (0 < sp_n sp)%nat -> dom_ok (sp_dom sp) (sp_mode sp) ->
  Permutation dims (seq 1 (length s)) -> permutes (map pred dims) s f g ->
  op_sp sp S (prodn s) f ts ->
  exists out, decomon_permute sp s dims ts = Ok out /\
    op_sp sp S (prodn (permuted (map pred dims) s)) g out.
Proof.
  intros sp s dims S f g ts Hn Hd HP Hg Hv.
  assert (HP' : Permutation (map pred dims) (seq 0 (length s))).
  { apply (Permutation_map pred) in HP. rewrite <- seq_shift, map_map in HP. cbn in HP. rewrite map_id in HP. auto. }
  unfold decomon_permute.
  destruct (move_layer sp S (prodn s) (prodn (permuted (map pred dims) s)) f (transpose_idx s (map pred dims))
    (gather (transpose_idx s (map pred dims))) (gather (transpose_idx s (map pred dims))) ts Hn Hd) as (r & E & V); auto.
  { intros j Hj. apply transpose_lt; auto. }
  rewrite E. cbn [bind]. eexists. split; [reflexivity|].
  eapply op_sp_ext; [|exact V]. intros z j _ Hj. cbv beta.
  destruct (transpose_split _ s j HP' Hj) as (p & I & ->). rewrite transpose_at by auto. symmetry. apply Hg; auto.
Qed.

(** ** concatenation *)
Lemma locate_offset : forall ks t c, (c < nth t ks O)%nat -> locate ks (offset ks t + c) = (t, c).
Proof.
  induction ks as [|k ks IH]; intros t c H; [destruct t; cbn in H; lia|].
  destruct t as [|t]; cbn [nth] in H.
  - cbn [offset firstn fold_right locate]. cbn [Nat.add]. destruct (Nat.ltb_spec c k); auto. lia.
  - unfold offset in *. cbn [firstn fold_right locate].
    destruct (Nat.ltb_spec (k + fold_right Nat.add O (firstn t ks) + c) k); [lia|].
    replace (k + fold_right Nat.add O (firstn t ks) + c - k)%nat with (fold_right Nat.add O (firstn t ks) + c)%nat by lia.
    rewrite IH by auto. auto.
Qed.

Lemma locate_split : forall ks c, (c < total ks)%nat -> exists t c', (t < length ks)%nat /\ (c' < nth t ks O)%nat /\ c = (offset ks t + c')%nat.
Proof.
  induction ks as [|k ks IH]; intros c H; [cbn in H; lia|]. cbn [total fold_right] in H.
  destruct (Nat.ltb_spec c k) as [L|L].
  - exists O, c. cbn. repeat split; auto; lia.
  - destruct (IH (c - k)%nat) as (t & c' & H1 & H2 & H3); [unfold total; lia|].
    exists (S t), c'. cbn [length nth]. repeat split; auto; [lia|]. unfold offset in *. cbn [firstn fold_right]. lia.
Qed.

Lemma offset_lt : forall ks t c, (t < length ks)%nat -> (c < nth t ks O)%nat -> (offset ks t + c < total ks)%nat.
Proof.
  induction ks as [|k ks IH]; intros t c H1 H2; [cbn in H1; lia|]. destruct t as [|t]; cbn [nth length] in *.
  - cbn. lia.
  - unfold offset, total in *. cbn [firstn fold_right]. specialize (IH t c ltac:(lia) H2). lia.
Qed.

Lemma cat_at : forall pre post ks ts i t p c q, in_shape pre p -> in_shape post q -> (t < length ks)%nat -> (c < nth t ks O)%nat ->
  cat_t ks (prodn post) ts i (ravel (pre ++ total ks :: post) (p ++ (offset ks t + c)%nat :: q)) =
  nth t ts empty_tensor i (ravel (pre ++ nth t ks O :: post) (p ++ c :: q)).
Proof.
  intros pre post ks ts i t p c q Ip Iq Ht Hc. unfold cat_t.
  rewrite !ravel_flat by auto. pose proof (ravel_lt _ _ Iq) as Lq. pose proof (offset_lt ks t c Ht Hc) as Lo. cbv zeta.
  assert (E1 : (flat (total ks) (prodn post) (ravel pre p) (offset ks t + c) (ravel post q) / prodn post = ravel pre p * total ks + (offset ks t + c))%nat)
    by (apply flat_div; auto).
  assert (E2 : (flat (total ks) (prodn post) (ravel pre p) (offset ks t + c) (ravel post q) mod prodn post = ravel post q)%nat)
    by (apply flat_mod; auto).
  rewrite E1, E2. rewrite flat_div, flat_mod by auto. rewrite locate_offset by auto. reflexivity.
Qed.

(** the shapes differ only along the axis *)
Definition cat_shapes (pre post ks : list nat) : list (list nat) := map (fun k => pre ++ k :: post) ks.

Lemma cat_lens_mid : forall pre post ks, cat_lens (cat_shapes pre post ks) (length pre) = ks.
Proof.
  intros. unfold cat_lens, cat_shapes. rewrite map_map. rewrite (map_ext _ (fun k => k)); [apply map_id|].
  intros. apply ax_len_mid.
Qed.

Lemma concatenate_sound : forall sp pre post ks axis S fs g ls,
  (0 < sp_n sp)%nat -> dom_ok (sp_dom sp) (sp_mode sp) -> sp_dc sp = false -> axis_ok (sp_mode sp) pre post axis ->
  ks <> [] -> length ks = length fs -> length ls = length fs ->
  (forall t f l, nth_error fs t = Some f -> nth_error ls t = Some l -> op_sp sp S (prodn (pre ++ nth t ks O :: post)) f l) ->
  concatenated pre post ks fs g ->
  exists out, decomon_concatenate sp (cat_shapes pre post ks) axis (concat ls) = Ok out /\
    op_sp sp S (prodn (pre ++ total ks :: post)) g out.
Proof.
  intros sp pre post ks axis S fs g ls Hn Hd Hdc Hax Hne Hk Hl Hv Hg.
  destruct (by_type_sound sp S (fun t => prodn (pre ++ nth t ks O :: post)) (fun t => nth t fs f_dflt) ls Hn Hd) as (R & ER & L1 & L2 & L3 & V).
  { intros t l El. assert (Ht : (t < length fs)%nat) by (rewrite <- Hl; apply nth_error_Some; congruence).
    apply (Hv t); auto. apply nth_error_nth'. auto. }
  unfold decomon_concatenate. rewrite ER. cbn [bind].
  destruct ks as [|k0 ks']; [congruence|]. set (ks := k0 :: ks') in *.
  assert (E0 : nth 0 (cat_shapes pre post ks) [] = pre ++ k0 :: post) by reflexivity.
  rewrite E0. rewrite (axis_ok_b _ pre k0 post axis Hax). cbn [bind].
  assert (Lls : (0 < length ls)%nat) by (rewrite Hl, <- Hk; cbn; lia).
  assert (D : sp_mode sp = IBP \/ get_affine (sp_mode sp) = true) by (destruct (sp_mode sp); auto).
  assert (Eaw : exists aw, (if get_affine (sp_mode sp) then w_axis (pre ++ k0 :: post) (shift_axis axis) else Ok 0%nat) = Ok aw /\
     (get_affine (sp_mode sp) = true -> aw = length pre)).
  { destruct D as [D|D].
    - rewrite D. exists O. split; auto. intros K; discriminate K.
    - rewrite D. rewrite (axis_ok_w _ pre k0 post axis Hax D). eauto. }
  destruct Eaw as (aw & Eaw & Haw). rewrite Eaw. cbn [bind].
  apply finish_sound; auto.
  rewrite cat_lens_mid, ax_inner_mid.
  assert (Split : forall j, (j < prodn (pre ++ total ks :: post))%nat -> exists t p c q f,
    nth_error fs t = Some f /\ (t < length ls)%nat /\ (t < length ks)%nat /\ nth t fs f_dflt = f /\ in_shape pre p /\ in_shape post q /\ (c < nth t ks O)%nat /\
    j = ravel (pre ++ total ks :: post) (p ++ (offset ks t + c)%nat :: q) /\
    (ravel (pre ++ nth t ks O :: post) (p ++ c :: q) < prodn (pre ++ nth t ks O :: post))%nat).
  { intros j Hj. destruct (position_split_mid _ _ _ _ Hj) as (p & c0 & q & Ip & Hc & Iq & ->).
    destruct (locate_split ks c0 Hc) as (t & c & Ht & Hc' & ->).
    exists t, p, c, q, (nth t fs f_dflt). repeat split; auto; try lia.
    - apply nth_error_nth'. lia.
    - apply position_mid_lt; auto. }
  split.
  - intros Hi. rewrite Hi. cbn [when f_uc f_lc]. destruct (L2 Hi) as [Lu Ll].
    intros z j Hz Hj. destruct (Split j Hj) as (t & p & c & q & f & Ef & Ht & Htk & Enf & Ip & Iq & Hc & -> & Hlt).
    rewrite (cat_at pre post ks (f_uc R)), (cat_at pre post ks (f_lc R)) by auto. rewrite (Hg z t p c q f) by auto.
    destruct (V t Ht) as [C _]. rewrite Enf in C. apply (C Hi z _ Hz Hlt).
  - intros Ha. rewrite Ha. cbn [when f_x f_wu f_bu f_wl f_bl]. rewrite (Haw Ha). rewrite cat_lens_mid, ax_inner_mid.
    destruct (V 0%nat Lls) as [_ A0]. destruct (A0 Ha) as [X0 _]. split; [exact X0|].
    intros z j Hz Hj. destruct (Split j Hj) as (t & p & c & q & f & Ef & Ht & Htk & Enf & Ip & Iq & Hc & -> & Hlt).
    rewrite (Hg z t p c q f) by auto.
    destruct (V t Ht) as [_ A]. rewrite Enf in A. destruct (A Ha) as [_ B]. specialize (B z _ Hz Hlt).
    unfold aff in B |- *. rewrite !(cat_at pre post ks) by auto.
    rewrite (dot_ext _ (fun i => cat_t ks (prodn post) (f_wl R) i (ravel (pre ++ total ks :: post) (p ++ (offset ks t + c)%nat :: q)))
      (fun i => nth t (f_wl R) empty_tensor i (ravel (pre ++ nth t ks O :: post) (p ++ c :: q))) z z)
      by (intros; auto; apply cat_at; auto).
    rewrite (dot_ext _ (fun i => cat_t ks (prodn post) (f_wu R) i (ravel (pre ++ total ks :: post) (p ++ (offset ks t + c)%nat :: q)))
      (fun i => nth t (f_wu R) empty_tensor i (ravel (pre ++ nth t ks O :: post) (p ++ c :: q))) z z)
      by (intros; auto; apply cat_at; auto).
    exact B.
Qed.

(** ** dot product *)

(** the axes accepted by permute_dimensions: any negative one, the positive one when no weight is
    involved, and any on a block of one axis, which is returned as it is *)
Definition dot_axis_ok (mode : fmode) (pre post : list nat) (axis : Z) : Prop :=
  axis = neg_axis post \/ (mode = IBP /\ axis = pos_axis pre) \/ (pre = [] /\ post = []).

Definition front (a b : nat) : list nat := a :: seq 0 a ++ seq (S a) b.

Lemma delete_mid : forall (A : Type) (l1 l2 : list A) x, delete_nth (length l1) (l1 ++ x :: l2) = l1 ++ l2.
Proof.
  intros. unfold delete_nth. f_equal.
  - rewrite firstn_app, Nat.sub_diag, firstn_all, firstn_O, app_nil_r. auto.
  - rewrite skipn_app. rewrite skipn_all2 by lia. replace (S (length l1) - length l1)%nat with 1%nat by lia. auto.
Qed.

Lemma delete_seq : forall a b, delete_nth a (seq 0 (a + S b)) = seq 0 a ++ seq (S a) b.
Proof.
  intros. rewrite seq_app. cbn [seq Nat.add]. pose proof (delete_mid nat (seq 0 a) (seq (S a) b) a) as H.
  rewrite seq_length in H. exact H.
Qed.

Lemma map_pred_seq : forall a b, map pred (seq (S a) b) = seq a b.
Proof. intros. rewrite <- seq_shift, map_map. cbn. apply map_id. Qed.

Lemma move_axis_block : forall a b r axis, r = (a + 1 + b)%nat -> norm_axis (r + 1) axis = Ok (S a) ->
  bind (move_axis (r + 1) 1 axis) drop_batch = Ok (front a b).
Proof.
  intros a b r axis -> H. unfold move_axis. rewrite H. cbn [bind].
  replace (a + 1 + b + 1)%nat with (S a + S b)%nat by lia. rewrite delete_seq. cbn [seq insert_nth firstn skipn app].
  unfold insert_nth. cbn [firstn skipn app drop_batch map pred]. f_equal. unfold front. f_equal.
  rewrite map_app, !map_pred_seq. auto.
Qed.

Lemma move_axis_weight : forall a b r axis, r = (a + 1 + b)%nat -> norm_axis (r + 2) axis = Ok (S (S a)) ->
  bind (move_axis (r + 2) 2 axis) drop_batch = Ok (0%nat :: map S (front a b)).
Proof.
  intros a b r axis -> H. unfold move_axis. rewrite H. cbn [bind].
  replace (a + 1 + b + 2)%nat with (S (S a) + S b)%nat by lia. rewrite delete_seq. cbn [seq].
  unfold insert_nth. cbn [firstn skipn app drop_batch map pred]. f_equal. unfold front. f_equal. cbn [map]. f_equal.
  rewrite !map_app, !map_pred_seq, !seq_shift. auto.
Qed.

(** whatever the axis, the batch axis of the weights stays first *)
Lemma move_axis_weight_any : forall a r axis, (S a < r + 2)%nat -> norm_axis (r + 2) axis = Ok (S a) ->
  exists p, bind (move_axis (r + 2) 2 axis) drop_batch = Ok p.
Proof.
  intros a r axis Hr H. unfold move_axis. rewrite H. cbn [bind].
  replace (r + 2)%nat with (S a + S (r - a))%nat by lia. rewrite delete_seq. cbn [seq app]. unfold insert_nth.
  cbn [firstn app drop_batch]. eauto.
Qed.

Lemma front_perm : forall a b, Permutation (front a b) (seq 0 (a + 1 + b)).
Proof.
  intros. unfold front. replace (a + 1 + b)%nat with (a + S b)%nat by lia. rewrite seq_app. cbn [seq Nat.add].
  apply Permutation_middle.
Qed.

Lemma permuted_front : forall p c q, permuted (front (length p) (length q)) (p ++ c :: q) = c :: p ++ q.
Proof.
  intros. unfold permuted, front. cbn [map]. f_equal; [apply nth_middle|]. rewrite map_app. f_equal.
  - transitivity (map (fun a => nth a p O) (seq 0 (length p))); [|apply map_nth_seq]. apply map_ext_in. intros a Ha. apply in_seq in Ha. apply app_nth1. lia.
  - transitivity (map (fun a => nth a q O) (seq 0 (length q))); [|apply map_nth_seq].
    assert (E : forall k b, seq (k + b) (length q) = map (fun a => (k + a)%nat) (seq b (length q))).
    { intros k b. revert b. generalize (length q). induction n; intros; cbn; auto. f_equal. replace (S (k + b))%nat with (k + S b)%nat by lia. apply IHn. }
    replace (S (length p)) with (S (length p) + 0)%nat by lia. rewrite E, map_map. apply map_ext. intros a.
    rewrite app_nth2 by lia. replace (S (length p) + a - length p)%nat with (S a) by lia. reflexivity.
Qed.

Lemma permuted_cons : forall perm n s, permuted (0%nat :: map S perm) (n :: s) = n :: permuted perm s.
Proof. intros. unfold permuted. cbn [map nth]. f_equal. rewrite map_map. apply map_ext. auto. Qed.

Lemma transpose_w_at : forall n s perm t i j, Permutation perm (seq 0 (length s)) -> (i < n)%nat -> (j < prodn (permuted perm s))%nat ->
  transpose_w n s (0%nat :: map S perm) t i j = t i (transpose_idx s perm j).
Proof.
  intros n s perm t i j HP Hi Hj. unfold transpose_w. cbv zeta. rewrite permuted_cons. cbn [tl].
  destruct (transpose_split perm s j HP Hj) as (p & I & ->). rewrite transpose_at by auto.
  assert (HP' : Permutation (0%nat :: map S perm) (seq 0 (length (n :: s)))).
  { cbn [length seq]. constructor. rewrite <- seq_shift. apply Permutation_map. auto. }
  pose proof (transpose_at _ (n :: s) (i :: p) HP' ltac:(constructor; auto)) as T.
  rewrite !permuted_cons in T. cbn [ravel] in T. rewrite T. pose proof (ravel_lt _ _ I) as L.
  rewrite flat_div, flat_mod by auto. auto.
Qed.

Lemma finish_dom : forall sp D F, finish (mk_spec (sp_dc sp) (sp_mode sp) D (sp_n sp)) F = finish sp F.
Proof. reflexivity. Qed.

Lemma permute_dim_sound : forall sp pre k post axis S f ts,
  sp_dc sp = false -> dot_axis_ok (sp_mode sp) pre post axis ->
  op_sp sp S (prodn (pre ++ k :: post)) f ts ->
  let s := pre ++ k :: post in
  exists out idx, permute_dimensions (mk_spec (sp_dc sp) (sp_mode sp) Box (sp_n sp)) s axis ts = Ok out /\
    permuted_shape s axis = Ok (k :: pre ++ post) /\
    (exists tw, permuted_shape_w (sp_n sp) s axis = Ok tw /\ (get_affine (sp_mode sp) = true -> tw = sp_n sp :: k :: pre ++ post)) /\
    (forall p c q, in_shape pre p -> (c < k)%nat -> in_shape post q ->
       idx (ravel (k :: pre ++ post) (c :: p ++ q)) = ravel s (p ++ c :: q)) /\
    op_sp sp S (prodn (k :: pre ++ post)) (fun z j => f z (idx j)) out.
Proof.
  intros sp pre k post axis S f ts Hdc Hax Hv s.
  destruct (get_full_raw (mk_spec (sp_dc sp) (sp_mode sp) Box (sp_n sp)) (sp_dom sp) S _ f ts Hv) as (r & E & V).
  unfold permute_dimensions, permuted_shape, permuted_shape_w. rewrite E. cbn [bind].
  destruct (Nat.leb_spec (length s) 1) as [Ls|Ls].
  { assert (pre = [] /\ post = []) as [-> ->].
    { unfold s in Ls. rewrite app_length in Ls. cbn [length] in Ls. destruct pre; cbn [length] in Ls; [|lia]. destruct post; cbn [length] in Ls; [auto|lia]. }
    exists ts, (fun j => j). repeat split; auto; try apply Hv.
    - eexists. split; [reflexivity|]. auto.
    - intros p c q Ip Hc Iq. inversion Ip; inversion Iq; subst. reflexivity. }
  assert (Lr : length s = (length pre + 1 + length post)%nat) by (unfold s; rewrite app_length; cbn [length]; lia).
  assert (Nb : norm_axis (length s + 1) axis = Ok (Datatypes.S (length pre))).
  { destruct Hax as [-> | [[_ ->] | [-> ->]]].
    - unfold neg_axis. replace (-1 - Z.of_nat (length post))%Z with (Z.of_nat (Datatypes.S (length pre)) - Z.of_nat (length s + 1))%Z by lia.
      apply norm_axis_neg. lia.
    - apply norm_axis_pos. lia.
    - cbn [length] in Lr. lia. }
  assert (Nw : (axis = neg_axis post /\ norm_axis (length s + 2) axis = Ok (Datatypes.S (Datatypes.S (length pre)))) \/
      (sp_mode sp = IBP /\ norm_axis (length s + 2) axis = Ok (Datatypes.S (length pre)))).
  { destruct Hax as [-> | [[M ->] | [-> ->]]].
    - left. split; auto. unfold neg_axis. replace (-1 - Z.of_nat (length post))%Z with (Z.of_nat (Datatypes.S (Datatypes.S (length pre))) - Z.of_nat (length s + 2))%Z by lia.
      apply norm_axis_neg. lia.
    - right. split; auto. apply norm_axis_pos. lia.
    - cbn [length] in Lr. lia. }
  pose proof (move_axis_block _ _ _ axis Lr Nb) as B.
  destruct (move_axis (length s + 1) 1 axis) as [ib|e]; [|discriminate B]. cbn [bind] in B |- *. rewrite B. cbn [bind].
  assert (Eps : permuted (front (length pre) (length post)) s = k :: pre ++ post) by apply permuted_front.
  assert (HP : Permutation (front (length pre) (length post)) (seq 0 (length s))) by (rewrite Lr; apply front_perm).
  assert (W : exists pw, bind (move_axis (length s + 2) 2 axis) drop_batch = Ok pw /\ (sp_mode sp = IBP \/ pw = 0%nat :: map Datatypes.S (front (length pre) (length post)))).
  { destruct Nw as [[_ Nw]|[M Nw]].
    - eexists. split; [apply (move_axis_weight _ _ _ axis Lr Nw)|]. auto.
    - destruct (move_axis_weight_any (length pre) (length s) axis) as [p Ep]; auto; [lia|]. eauto. }
  destruct W as (pw & W & Hpw).
  destruct (move_axis (length s + 2) 2 axis) as [iw|e]; [|discriminate W]. cbn [bind] in W |- *. rewrite W. cbn [bind].
  rewrite Eps. rewrite finish_dom.
  pose (idx := transpose_idx s (front (length pre) (length post))).
  assert (Hidx : forall p c q, in_shape pre p -> (c < k)%nat -> in_shape post q ->
       idx (ravel (k :: pre ++ post) (c :: p ++ q)) = ravel s (p ++ c :: q)).
  { intros p c q Ip Hc Iq. unfold idx. rewrite <- Eps. rewrite <- (permuted_front p c q).
    rewrite <- (in_shape_length _ _ Ip), <- (in_shape_length _ _ Iq). apply transpose_at; auto.
    apply Forall2_app; auto. }
  assert (Hlt : forall j, (j < prodn (k :: pre ++ post))%nat -> (idx j < prodn s)%nat).
  { intros j Hj. apply transpose_lt; auto. rewrite Eps. auto. }
  assert (Fin : exists out, finish sp (move_full (mk_spec (sp_dc sp) (sp_mode sp) Box (sp_n sp)) (gather (transpose_idx s (front (length pre) (length post)))) (transpose_w (sp_n sp) s pw) r) = Ok out /\
     op_sp sp S (prodn (k :: pre ++ post)) (fun z j => f z (idx j)) out).
  { apply finish_sound; auto. destruct Hpw as [M | ->].
    - destruct V as [C A]. unfold move_full. cbn [sp_mode] in C |- *. rewrite M in *. split; [|intros K; discriminate K].
      intros _. cbn [get_ibp when f_uc f_lc]. intros z j Hz Hj. unfold gather. apply C; auto.
    - refine (move_sound (mk_spec (sp_dc sp) (sp_mode sp) Box (sp_n sp)) (sp_dom sp) S (prodn s) _ f idx _ _ r Hlt _ _ V).
      + intros. reflexivity.
      + intros t i j Hi Hj. apply transpose_w_at; auto. rewrite Eps. auto. }
  destruct Fin as (out & Ef & Vf). cbn [sp_n] in Ef |- *. exists out, idx. rewrite Ef. split; auto. split; auto. split; auto.
  eexists. split; [reflexivity|]. intros Ha. destruct Hpw as [M | ->]; [rewrite M in Ha; discriminate|].
  rewrite permuted_cons, Eps. auto.
Qed.

Lemma broadcast_sound : forall sp S m mo f idx ts,
  sp_dc sp = false -> (forall j, (j < mo)%nat -> (idx j < m)%nat) -> op_sp sp S m f ts ->
  exists out, broadcast sp idx ts = Ok out /\ op_sp sp S mo (fun z j => f z (idx j)) out.
Proof.
  intros sp S m mo f idx ts Hdc Hi Hv. destruct (get_full_raw sp (sp_dom sp) S m f ts Hv) as (r & E & V).
  unfold broadcast. rewrite E. cbn [bind]. rewrite Hdc. eexists. split; [reflexivity|]. rewrite <- Hdc.
  apply vfull_valid. eapply move_sound; eauto.
Qed.

Lemma dot_idx0_at : forall n0 n1 c a b, (b < n1)%nat -> dot_idx0 n0 n1 ((c * (n0 * n1)) + (a * n1 + b)) = (c * n0 + a)%nat.
Proof.
  intros. unfold dot_idx0. replace (c * (n0 * n1) + (a * n1 + b))%nat with ((c * n0 + a) * n1 + b)%nat by lia.
  apply flat_div; auto.
Qed.

Lemma dot_idx1_at : forall n0 n1 c a b, (a < n0)%nat -> (b < n1)%nat ->
  dot_idx1 n0 n1 ((c * (n0 * n1)) + (a * n1 + b)) = (c * n1 + b)%nat.
Proof.
  intros. unfold dot_idx1. rewrite flat_div by nia.
  replace (c * (n0 * n1) + (a * n1 + b))%nat with ((c * n0 + a) * n1 + b)%nat by lia.
  rewrite flat_mod by auto. auto.
Qed.

Lemma dot_split : forall k n0 n1 j, (j < k * (n0 * n1))%nat -> exists c a b, (c < k)%nat /\ (a < n0)%nat /\ (b < n1)%nat /\
  j = (c * (n0 * n1) + (a * n1 + b))%nat.
Proof.
  intros k n0 n1 j Hj.
  assert (Hn : (n0 * n1 <> 0)%nat) by (intro K; rewrite K in Hj; lia).
  assert (H1 : (n1 <> 0)%nat) by lia.
  pose proof (Nat.div_mod j (n0 * n1) Hn) as E. pose proof (Nat.mod_upper_bound j (n0 * n1) Hn) as L.
  pose proof (Nat.div_mod (j mod (n0 * n1)) n1 H1) as E'. pose proof (Nat.mod_upper_bound (j mod (n0 * n1)) n1 H1) as L'.
  exists (j / (n0 * n1))%nat, (j mod (n0 * n1) / n1)%nat, (j mod (n0 * n1) mod n1)%nat.
  repeat split; auto.
  - apply Nat.div_lt_upper_bound; auto. lia.
  - apply Nat.div_lt_upper_bound; auto. lia.
  - rewrite (Nat.mul_comm (j mod (n0 * n1) / n1) n1). rewrite <- E'. lia.
Qed.

Lemma dot_sound : forall sp pre0 post0 pre1 post1 k axis0 axis1 S f0 f1 g in0 in1,
  (0 < sp_n sp)%nat -> dom_ok (sp_dom sp) (sp_mode sp) -> sp_dc sp = false ->
  dot_axis_ok (sp_mode sp) pre0 post0 axis0 -> dot_axis_ok (sp_mode sp) pre1 post1 axis1 ->
  op_sp sp S (prodn (pre0 ++ k :: post0)) f0 in0 -> op_sp sp S (prodn (pre1 ++ k :: post1)) f1 in1 ->
  dotted pre0 post0 pre1 post1 k f0 f1 g ->
  exists out, decomon_dot sp (pre0 ++ k :: post0) (pre1 ++ k :: post1) axis0 axis1 (in0 ++ in1) = Ok out /\
    op_sp sp S (prodn ((pre0 ++ post0) ++ pre1 ++ post1)) g out.
Proof.
  intros sp pre0 post0 pre1 post1 k axis0 axis1 S f0 f1 g in0 in1 Hn Hd Hdc Ha0 Ha1 V0 V1 Hg.
  destruct (permute_dim_sound sp pre0 k post0 axis0 S f0 in0 Hdc Ha0 V0) as (p0 & i0 & E0 & T0 & (tw0 & W0 & HW0) & I0 & P0).
  destruct (permute_dim_sound sp pre1 k post1 axis1 S f1 in1 Hdc Ha1 V1) as (p1 & i1 & E1 & T1 & (tw1 & W1 & HW1) & I1 & P1).
  unfold decomon_dot. assert (Hif : forall (A : Type) (a b : A), (if sp_dc sp then a else b) = b) by (intros; rewrite Hdc; auto). rewrite Hif. clear Hif.
  assert (Sp : split_to_merge (nb_tensors (sp_mode sp) (sp_dc sp)) (in0 ++ in1) = [in0; in1]).
  { replace (in0 ++ in1) with (concat [in0; in1]) by (cbn; rewrite app_nil_r; auto).
    rewrite nb_tensors_spec. apply split_to_merge_concat.
    - destruct (sp_mode sp), (sp_dc sp); cbn; lia.
    - intros l [<-|[<-|[]]]; [apply V0 | apply V1]. }
  rewrite Sp. cbv zeta. rewrite E0, E1, T0, T1, W0, W1. cbn [bind tl hd].
  assert (Chk : (get_affine (sp_mode sp) && negb (shape_eqb tw0 (sp_n sp :: k :: pre0 ++ post0) && shape_eqb tw1 (sp_n sp :: k :: pre1 ++ post1)))%bool = false).
  { destruct (get_affine (sp_mode sp)) eqn:Ea; auto. rewrite HW0, HW1 by auto. unfold shape_eqb.
    destruct (list_eq_dec Nat.eq_dec _ _); [|congruence]. destruct (list_eq_dec Nat.eq_dec _ _); [auto|congruence]. }
  rewrite Chk. rewrite Nat.eqb_refl. cbn [negb].
  set (n0 := prodn (pre0 ++ post0)) in *. set (n1 := prodn (pre1 ++ post1)) in *.
  assert (Hb0 : forall j, (j < k * (n0 * n1))%nat -> (dot_idx0 n0 n1 j < prodn (k :: pre0 ++ post0))%nat).
  { intros j Hj. destruct (dot_split _ _ _ _ Hj) as (c & a & b & Hc & Ha & Hb & ->). rewrite dot_idx0_at by auto.
    cbn [prodn]. fold n0. nia. }
  assert (Hb1 : forall j, (j < k * (n0 * n1))%nat -> (dot_idx1 n0 n1 j < prodn (k :: pre1 ++ post1))%nat).
  { intros j Hj. destruct (dot_split _ _ _ _ Hj) as (c & a & b & Hc & Ha & Hb & ->). rewrite dot_idx1_at by auto.
    cbn [prodn]. fold n1. nia. }
  destruct (broadcast_sound sp S _ (k * (n0 * n1)) _ (dot_idx0 n0 n1) p0 Hdc Hb0 P0) as (b0 & B0 & VB0).
  destruct (broadcast_sound sp S _ (k * (n0 * n1)) _ (dot_idx1 n0 n1) p1 Hdc Hb1 P1) as (b1 & B1 & VB1).
  rewrite B0, B1. cbn [bind].
  destruct (multiply_sound sp S _ _ _ b0 b1 Hn Hd Hdc VB0 VB1) as (o & M & VM).
  rewrite M. cbn [bind].
  assert (Al : along_axis rsum [] k [(n0 * n1)%nat]
      (fun z j => f0 z (i0 (dot_idx0 n0 n1 j)) * f1 z (i1 (dot_idx1 n0 n1 j))) g).
  { intros z p q Ip Iq. inversion Ip; subst. inversion Iq as [|? q0 ? ql Hq0 Hql]; subst. inversion Hql; subst.
    cbn [app].
    destruct (dot_split 1 n0 n1 q0) as (c0 & a & b & Hc0 & Ha & Hb & Eq); [lia|].
    assert (c0 = 0%nat) by lia. subst c0. cbn [Nat.mul Nat.add] in Eq.
    destruct (position_split pre0 post0 a Ha) as (pa & qa & Ipa & Iqa & Ea).
    destruct (position_split pre1 post1 b Hb) as (pb & qb & Ipb & Iqb & Eb).
    assert (Eg : ravel [(n0 * n1)%nat] [q0] = ravel ((pre0 ++ post0) ++ pre1 ++ post1) ((pa ++ qa) ++ pb ++ qb)).
    { rewrite ravel_app by (apply Forall2_app; auto). rewrite <- Ea, <- Eb. cbn [ravel prodn]. fold n1. lia. }
    rewrite Eg. rewrite Hg by auto. apply rsum_ext. intros c Hc.
    assert (Ec : ravel [k; (n0 * n1)%nat] [c; q0] = (c * (n0 * n1) + (a * n1 + b))%nat) by (cbn [ravel prodn]; lia).
    rewrite Ec. rewrite dot_idx0_at, dot_idx1_at by auto.
    rewrite <- (I0 pa c qa), <- (I1 pb c qb) by auto. cbn [ravel]. rewrite <- Ea, <- Eb. fold n0 n1. reflexivity. }
  destruct (sum_sound sp S [] k [(n0 * n1)%nat] (pos_axis []) _ g o Hn Hd Hdc (or_introl eq_refl) Al) as (out & Es & Vs).
  { eapply op_sp_ext; [|cbn [app prodn]; rewrite Nat.mul_1_r; exact VM]. intros; reflexivity. }
  exists out. split.
  - unfold op_sum in Es. cbn [app] in Es.
    destruct (get_fullinputs sp false true o) as [r|e]; [|discriminate Es]. cbn [bind] in Es |- *.
    destruct (get_affine (sp_mode sp)) eqn:Ea; cbn -[red_axis] in Es; unfold move_full, when in Es |- *; rewrite Ea in *; rewrite Hdc; exact Es.
  - rewrite prodn_app. cbn [app prodn] in Vs. rewrite Nat.mul_1_r in Vs. exact Vs.
Qed.
