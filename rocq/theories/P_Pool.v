(** Proofs about M_Pool: max-pooling, hulls of the maximum, constraints. *)
From Coq Require Import Reals Lra Lia Psatz List Arith Bool ZArith.
From Verif Require Import RLib Spec Spec_Layers M_Core M_Utils M_MergeLayers M_Ops M_Layers M_Pool.
From Verif Require Import P_Core P_Utils P_MergeLayers P_Axis P_Ops P_Sort P_Layers P_Move.
Import ListNotations.
Local Open Scope R_scope.

(** ** filters *)
Lemma filter_index_lt : forall ph pw i j, (ph <= 1 \/ ph <= pw)%nat -> (i < ph)%nat -> (j < pw)%nat ->
  (filter_index ph i j < ph * pw)%nat.
Proof. intros ph pw i j H Hi Hj. unfold filter_index. nia. Qed.

Definition fstep (ph pw : nat) (t : pool_filters) (ij : nat * nat) : result pool_filters :=
  let '(i, j) := ij in
  if filter_index ph i j <? ph * pw then Ok (set_filter t i j (filter_index ph i j)) else Err IndexError.

Lemma pool_fold : forall ph pw l t, (forall i j, In (i, j) l -> (filter_index ph i j < ph * pw)%nat) ->
  exists t', foldR (fstep ph pw) l t = Ok t' /\
    forall i j p, t' i j p = if (existsb (fun ij => Nat.eqb (fst ij) i && Nat.eqb (snd ij) j)%bool l && Nat.eqb p (filter_index ph i j))%bool then 1 else t i j p.
Proof.
  induction l as [|[a b] l IH]; intros t H; [exists t; split; auto|].
  cbn [foldR]. assert (Hab : (filter_index ph a b < ph * pw)%nat) by (apply H; left; auto).
  unfold fstep at 1. rewrite (proj2 (Nat.ltb_lt _ _) Hab). cbn [bind].
  destruct (IH (set_filter t a b (filter_index ph a b))) as (t' & E & P).
  { intros i j Hij. apply H. right; auto. }
  exists t'. split; auto. intros i j p. rewrite P. cbn [existsb fst snd].
  destruct (Nat.eqb_spec a i) as [->|Ha]; destruct (Nat.eqb_spec b j) as [->|Hb]; cbn [andb orb].
  - destruct (Nat.eqb_spec p (filter_index ph i j)) as [->|Hp].
    + unfold set_filter. rewrite !Nat.eqb_refl. cbn [andb]. destruct (existsb _ l); auto.
    + rewrite andb_false_r. unfold set_filter. rewrite !Nat.eqb_refl. cbn [andb].
      destruct (Nat.eqb_spec (filter_index ph i j) p); [congruence|auto].
  - unfold set_filter. destruct (Nat.eqb_spec b j); [congruence|]. rewrite andb_false_r. auto.
  - unfold set_filter. destruct (Nat.eqb_spec a i); [congruence|]. auto.
  - unfold set_filter. destruct (Nat.eqb_spec a i); [congruence|]. auto.
Qed.

Lemma pool_init_ok : forall ph pw, (ph <= 1 \/ ph <= pw)%nat ->
  exists fl, pool_init ph pw = Ok fl /\ forall i j p, (i < ph)%nat -> (j < pw)%nat ->
    fl i j p = if Nat.eqb p (filter_index ph i j) then 1 else 0.
Proof.
  intros ph pw H.
  destruct (pool_fold ph pw (pool_writes ph pw) (fun _ _ _ => 0)) as (fl & E & P).
  { intros i j Hij. unfold pool_writes in Hij. apply in_prod_iff in Hij. destruct Hij as [Hi Hj].
    apply in_seq in Hi. apply in_seq in Hj. apply filter_index_lt; auto; lia. }
  exists fl. split; [exact E|]. intros i j p Hi Hj. rewrite P.
  assert (X : existsb (fun ij : nat * nat => (Nat.eqb (fst ij) i && Nat.eqb (snd ij) j)%bool) (pool_writes ph pw) = true).
  { apply existsb_exists. exists (i, j). split.
    - unfold pool_writes. apply in_prod_iff. split; apply in_seq; lia.
    - cbn. rewrite !Nat.eqb_refl. auto. }
  rewrite X. auto.
Qed.

(** a pool taller than wide cannot be built *)
Lemma fold_err : forall ph pw l t i j, In (i, j) l -> (ph * pw <= filter_index ph i j)%nat ->
  foldR (fstep ph pw) l t = Err IndexError.
Proof.
  induction l as [|[a b] l IH]; intros t i j H Hl; [destruct H|]. cbn [foldR]. unfold fstep at 1.
  destruct (Nat.ltb_spec (filter_index ph a b) (ph * pw)) as [L|L]; [|auto]. cbn [bind].
  destruct H as [E|H]; [injection E; intros; subst; lia|]. eapply IH; eauto.
Qed.
Lemma pool_init_error : forall ph pw, (2 <= ph)%nat -> (1 <= pw)%nat -> (pw < ph)%nat -> pool_init ph pw = Err IndexError.
Proof.
  intros ph pw H1 H2 H3. apply (fold_err ph pw _ _ (ph - 1) (pw - 1)).
  - unfold pool_writes. apply in_prod_iff. split; apply in_seq; lia.
  - unfold filter_index. nia.
Qed.

(** ** windows *)
Lemma wn_src_valid : forall w o k, wn_same w = false -> (o < wn_out w)%nat -> (k < wn_k w)%nat ->
  wn_src w o k = Some (o * wn_s w + k * wn_d w)%nat /\ (o * wn_s w + k * wn_d w < wn_in w)%nat.
Proof.
  intros w o k Hs Ho Hk. unfold wn_out in Ho. rewrite Hs in Ho.
  destruct (Nat.leb_spec (wn_eff w) (wn_in w)) as [L|L]; [|lia].
  assert (Hlt : (o * wn_s w + k * wn_d w < wn_in w)%nat).
  { unfold wn_eff in *.
    assert (o * wn_s w <= wn_in w - ((wn_k w - 1) * wn_d w + 1))%nat.
    { destruct (wn_s w) as [|s] eqn:Es; [lia|].
      assert (o <= (wn_in w - ((wn_k w - 1) * wn_d w + 1)) / S s)%nat by lia.
      eapply Nat.le_trans; [apply Nat.mul_le_mono_r; exact H|].
      rewrite Nat.mul_comm. apply Nat.mul_div_le. lia. }
    assert (k * wn_d w <= (wn_k w - 1) * wn_d w)%nat by (apply Nat.mul_le_mono_r; lia). lia. }
  split; auto. unfold wn_src, wn_pad. rewrite Hs. cbv zeta. cbn [Nat.leb]. rewrite Nat.sub_0_r.
  rewrite (proj2 (Nat.ltb_lt _ _) Hlt). auto.
Qed.

Lemma im_range : forall m j, im_last m = true -> (j < im_size m)%nat ->
  (im_y m j < im_h m)%nat /\ (im_x m j < im_w m)%nat /\ (im_ch m j < im_c m)%nat.
Proof.
  intros m j Hl Hj. unfold im_y, im_x, im_ch, im_size in *. rewrite Hl.
  assert (im_c m <> 0 /\ im_w m <> 0)%nat by nia.
  repeat split; try (apply Nat.mod_upper_bound; lia).
  apply Nat.div_lt_upper_bound; [lia|]. apply Nat.div_lt_upper_bound; [lia|]. nia.
Qed.

Lemma im_ch_lt : forall m j, (j < im_size m)%nat -> (im_ch m j < im_c m)%nat.
Proof.
  intros m j Hj. unfold im_ch, im_size in *. assert (im_c m <> 0 /\ im_w m <> 0 /\ im_h m <> 0)%nat by nia.
  destruct (im_last m); [apply Nat.mod_upper_bound; lia|].
  apply Nat.div_lt_upper_bound; [lia|]. apply Nat.div_lt_upper_bound; [lia|]. nia.
Qed.

Lemma px_src_lt : forall last gy gx ch oy ox ky kx c i, (c < ch)%nat ->
  px_src last gy gx ch oy ox ky kx c = Some i -> (i < im_size (mk_img (wn_in gy) (wn_in gx) ch last))%nat.
Proof.
  intros last gy gx ch oy ox ky kx c i Hc H. unfold px_src in H.
  assert (W : forall w o k y, wn_src w o k = Some y -> (y < wn_in w)%nat).
  { intros w o k y E. unfold wn_src in E. cbv zeta in E. destruct (_ <=? _); [|discriminate].
    destruct (Nat.ltb_spec (o * wn_s w + k * wn_d w - wn_pad w) (wn_in w)); [|discriminate]. injection E; intros <-; auto. }
  destruct (wn_src gy oy ky) as [y|] eqn:Ey; [|discriminate]. destruct (wn_src gx ox kx) as [x|] eqn:Ex; [|discriminate].
  injection H; intros <-. apply im_pos_lt; cbn; auto; eapply W; eauto.
Qed.

(** ** the maximum over a window *)
Lemma pool_px_in : forall g j i, In i (pool_px g j) <->
  exists ky kx, (ky < wn_k (cg_y g))%nat /\ (kx < wn_k (cg_x g))%nat /\
    px_src (cg_last g) (cg_y g) (cg_x g) (cg_cin g) (im_y (cg_out g) j) (im_x (cg_out g) j) ky kx (im_ch (cg_out g) j) = Some i.
Proof.
  intros g j i. unfold pool_px. cbv zeta. rewrite in_flat_map. split.
  - intros (ky & Hky & H). rewrite in_flat_map in H. destruct H as (kx & Hkx & H).
    apply in_seq in Hky. apply in_seq in Hkx. exists ky, kx. repeat split; try lia.
    destruct (px_src _ _ _ _ _ _ _ _ _); [|destruct H]. destruct H as [->|[]]. auto.
  - intros (ky & kx & Hky & Hkx & E). exists ky. split; [apply in_seq; lia|]. rewrite in_flat_map.
    exists kx. split; [apply in_seq; lia|]. rewrite E. left; auto.
Qed.

Lemma max_pool_le : forall g v v' j, (forall i, In i (pool_px g j) -> v i <= v' i) -> max_pool g v j <= max_pool g v' j.
Proof.
  intros g v v' j H. unfold max_pool. destruct (pool_px g j) as [|a l]; [cbn; lra|]. cbn [map]. unfold max_list.
  destruct (fold_max_ge (map v' l) (v' a)) as [G1 G2].
  destruct (fold_max_in (map v l) (v a)) as [-> | I].
  - eapply Rle_trans; [apply H; left; auto|auto].
  - apply in_map_iff in I. destruct I as (x & <- & I). eapply Rle_trans; [apply H; right; auto|]. apply G2. apply in_map; auto.
Qed.

Lemma max_pool_rmax : forall g v j k (idx : nat -> nat), (0 < k)%nat ->
  (forall i, In i (pool_px g j) <-> exists p, (p < k)%nat /\ idx p = i) ->
  max_pool g v j = rmax k (fun p => v (idx p)).
Proof.
  intros g v j k idx Hk H. unfold max_pool. destruct (pool_px g j) as [|a l] eqn:E.
  { exfalso. assert (In (idx 0%nat) []) by (apply H; exists 0%nat; auto). auto. }
  cbn [map]. unfold max_list. destruct (fold_max_ge (map v l) (v a)) as [G1 G2]. apply Rle_antisym.
  - assert (I : exists i, In i (a :: l) /\ fold_left Rmax (map v l) (v a) = v i).
    { destruct (fold_max_in (map v l) (v a)) as [-> | I]; [exists a; split; [left|]; auto|].
      apply in_map_iff in I. destruct I as (x & <- & I). exists x. split; [right|]; auto. }
    destruct I as (i & I & ->). apply H in I. destruct I as (p & Hp & <-). apply (rmax_ge k (fun p => v (idx p)) p Hp).
  - apply rmax_lub; auto. intros p Hp. assert (I : In (idx p) (a :: l)) by (apply H; eauto).
    destruct I as [<-|I]; auto. apply G2. apply in_map; auto.
Qed.

(** ** fast pooling: any geometry *)
Lemma pool_fast_sound : forall sp g S f ts,
  (0 < sp_n sp)%nat -> dom_ok (sp_dom sp) (sp_mode sp) -> sp_dc sp = false -> cg_cout g = cg_cin g ->
  op_sp sp S (im_size (cg_in g)) f ts ->
  exists out, pool_fast sp g ts = Ok out /\ op_sp sp S (im_size (cg_out g)) (fun z => max_pool g (f z)) out.
Proof.
  intros sp g S f ts Hn Hd Hdc Hch Hv. destruct (get_full_sound sp true true S _ f ts Hn Hd Hv) as (r & E & C & A).
  rewrite orb_true_r in C. unfold pool_fast. rewrite E. cbn [bind].
  assert (B : const_ok S (im_size (cg_out g)) (fun z => max_pool g (f z)) (max_pool g (f_uc r 0%nat)) (max_pool g (f_lc r 0%nat))).
  { intros z j Hz Hj.
    assert (P : forall i, In i (pool_px g j) -> (i < im_size (cg_in g))%nat).
    { intros i Hi. apply pool_px_in in Hi. destruct Hi as (ky & kx & _ & _ & Hi).
      assert (Hc : (im_ch (cg_out g) j < cg_cin g)%nat) by (rewrite <- Hch; apply (im_ch_lt (cg_out g)); auto).
      apply (px_src_lt _ _ _ _ _ _ _ _ _ _ Hc Hi). }
    split; apply max_pool_le; intros i Hi; apply (C eq_refl); auto. }
  apply finish_sound; auto. split.
  - intros _. cbn [f_uc f_lc]. exact B.
  - intros Ha. rewrite Ha. cbn [when f_x f_wu f_bu f_wl f_bl]. destruct (A Ha) as [X _]. split; auto.
    intros z j Hz Hj. unfold aff, dot, vt.
    rewrite (rsum_ext _ _ (fun _ => 0)) by (intros; ring).
    rewrite rsum_eq0 by auto. specialize (B z j Hz Hj). lra.
Qed.

(** ** exact pooling *)

(** pixel read by entry p of the window of output j *)
Definition pool_idx (g : conv_geo) (q : nat) : nat :=
  let o := cg_out g in
  let j := (q / pool_p g)%nat in
  let p := (q mod pool_p g)%nat in
  im_pos (cg_in g) (im_y o j * wn_s (cg_y g) + p / wn_k (cg_x g) * wn_d (cg_y g))
         (im_x o j * wn_s (cg_x g) + p mod wn_k (cg_x g) * wn_d (cg_x g)) (im_ch o j).

(** pools whose filters are the right ones: square, or a single row *)
Definition pool_ok (g : conv_geo) : Prop :=
  cg_last g = true /\ cg_cout g = cg_cin g /\ wn_same (cg_y g) = false /\ wn_same (cg_x g) = false /\
  (0 < wn_k (cg_x g))%nat /\ (wn_k (cg_y g) = wn_k (cg_x g) \/ wn_k (cg_y g) = 1%nat).

Lemma pool_src : forall g j ky kx, pool_ok g -> (j < im_size (cg_out g))%nat -> (ky < wn_k (cg_y g))%nat -> (kx < wn_k (cg_x g))%nat ->
  px_src (cg_last g) (cg_y g) (cg_x g) (cg_cin g) (im_y (cg_out g) j) (im_x (cg_out g) j) ky kx (im_ch (cg_out g) j) =
    Some (pool_idx g (j * pool_p g + (ky * wn_k (cg_x g) + kx))) /\
  (pool_idx g (j * pool_p g + (ky * wn_k (cg_x g) + kx)) < im_size (cg_in g))%nat.
Proof.
  intros g j ky kx (Hl & Hc & Sy & Sx & Kx & Kk) Hj Hky Hkx.
  destruct (im_range (cg_out g) j Hl Hj) as (Ry & Rx & Rc).
  assert (Hp : (ky * wn_k (cg_x g) + kx < pool_p g)%nat) by (unfold pool_p; nia).
  assert (E : px_src (cg_last g) (cg_y g) (cg_x g) (cg_cin g) (im_y (cg_out g) j) (im_x (cg_out g) j) ky kx (im_ch (cg_out g) j) =
    Some (pool_idx g (j * pool_p g + (ky * wn_k (cg_x g) + kx)))).
  { unfold pool_idx. cbv zeta. rewrite flat_div, flat_mod by auto. rewrite flat_div, flat_mod by auto.
    unfold px_src. destruct (wn_src_valid (cg_y g) (im_y (cg_out g) j) ky Sy Ry Hky) as [-> _].
    destruct (wn_src_valid (cg_x g) (im_x (cg_out g) j) kx Sx Rx Hkx) as [-> _]. reflexivity. }
  split; auto. refine (px_src_lt _ _ _ _ _ _ _ _ _ _ _ E). rewrite <- Hc. exact Rc.
Qed.

Lemma pool_idx_lt : forall g q, pool_ok g -> (q < im_size (cg_out g) * pool_p g)%nat -> (pool_idx g q < im_size (cg_in g))%nat.
Proof.
  intros g q Hg Hq. assert (HP : pool_p g <> 0%nat) by (intro K; rewrite K in Hq; lia).
  assert (Hkx : wn_k (cg_x g) <> 0%nat) by (intro K; unfold pool_p in HP; rewrite K in HP; lia).
  pose proof (Nat.div_mod q (pool_p g) HP) as E. pose proof (Nat.mod_upper_bound q (pool_p g) HP) as L.
  pose proof (Nat.div_mod (q mod pool_p g) (wn_k (cg_x g)) Hkx) as E'.
  pose proof (Nat.mod_upper_bound (q mod pool_p g) (wn_k (cg_x g)) Hkx) as L'.
  destruct (pool_src g (q / pool_p g) (q mod pool_p g / wn_k (cg_x g)) (q mod pool_p g mod wn_k (cg_x g)) Hg) as [_ B]; auto.
  - apply Nat.div_lt_upper_bound; auto. lia.
  - apply Nat.div_lt_upper_bound; auto. unfold pool_p in *. lia.
  - replace (q / pool_p g * pool_p g + (q mod pool_p g / wn_k (cg_x g) * wn_k (cg_x g) + q mod pool_p g mod wn_k (cg_x g)))%nat with q in B by lia.
    exact B.
Qed.

Lemma pool_conv_at : forall g fl t i q, pool_ok g -> (q < im_size (cg_out g) * pool_p g)%nat ->
  (forall a b p, (a < wn_k (cg_y g))%nat -> (b < wn_k (cg_x g))%nat -> fl a b p = if Nat.eqb p (filter_index (wn_k (cg_y g)) a b) then 1 else 0) ->
  pool_conv g fl t i q = t i (pool_idx g q).
Proof.
  intros g fl t i q Hg Hq Hfl. assert (HP : pool_p g <> 0%nat) by (intro K; rewrite K in Hq; lia).
  assert (Hkx : wn_k (cg_x g) <> 0%nat) by (intro K; unfold pool_p in HP; rewrite K in HP; lia).
  set (j := (q / pool_p g)%nat). set (p := (q mod pool_p g)%nat).
  pose proof (Nat.div_mod q (pool_p g) HP) as E. pose proof (Nat.mod_upper_bound q (pool_p g) HP) as L.
  fold j p in E, L.
  set (ky := (p / wn_k (cg_x g))%nat). set (kx := (p mod wn_k (cg_x g))%nat).
  pose proof (Nat.div_mod p (wn_k (cg_x g)) Hkx) as E'. pose proof (Nat.mod_upper_bound p (wn_k (cg_x g)) Hkx) as L'.
  fold ky kx in E', L'.
  assert (Hky : (ky < wn_k (cg_y g))%nat) by (apply Nat.div_lt_upper_bound; auto; unfold pool_p in L; lia).
  assert (Hj : (j < im_size (cg_out g))%nat) by (apply Nat.div_lt_upper_bound; auto; lia).
  unfold pool_conv. cbv zeta. fold j p.
  rewrite (rsum_ext _ _ (fun a => if Nat.eqb a ky then rsum (wn_k (cg_x g)) (fun b => if Nat.eqb b kx then t i (pool_idx g q) else 0) else 0)).
  - rewrite (rsum_delta _ ky) by auto. rewrite (rsum_delta _ kx) by auto. auto.
  - intros a Ha. destruct (Nat.eqb_spec a ky) as [->|Hne].
    + apply rsum_ext. intros b Hb. rewrite Hfl by auto.
      assert (Ef : (filter_index (wn_k (cg_y g)) ky b = ky * wn_k (cg_x g) + b)%nat).
      { unfold filter_index. destruct Hg as (_ & _ & _ & _ & _ & [-> | K1]); auto. rewrite K1 in Hky. replace ky with 0%nat by lia. lia. }
      rewrite Ef. destruct (Nat.eqb_spec b kx) as [->|Hb'].
      * replace (Nat.eqb p (ky * wn_k (cg_x g) + kx)) with true by (symmetry; apply Nat.eqb_eq; lia).
        destruct (pool_src g j ky kx Hg Hj Hky Hb) as [Es _]. rewrite Es. cbn [px].
        replace (j * pool_p g + (ky * wn_k (cg_x g) + kx))%nat with q by lia. ring.
      * destruct (Nat.eqb_spec p (ky * wn_k (cg_x g) + b)); [exfalso; lia|]. ring.
    + apply rsum_eq0. intros b Hb. rewrite Hfl by auto.
      assert (Ef : (filter_index (wn_k (cg_y g)) a b = a * wn_k (cg_x g) + b)%nat).
      { unfold filter_index. destruct Hg as (_ & _ & _ & _ & _ & [-> | K1]); auto. rewrite K1 in Ha. replace a with 0%nat by lia. lia. }
      rewrite Ef. destruct (Nat.eqb_spec p (a * wn_k (cg_x g) + b)) as [Ep|]; [|ring].
      exfalso. apply Hne. unfold ky. rewrite Ep. symmetry. apply flat_div. auto.
Qed.

Definition pool_shape (g : conv_geo) : list nat := [im_h (cg_out g); im_w (cg_out g); im_c (cg_out g)].
Definition pool_gaps (ke : R) (sp : spec) (g : conv_geo) (fl : pool_filters) (ts : list tensor) : Prop :=
  forall r, get_fullinputs sp false true ts = Ok r ->
    op_max_gaps ke sp (pool_shape g ++ [pool_p g]) (-1) None
      (extract (sp_mode sp) (sp_dc sp) (move_full sp (pool_conv g fl) (pool_conv g fl) r)) (prodn (pool_shape g ++ [])).

Lemma pool_not_fast_sound : forall ke sp g fl S f ts,
  0 < ke -> (0 < sp_n sp)%nat -> dom_ok (sp_dom sp) (sp_mode sp) -> pool_ok g ->
  pool_init (wn_k (cg_y g)) (wn_k (cg_x g)) = Ok fl ->
  op_sp sp S (im_size (cg_in g)) f ts -> pool_gaps ke sp g fl ts ->
  exists out, pool_not_fast ke sp g fl ts = Ok out /\ op_sp sp S (im_size (cg_out g)) (fun z => max_pool g (f z)) out.
Proof.
  intros ke sp g fl S f ts Hke Hn Hd Hg Hfl Hv Hgap.
  assert (Hsize : prodn (pool_shape g ++ [pool_p g]) = (im_size (cg_out g) * pool_p g)%nat) by (cbn; unfold im_size; lia).
  assert (Ffl : forall a b p, (a < wn_k (cg_y g))%nat -> (b < wn_k (cg_x g))%nat -> fl a b p = if Nat.eqb p (filter_index (wn_k (cg_y g)) a b) then 1 else 0).
  { destruct (pool_init_ok (wn_k (cg_y g)) (wn_k (cg_x g))) as (fl' & E' & P').
    - destruct Hg as (_ & _ & _ & _ & ? & [-> | ->]); lia.
    - rewrite Hfl in E'. injection E'; intros ->. auto. }
  destruct (move_layer sp S (im_size (cg_in g)) (prodn (pool_shape g ++ [pool_p g])) f (pool_idx g) (pool_conv g fl) (pool_conv g fl) ts Hn Hd) as (r & Er & V); auto.
  - intros q Hq. rewrite Hsize in Hq. apply pool_idx_lt; auto.
  - intros t q Hq. rewrite Hsize in Hq. apply pool_conv_at; auto.
  - intros t i q _ Hq. rewrite Hsize in Hq. apply pool_conv_at; auto.
  - unfold pool_not_fast. rewrite Er. cbn [bind]. cbv zeta.
    assert (HP : (0 < wn_k (cg_y g))%nat -> (0 < pool_p g)%nat) by (destruct Hg as (_ & _ & _ & _ & ? & _); unfold pool_p; nia).
    assert (Hky : (0 < wn_k (cg_y g))%nat) by (destruct Hg as (_ & _ & _ & _ & ? & [-> | ->]); lia).
    destruct (max_sound ke sp S (pool_shape g) (pool_p g) [] (-1)%Z None (fun z q => f z (pool_idx g q)) (fun z => max_pool g (f z))
       (extract (sp_mode sp) (sp_dc sp) (move_full sp (pool_conv g fl) (pool_conv g fl) r))) as (out & Eo & Vo); auto.
    + right. split; auto.
    + intros z p q Ip Iq. inversion Iq; subst. rewrite !app_nil_r.
      pose proof (ravel_lt _ _ Ip) as Lp.
      assert (Hj : (ravel (pool_shape g) p < im_size (cg_out g))%nat) by (cbn [pool_shape prodn] in Lp; unfold im_size; lia).
      assert (Ex : forall c, ravel (pool_shape g ++ [pool_p g]) (p ++ [c]) = (ravel (pool_shape g) p * pool_p g + c)%nat).
      { intros c. rewrite ravel_app by auto. cbn [ravel prodn]. lia. }
      rewrite (max_pool_rmax g (f z) _ (pool_p g) (fun c => pool_idx g (ravel (pool_shape g) p * pool_p g + c))); auto.
      * apply rmax_ext; auto. all: intros c Hc; rewrite Ex; auto.
      * intros i. rewrite pool_px_in. split.
        -- intros (ky & kx & K1 & K2 & Es). destruct (pool_src g _ ky kx Hg Hj K1 K2) as [Es' _]. rewrite Es' in Es. injection Es; intros <-.
           exists (ky * wn_k (cg_x g) + kx)%nat. split; auto. unfold pool_p. nia.
        -- intros (c & Hc & <-). assert (Hkx : wn_k (cg_x g) <> 0%nat) by (destruct Hg as (_ & _ & _ & _ & ? & _); lia).
           pose proof (Nat.div_mod c (wn_k (cg_x g)) Hkx) as E'. pose proof (Nat.mod_upper_bound c (wn_k (cg_x g)) Hkx) as L'.
           assert (Ly : (c / wn_k (cg_x g) < wn_k (cg_y g))%nat) by (apply Nat.div_lt_upper_bound; auto; unfold pool_p in Hc; lia).
           exists (c / wn_k (cg_x g))%nat, (c mod wn_k (cg_x g))%nat. repeat split; auto.
           destruct (pool_src g _ _ _ Hg Hj Ly L') as [Es' _]. rewrite Es'. f_equal. f_equal. lia.
    + exact I.
    + exists out. split; [exact Eo|]. rewrite app_nil_r in Vo. replace (prodn (pool_shape g)) with (im_size (cg_out g)) in Vo by (cbn; unfold im_size; lia). exact Vo.
Qed.

Lemma max_pooling_sound : forall ke sp (fast : bool) g S f ts,
  0 < ke -> (0 < sp_n sp)%nat -> dom_ok (sp_dom sp) (sp_mode sp) -> sp_dc sp = false ->
  (if fast then cg_cout g = cg_cin g /\ (wn_k (cg_y g) <= 1 \/ wn_k (cg_y g) <= wn_k (cg_x g))%nat
   else pool_ok g /\ (sp_mode sp = IBP \/ forall fl, pool_init (wn_k (cg_y g)) (wn_k (cg_x g)) = Ok fl -> pool_gaps ke sp g fl ts)) ->
  op_sp sp S (im_size (cg_in g)) f ts ->
  exists out, decomon_max_pooling ke sp fast g ts = Ok out /\ op_sp sp S (im_size (cg_out g)) (fun z => max_pool g (f z)) out.
Proof.
  intros ke sp fast g S f ts Hke Hn Hd Hdc Hg Hv. unfold decomon_max_pooling.
  assert (K : (wn_k (cg_y g) <= 1 \/ wn_k (cg_y g) <= wn_k (cg_x g))%nat).
  { destruct fast; [apply Hg|]. destruct Hg as [(_ & _ & _ & _ & ? & [-> | ->]) _]; lia. }
  destruct (pool_init_ok _ _ K) as (fl & Efl & _). rewrite Efl. cbn [bind]. destruct fast.
  - apply pool_fast_sound; auto. apply Hg.
  - apply pool_not_fast_sound; auto; [apply Hg|]. destruct Hg as [_ [M|G]]; auto.
    intros r _ K'. congruence.
Qed.
