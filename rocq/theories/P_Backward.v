(** Proofs about the backward bounds: composition, fusion, linear layers, activations. *)
From Coq Require Import Reals List Arith Bool ZArith Lra Lia Psatz Permutation.
From Verif Require Import RLib Spec Spec_Layers Spec_Backward M_Core M_Utils M_MergeLayers M_Ops M_Layers M_Pool M_Backward
  P_Core P_Merge P_Utils P_MergeLayers P_Axis P_Ops P_Act P_SShape P_Layers P_Move.
Import ListNotations.
Local Open Scope R_scope.

(** ** composition *)
Lemma comp_aff : forall n h (a c p q : mat) (u v b : vec) z j,
  aff n (fun i j => mm h a p i j + mm h c q i j) (fun j => vm h u p j + vm h v q j + b j) z j =
  rsum h (fun k => p k j * aff n a u z k + q k j * aff n c v z k) + b j.
Proof.
  intros. unfold aff at 1. unfold mm, vm, dot.
  rewrite (rsum_ext n _ (fun i => rsum h (fun k => (a i k * p k j + c i k * q k j) * z i)))
    by (intros i _; rewrite <- rsum_plus, <- rsum_scal_r; reflexivity).
  rewrite rsum_swap.
  rewrite <- Rplus_assoc. f_equal. rewrite <- !rsum_plus. apply rsum_ext. intros k _.
  unfold aff, dot. rewrite (rsum_ext n _ (fun i => p k j * (a i k * z i) + q k j * (c i k * z i))) by (intros; ring).
  rewrite rsum_plus, !rsum_scal. ring.
Qed.

Lemma merge_sound : forall (S T : vec -> Prop) n h k f g wu bu wl bl vu cu vl cl,
  relaxes S n h f (mk_bb (full_w wu) bu (full_w wl) bl) ->
  relaxes T h k g (mk_bb (full_w vu) cu (full_w vl) cl) ->
  (forall z, S z -> T (f z)) ->
  relaxes S n k (fun z => g (f z)) (merge_with_previous h wu bu wl bl vu cu vl cl).
Proof.
  intros S T n h k f g wu bu wl bl vu cu vl cl HB HD HT z j Hz Hj.
  unfold merge_with_previous. cbn [bb_wu bb_bu bb_wl bb_bl].
  rewrite !comp_aff.
  destruct (HD (f z) j (HT z Hz) Hj) as [D1 D2]. cbn [bb_wu bb_bu bb_wl bb_bl] in D1, D2.
  unfold aff at 1 in D1. unfold aff at 1 in D2. unfold dot in D1, D2. split.
  - eapply Rle_trans; [|exact D1]. apply Rplus_le_compat_r. apply rsum_le. intros i Hi.
    destruct (HB z i Hz Hi) as [B1 B2]. cbn [bb_wu bb_bu bb_wl bb_bl] in B1, B2.
    pose proof (box_term_lower (full_w vl i j) _ _ _ (conj B1 B2)). unfold mpos, mneg. lra.
  - eapply Rle_trans; [exact D2|]. apply Rplus_le_compat_r. apply rsum_le. intros i Hi.
    destruct (HB z i Hz Hi) as [B1 B2]. cbn [bb_wu bb_bu bb_wl bb_bl] in B1, B2.
    pose proof (box_term_upper (full_w vu i j) _ _ _ (conj B1 B2)). unfold mpos, mneg. lra.
Qed.

Lemma merge_bb_sound : forall (S T : vec -> Prop) n h k f g B D,
  relaxes S n h f B -> relaxes T h k g D -> (forall z, S z -> T (f z)) ->
  relaxes S n k (fun z => g (f z)) (merge_bb h B D).
Proof.
  intros S T n h k f g [wu bu wl bl] [vu cu vl cl] HB HD HT. unfold merge_bb.
  apply (merge_sound S T n h k f g (WFull wu) bu (WFull wl) bl (WFull vu) cu (WFull vl) cl); auto.
Qed.

Lemma map_relaxes : forall Y n m f B, is_map n m f B -> relaxes Y n m f B.
Proof. intros Y n m f B H z j _ Hj. destruct (H z j Hj). lra. Qed.

(** composing two exact affine maps is exact *)
Lemma merge_exact : forall n h k f g B D, is_map n h f B -> is_map h k g D ->
  is_map n k (fun z => g (f z)) (merge_bb h B D).
Proof.
  intros n h k f g B D HB HD y j Hj. unfold merge_bb, merge_with_previous. cbn [bb_wu bb_bu bb_wl bb_bl full_w].
  rewrite !comp_aff. destruct (HD (f y) j Hj) as [D1 D2]. rewrite <- D1 at 1. rewrite <- D2.
  unfold aff at 3. unfold aff at 5. unfold dot. split; f_equal; apply rsum_ext; intros i Hi;
  destruct (HB y i Hi) as [B1 B2]; rewrite B1, B2; unfold mpos, mneg.
  - destruct (Rle_dec (bb_wu D i j) 0); [rewrite Rmax_right, Rmin_left by lra|rewrite Rmax_left, Rmin_right by lra]; ring.
  - destruct (Rle_dec (bb_wl D i j) 0); [rewrite Rmax_right, Rmin_left by lra|rewrite Rmax_left, Rmin_right by lra]; ring.
Qed.

Lemma aff_diag : forall n v b y j, (j < n)%nat -> aff n (diag v) b y j = v j * y j + b j.
Proof.
  intros n v b y j Hj. unfold aff, dot, diag. f_equal.
  rewrite (rsum_ext n _ (fun i => if Nat.eqb i j then v j * y i else 0)) by (intros i _; destruct (Nat.eqb i j); ring).
  apply (rsum_delta n j (fun i => v j * y i)); auto.
Qed.

Lemma identity_map : forall n, is_map n n (fun y => y) identity_lirpa.
Proof.
  intros n y j Hj. unfold identity_lirpa. cbn [bb_wu bb_bu bb_wl bb_bl].
  assert (E : aff n id_mat zero_vec y j = y j).
  { unfold aff, dot, id_mat, zero_vec. rewrite (rsum_ext n _ (fun i => if Nat.eqb i j then y i else 0)) by (intros i _; destruct (Nat.eqb i j); ring).
    rewrite rsum_delta by auto. ring. }
  auto.
Qed.

(** the identity is neutral, on both sides *)
Definition same_bb (n m : nat) (B D : bb) : Prop :=
  forall j, (j < m)%nat -> bb_bu B j = bb_bu D j /\ bb_bl B j = bb_bl D j /\
    forall i, (i < n)%nat -> bb_wu B i j = bb_wu D i j /\ bb_wl B i j = bb_wl D i j.

Lemma mm_id_l : forall n w i j, (i < n)%nat -> mm n id_mat w i j = w i j.
Proof.
  intros n w i j Hi. unfold mm, id_mat. rewrite (rsum_ext n _ (fun k => if Nat.eqb k i then w k j else 0)).
  - apply (rsum_delta n i (fun k => w k j) Hi).
  - intros k _. rewrite (Nat.eqb_sym i k). destruct (Nat.eqb k i); ring.
Qed.
Lemma vm_zero : forall n w j, vm n zero_vec w j = 0.
Proof. intros. unfold vm, zero_vec. apply rsum_eq0. intros; ring. Qed.
Lemma pos_neg_sum : forall x, Rmax x 0 + Rmin x 0 = x.
Proof. intros. rcases. Qed.

Lemma merge_id_l : forall n m B, same_bb n m (merge_bb n identity_lirpa B) B.
Proof.
  intros n m B j Hj. unfold merge_bb, merge_with_previous, identity_lirpa. cbn [bb_wu bb_bu bb_wl bb_bl full_w].
  rewrite !vm_zero. split; [ring|]. split; [ring|]. intros i Hi. rewrite !mm_id_l by auto. unfold mpos, mneg. rewrite !pos_neg_sum. auto.
Qed.

Lemma mm_id_r : forall n w i j, (j < n)%nat -> mm n w (mpos id_mat) i j = w i j.
Proof.
  intros n w i j Hj. unfold mm, mpos, id_mat. rewrite (rsum_ext n _ (fun k => if Nat.eqb k j then w i k else 0)).
  - apply (rsum_delta n j (fun k => w i k) Hj).
  - intros k _. destruct (Nat.eqb k j); rcases.
Qed.
Lemma mm_id_r0 : forall n w i j, mm n w (mneg id_mat) i j = 0.
Proof. intros. unfold mm, mneg, id_mat. apply rsum_eq0. intros k _. destruct (Nat.eqb k j); rcases. Qed.

Lemma merge_id_r : forall n m B, same_bb n m (merge_bb m B identity_lirpa) B.
Proof.
  intros n m B j Hj. unfold merge_bb, merge_with_previous, identity_lirpa. cbn [bb_wu bb_bu bb_wl bb_bl full_w].
  assert (V : forall v, vm m v (mpos id_mat) j = v j) by (intros v; apply (mm_id_r m (fun _ => v) 0%nat j Hj)).
  assert (V0 : forall v, vm m v (mneg id_mat) j = 0) by (intros v; apply (mm_id_r0 m (fun _ => v) 0%nat j)).
  rewrite !V, !V0. unfold zero_vec. split; [ring|]. split; [ring|]. intros i Hi. rewrite !mm_id_r, !mm_id_r0 by auto. split; ring.
Qed.

(** shapes *)
Lemma merge_shapes_agree : forall n h k,
  let ss := [[n; h]; [h]; [n; h]; [h]; [h; k]; [k]; [h; k]; [k]] in
  merge_output_shape ss = Ok [[n; k]; [k]; [n; k]; [k]] /\ merge_shape ss = Ok [[n; k]; [k]; [n; k]; [k]].
Proof. intros. cbn. rewrite Nat.eqb_refl. auto. Qed.

Lemma merge_shapes_diag : forall n k,
  (let ss := [[n]; [n]; [n]; [n]; [n; k]; [k]; [n; k]; [k]] in
   merge_shape ss = Ok [[n; k]; [k]; [n; k]; [k]] /\ merge_output_shape ss = Err ValueError) /\
  (let ss := [[k; n]; [n]; [k; n]; [n]; [n]; [n]; [n]; [n]] in
   merge_shape ss = Ok [[k; n]; [n]; [k; n]; [n]] /\ merge_output_shape ss = Err ValueError).
Proof. intros. cbn. rewrite !Nat.eqb_refl. auto. Qed.

(** ** Fuse and Convert2BackwardMode *)
Lemma valid_affine : forall D mode S n m f ts, valid D mode false S n m f ts -> mode <> IBP ->
  exists x wu bu wl bl, (forall z, S z -> in_dom D n x z) /\ affine_ok S n m f wu (bu 0%nat) wl (bl 0%nat) /\
    (ts = [x; wu; bu; wl; bl] /\ mode = AFFINE \/ exists u l, ts = [x; u; wu; bu; l; wl; bl] /\ mode = HYBRID).
Proof.
  intros D mode S n m f ts [Hl Hv] Hm. destruct mode; [congruence| |].
  - do 6 (try (destruct ts as [|? ts]; cbn [length spec_nb] in Hl; try discriminate Hl)).
    cbn in Hv. destruct Hv as [X A]. do 5 eexists. split; [exact X|]. split; [exact A|]. left. auto.
  - do 8 (try (destruct ts as [|? ts]; cbn [length spec_nb] in Hl; try discriminate Hl)).
    cbn in Hv. destruct Hv as (X & C & A). do 5 eexists. split; [exact X|]. split; [exact A|]. right. eauto.
Qed.

Lemma fuse_sound : forall D mode (S T : vec -> Prop) n h k g f ts B, mode <> IBP ->
  valid D mode false S n h g ts -> relaxes T h k f B -> (forall z, S z -> T (g z)) ->
  exists out, fuse mode h ts B = Ok out /\ relaxes S n k (fun z => f (g z)) out.
Proof.
  intros D mode S T n h k g f ts B Hm Hv HB HT.
  destruct (valid_affine _ _ _ _ _ _ _ Hv Hm) as (x & wu & bu & wl & bl & X & A & [[-> ->]|(u & l & -> & ->)]);
    (eexists; split; [reflexivity|]; apply (merge_bb_sound S T n h k g f); auto).
Qed.

Lemma fuse_ibp : forall h ts B, fuse IBP h ts B = Ok B.
Proof. reflexivity. Qed.

Lemma convert_sound : forall D mode (S : vec -> Prop) n m g f ts B, (0 < n)%nat -> norm_ok D ->
  (mode = IBP -> D = Box /\ forall z i, S z -> (i < n)%nat -> g z i = z i) ->
  valid D mode false S n n g ts -> relaxes S n m f B ->
  exists out, convert2backward mode D n ts B = Ok out /\ valid D mode false S n m f out.
Proof.
  intros D mode S n m g f ts [wu bu wl bl] Hn Hd Hi Hv HB. unfold relaxes in HB. cbn [bb_wu bb_bu bb_wl bb_bl] in HB.
  destruct mode.
  - destruct (Hi eq_refl) as [-> Hg]. destruct Hv as [Hl Hv].
    destruct ts as [|u ts]; [contradiction Hv|]. destruct ts as [|l ts]; [contradiction Hv|].
    destruct ts; [|discriminate Hl]. cbn in Hv.
    unfold convert2backward. cbn [bind mode_eqb andb]. rewrite get_upper_no_kw, get_lower_no_kw. cbn [bind bb_wu bb_bu bb_wl bb_bl].
    eexists. split; [reflexivity|]. split; [reflexivity|]. cbn [Nat.eqb].
    assert (Hb : forall z, S z -> in_box n (l 0%nat) (u 0%nat) z).
    { intros z Hz i Hi'. specialize (Hv z i Hz Hi'). rewrite Hg in Hv by auto. lra. }
    intros z j Hz Hj. unfold vt. specialize (HB z j Hz Hj).
    pose proof (get_upper_box_sound n _ _ wu bu z j (Hb z Hz)). pose proof (get_lower_box_sound n _ _ wl bl z j (Hb z Hz)). lra.
  - destruct (valid_affine _ _ _ _ _ _ _ Hv ltac:(discriminate)) as (x & wu' & bu' & wl' & bl' & X & A & [[-> _]|(u & l & -> & K)]); [|discriminate K].
    eexists. split; [reflexivity|]. split; [reflexivity|]. split; [exact X|]. exact HB.
  - destruct (valid_affine _ _ _ _ _ _ _ Hv ltac:(discriminate)) as (x & wu' & bu' & wl' & bl' & X & A & [[_ K]|(u & l & -> & _)]); [discriminate K|].
    unfold convert2backward. cbn [bind mode_eqb andb bb_wu bb_bu bb_wl bb_bl].
    destruct (get_upper_ok D n x wu bu Hd) as [ru Eu]. destruct (get_lower_ok D n x wl bl Hd) as [rl El].
    rewrite Eu, El. cbn [bind]. eexists. split; [reflexivity|]. split; [reflexivity|]. split; [exact X|]. split; [|exact HB].
    intros z j Hz Hj. unfold vt. specialize (HB z j Hz Hj).
    pose proof (get_upper_sound D n x wu bu ru z j Hn Eu (X z Hz)). pose proof (get_lower_sound D n x wl bl rl z j Hn El (X z Hz)). lra.
Qed.

(** ** linear layers *)
Lemma map_of_aff : forall n m f w b, (forall y j, (j < m)%nat -> aff n w b y j = f y j) -> is_map n m f (mk_bb w b w b).
Proof. intros n m f w b H y j Hj. cbn. auto. Qed.

Lemma divmod_eq : forall d i r, (i < (r + 1) * d)%nat -> (r * d <= i)%nat -> (i / d = r /\ i mod d = i - r * d)%nat.
Proof.
  intros d i r H1 H2. assert (i = d * r + (i - r * d))%nat by lia.
  split; [symmetry; apply (Nat.div_unique i d r (i - r * d)); lia|symmetry; apply (Nat.mod_unique i d r (i - r * d)); lia].
Qed.

(** sum over a row-major block: only row r contributes *)
Lemma rsum_row : forall rows d r F, (r < rows)%nat ->
  rsum (rows * d) (fun i => if Nat.eqb (i / d) r then F (i mod d)%nat i else 0) = rsum d (fun c => F c (r * d + c)%nat).
Proof.
  intros rows d r F Hr.
  replace (rows * d)%nat with (r * d + (d + (rows - r - 1) * d))%nat by nia.
  rewrite rsum_app, rsum_app. rewrite (rsum_eq0 (r * d)), (rsum_eq0 ((rows - r - 1) * d)).
  - rewrite Rplus_0_l, Rplus_0_r. apply rsum_ext. intros c Hc.
    destruct (divmod_eq d (r * d + c) r ltac:(nia) ltac:(lia)) as [E1 E2].
    rewrite E1, E2, Nat.eqb_refl. f_equal. lia.
  - intros i Hi. assert (Hd : (0 < d)%nat) by nia. destruct (Nat.eqb_spec ((r * d + (d + i)) / d) r) as [E|E]; auto.
    exfalso. assert (r + 1 <= (r * d + (d + i)) / d)%nat by (apply Nat.div_le_lower_bound; lia). lia.
  - intros i Hi. assert (Hd : (0 < d)%nat) by nia. destruct (Nat.eqb_spec (i / d) r) as [E|E]; auto.
    exfalso. assert (i / d < r)%nat by (apply Nat.div_lt_upper_bound; lia). lia.
Qed.

Lemma dense_map : forall rows d units kernel bias, (0 < units)%nat ->
  is_map (rows * d) (rows * units) (keras_dense d units kernel (bias_of bias)) (backward_dense d units kernel bias).
Proof.
  intros rows d units kernel bias Hu. unfold backward_dense. apply map_of_aff. intros y j Hj.
  unfold aff, dot, keras_dense. f_equal.
  - unfold block_diag. 
    rewrite (rsum_ext _ _ (fun i => if Nat.eqb (i / d) (j / units) then y i * kernel (i mod d)%nat (j mod units)%nat else 0))
      by (intros i _; destruct (Nat.eqb (i / d) (j / units)); ring).
    apply (rsum_row rows d (j / units) (fun c i => y i * kernel c (j mod units)%nat)).
    apply Nat.div_lt_upper_bound; lia.
  - destruct bias; reflexivity.
Qed.

(** *** convolution *)
Lemma rsum_prod : forall a b (F : nat -> nat -> R), rsum (a * b) (fun i => F (i / b)%nat (i mod b)%nat) = rsum a (fun p => rsum b (fun q => F p q)).
Proof.
  induction a; intros b F; [reflexivity|].
  replace (Datatypes.S a * b)%nat with (a * b + b)%nat by lia. rewrite rsum_app, IHa. cbn [rsum]. f_equal.
  apply rsum_ext. intros q Hq. destruct (divmod_eq b (a * b + q) a ltac:(nia) ltac:(lia)) as [-> ->]. f_equal. lia.
Qed.

Lemma px_src_lt : forall last gy gx ch oy ox ky kx c i, (c < ch)%nat ->
  px_src last gy gx ch oy ox ky kx c = Some i -> (i < wn_in gy * wn_in gx * ch)%nat.
Proof.
  intros last gy gx ch oy ox ky kx c i Hc. unfold px_src, wn_src. cbv zeta.
  destruct (Nat.leb_spec (wn_pad gy) (oy * wn_s gy + ky * wn_d gy)); [|discriminate].
  destruct (Nat.ltb_spec (oy * wn_s gy + ky * wn_d gy - wn_pad gy) (wn_in gy)); [|discriminate].
  destruct (Nat.leb_spec (wn_pad gx) (ox * wn_s gx + kx * wn_d gx)); [|discriminate].
  destruct (Nat.ltb_spec (ox * wn_s gx + kx * wn_d gx - wn_pad gx) (wn_in gx)); [|discriminate].
  intros E; injection E; intros <-.
  exact (im_pos_lt (mk_img (wn_in gy) (wn_in gx) ch last) _ _ _ H0 H2 Hc).
Qed.

(** the patches of the identity pick the pixel *)
Lemma patch_sum : forall gy gx cin oy ox ky kx ci y, (ci < cin)%nat ->
  rsum (wn_in gy * wn_in gx * cin) (fun i => patch gy gx cin i oy ox ky kx ci * y i) = px y (px_src true gy gx cin oy ox ky kx ci).
Proof.
  intros gy gx cin oy ox ky kx ci y Hc. unfold patch.
  destruct (px_src true gy gx cin oy ox ky kx ci) as [p|] eqn:E; cbn [px].
  - pose proof (px_src_lt _ _ _ _ _ _ _ _ _ _ Hc E) as Hp.
    rewrite (rsum_ext _ _ (fun i => if Nat.eqb i p then y i else 0)).
    + apply (rsum_delta _ p y Hp).
    + intros i _. rewrite (Nat.eqb_sym p i). destruct (Nat.eqb i p); ring.
  - apply rsum_eq0. intros; ring.
Qed.

Lemma toeplitz_sum : forall n cin F (K : nat -> nat -> R) (P : nat -> nat -> nat -> R) (y : vec),
  rsum n (fun i => rsum cin (fun ci => rsum F (fun f => P i ci f * K ci f)) * y i) =
  rsum cin (fun ci => rsum F (fun f => K ci f * rsum n (fun i => P i ci f * y i))).
Proof.
  intros. rewrite (rsum_ext n _ (fun i => rsum cin (fun ci => rsum F (fun f => K ci f * (P i ci f * y i))))).
  - rewrite rsum_swap. apply rsum_ext. intros ci _. rewrite rsum_swap. apply rsum_ext. intros f _. rewrite rsum_scal. reflexivity.
  - intros i _. rewrite <- rsum_scal_r. apply rsum_ext. intros ci _. rewrite <- rsum_scal_r. apply rsum_ext. intros; ring.
Qed.

Lemma conv_last_map : forall g kernel bias, cg_last g = true -> wn_k (cg_y g) = wn_k (cg_x g) ->
  exists B, backward_conv2d g kernel bias = Ok B /\
    is_map (im_size (cg_in g)) (im_size (cg_out g)) (keras_conv2d g kernel (bias_of bias)) B.
Proof.
  intros g kernel bias Hl Hk. unfold backward_conv2d, get_toeplitz. rewrite Hk, Nat.eqb_refl, Hl. cbn [negb bind].
  eexists. split; [reflexivity|]. apply map_of_aff. intros y j Hj. unfold aff, dot, keras_conv2d. f_equal.
  - unfold toeplitz, im_size, cg_in. cbn [im_h im_w im_c]. rewrite Hk.
    rewrite (toeplitz_sum _ (cg_cin g) (wn_k (cg_x g) * wn_k (cg_x g))
      (fun ci f => kernel (f / wn_k (cg_x g)) (f mod wn_k (cg_x g)) ci (im_ch (mk_img (wn_out (cg_y g)) (wn_out (cg_x g)) (cg_cout g) true) j))%nat
      (fun i ci f => patch (cg_y g) (cg_x g) (cg_cin g) i (im_y (mk_img (wn_out (cg_y g)) (wn_out (cg_x g)) (cg_cout g) true) j) (im_x (mk_img (wn_out (cg_y g)) (wn_out (cg_x g)) (cg_cout g) true) j) (f / wn_k (cg_x g)) (f mod wn_k (cg_x g)) ci)%nat y).
    unfold conv2d, cg_out. rewrite Hl, Hk. cbv zeta.
    set (o := mk_img (wn_out (cg_y g)) (wn_out (cg_x g)) (cg_cout g) true).
    transitivity (rsum (cg_cin g) (fun ci => rsum (wn_k (cg_x g)) (fun ky => rsum (wn_k (cg_x g)) (fun kx =>
      kernel ky kx ci (im_ch o j) * px y (px_src true (cg_y g) (cg_x g) (cg_cin g) (im_y o j) (im_x o j) ky kx ci))))).
    + apply rsum_ext. intros ci Hc.
      rewrite <- (rsum_prod (wn_k (cg_x g)) (wn_k (cg_x g)) (fun ky kx => kernel ky kx ci (im_ch o j) * px y (px_src true (cg_y g) (cg_x g) (cg_cin g) (im_y o j) (im_x o j) ky kx ci))).
      apply rsum_ext. intros f _. f_equal. apply patch_sum. auto.
    + rewrite rsum_swap. apply rsum_ext. intros ky _. rewrite rsum_swap. reflexivity.
  - destruct bias; reflexivity.
Qed.

Lemma conv_not_square : forall g kernel bias, (0 < wn_k (cg_y g))%nat -> wn_k (cg_y g) <> wn_k (cg_x g) ->
  backward_conv2d g kernel bias = Err ValueError.
Proof.
  intros g kernel bias H0 Hk. unfold backward_conv2d, get_toeplitz.
  destruct (Nat.eqb_spec (wn_k (cg_y g) * wn_k (cg_x g)) (wn_k (cg_y g) * wn_k (cg_y g))) as [E|E]; [nia|reflexivity].
Qed.

(** channels_first: right with one input and one output channel, no stride, no dilation *)
Lemma win1_id : forall g, wn_s g = 1%nat -> wn_d g = 1%nat -> win1 g = g.
Proof. intros [a b c d e] H1 H2. cbn in *. subst. reflexivity. Qed.

Lemma im_first_last : forall h w y x, im_pos (mk_img h w 1 false) y x 0 = im_pos (mk_img h w 1 true) y x 0.
Proof. intros. unfold im_pos. cbn. lia. Qed.

Lemma px_src_cf : forall gy gx oy ox ky kx ci, (ci < 1)%nat -> px_src false gy gx 1 oy ox ky kx ci = px_src true gy gx 1 oy ox ky kx ci.
Proof.
  intros. replace ci with 0%nat by lia. unfold px_src. destruct (wn_src gy oy ky); auto. destruct (wn_src gx ox kx); auto.
  rewrite im_first_last. auto.
Qed.

Lemma conv_first_map : forall g kernel bias, cg_last g = false -> wn_k (cg_y g) = wn_k (cg_x g) ->
  cg_cin g = 1%nat -> cg_cout g = 1%nat ->
  wn_s (cg_y g) = 1%nat -> wn_s (cg_x g) = 1%nat -> wn_d (cg_y g) = 1%nat -> wn_d (cg_x g) = 1%nat ->
  exists B, backward_conv2d g kernel bias = Ok B /\
    is_map (im_size (cg_in g)) (im_size (cg_out g)) (keras_conv2d g kernel (bias_of bias)) B.
Proof.
  intros g kernel bias Hl Hk Hci Hco S1 S2 D1 D2. unfold backward_conv2d, get_toeplitz. rewrite !win1_id by auto.
  rewrite Hk, !Nat.eqb_refl, Hl. cbn [negb bind].
  eexists. split; [reflexivity|]. apply map_of_aff. intros y j Hj. unfold aff, dot, keras_conv2d. f_equal.
  - unfold im_size, cg_in. cbn [im_h im_w im_c]. rewrite Hci, Hco.
    unfold im_size, cg_out in Hj. cbn [im_h im_w im_c] in Hj. rewrite Hco, Nat.mul_1_r in Hj.
    assert (Hw : (0 < wn_out (cg_x g))%nat) by nia. assert (Hh : (0 < wn_out (cg_y g))%nat) by nia.
    assert (Ey : im_y (mk_img (wn_out (cg_y g)) (wn_out (cg_x g)) 1 true) j = (j / wn_out (cg_x g))%nat) by (unfold im_y; cbn [im_last im_c im_w]; rewrite Nat.div_1_r; auto).
    assert (Ex : im_x (mk_img (wn_out (cg_y g)) (wn_out (cg_x g)) 1 true) j = (j mod wn_out (cg_x g))%nat) by (unfold im_x; cbn [im_last im_c im_w]; rewrite Nat.div_1_r; auto).
    assert (Ec : im_ch (mk_img (wn_out (cg_y g)) (wn_out (cg_x g)) 1 true) j = 0%nat) by (unfold im_ch; cbn [im_last im_c im_w]; apply Nat.mod_1_r).
    rewrite Ey, Ex, Ec.
    assert (Eq : (j / wn_out (cg_x g) * wn_out (cg_x g) + j mod wn_out (cg_x g))%nat = j) by (rewrite Nat.mul_comm; symmetry; apply Nat.div_mod; lia).
    rewrite !Eq.
    rewrite (toeplitz_sum _ 1 (wn_k (cg_x g) * wn_k (cg_x g))
      (fun ci f => kernel (f / wn_k (cg_x g)) (f mod wn_k (cg_x g)) ci 0)%nat
      (fun i ci f => patch (cg_y g) (cg_x g) 1 i (j / wn_out (cg_x g)) (j mod wn_out (cg_x g)) (f / wn_k (cg_x g)) (f mod wn_k (cg_x g)) ci)%nat y).
    unfold conv2d, cg_out. rewrite Hl, Hk, Hci, Hco. cbv zeta.
    assert (Fy : im_y (mk_img (wn_out (cg_y g)) (wn_out (cg_x g)) 1 false) j = (j / wn_out (cg_x g))%nat).
    { unfold im_y; cbn [im_last im_h im_w]. apply Nat.mod_small. apply Nat.div_lt_upper_bound; lia. }
    assert (Fx : im_x (mk_img (wn_out (cg_y g)) (wn_out (cg_x g)) 1 false) j = (j mod wn_out (cg_x g))%nat) by reflexivity.
    assert (Fc : im_ch (mk_img (wn_out (cg_y g)) (wn_out (cg_x g)) 1 false) j = 0%nat).
    { unfold im_ch; cbn [im_last im_h im_w]. rewrite Nat.div_div by lia. apply Nat.div_small. lia. }
    rewrite Fy, Fx, Fc.
    transitivity (rsum 1 (fun ci => rsum (wn_k (cg_x g)) (fun ky => rsum (wn_k (cg_x g)) (fun kx =>
      kernel ky kx ci 0%nat * px y (px_src true (cg_y g) (cg_x g) 1 (j / wn_out (cg_x g)) (j mod wn_out (cg_x g)) ky kx ci))))).
    + apply rsum_ext. intros ci Hc.
      rewrite <- (rsum_prod (wn_k (cg_x g)) (wn_k (cg_x g)) (fun ky kx => kernel ky kx ci 0%nat * px y (px_src true (cg_y g) (cg_x g) 1 (j / wn_out (cg_x g)) (j mod wn_out (cg_x g)) ky kx ci))).
      apply rsum_ext. intros f _. f_equal. apply patch_sum. auto.
    + rewrite rsum_swap. apply rsum_ext. intros ky _. rewrite rsum_swap. apply rsum_ext. intros kx _. apply rsum_ext. intros c Hc.
      rewrite px_src_cf by auto. reflexivity.
  - destruct bias; reflexivity.
Qed.

(** *** batch normalisation *)
Lemma bn_map : forall pre k post gamma beta mean var eps g,
  (forall c, (c < k)%nat -> 0 < var c + eps) ->
  (forall y p c q, in_shape pre p -> in_shape post q -> (c < k)%nat ->
     g y (ravel (pre ++ k :: post) (p ++ c :: q)) =
     keras_bn (match gamma with Some v => v | None => fun _ => 1 end) (match beta with Some v => v | None => fun _ => 0 end)
       mean var eps c (y (ravel (pre ++ k :: post) (p ++ c :: q)))) ->
  is_map (prodn (pre ++ k :: post)) (prodn (pre ++ k :: post)) g (backward_bn (pre ++ k :: post) (length pre) gamma beta mean var eps).
Proof.
  intros pre k post gamma beta mean var eps g Hv Hg. unfold backward_bn. apply map_of_aff. intros y j Hj.
  set (s := pre ++ k :: post) in *. unfold aff, dot.
  rewrite (rsum_ext _ _ (fun i => if Nat.eqb i j then (match gamma with Some v => v | None => fun _ => 1 end) (bn_chan s (length pre) i) / sqrt (var (bn_chan s (length pre) i) + eps) * y i else 0))
    by (intros i _; destruct (Nat.eqb i j); ring).
  rewrite (rsum_delta _ j (fun i => (match gamma with Some v => v | None => fun _ => 1 end) (bn_chan s (length pre) i) / sqrt (var (bn_chan s (length pre) i) + eps) * y i)) by auto.
  destruct (unravel_spec s j Hj) as [I E].
  assert (Sp : exists p c q, in_shape pre p /\ in_shape post q /\ (c < k)%nat /\ unravel s j = p ++ c :: q).
  { unfold s in I. apply Forall2_app_inv_l in I. destruct I as (p & r & Ip & Ir & Er). inversion Ir; subst. exists p, y0, l'. auto. }
  destruct Sp as (p & c & q & Ip & Iq & Ic & Eu). rewrite Eu in E. rewrite <- E. unfold s. rewrite Hg by auto.
  rewrite bn_chan_at by auto. unfold keras_bn. specialize (Hv c Ic). pose proof (sqrt_lt_R0 _ Hv). fold s. field. lra.
Qed.

(** *** permute *)
Lemma inverse_perm_length : forall perm, length (inverse_perm perm) = length perm.
Proof. intros. unfold inverse_perm. rewrite map_length, seq_length. auto. Qed.

Lemma inverse_perm_nth : forall perm a, (a < length perm)%nat -> nth a (inverse_perm perm) O = index_of a perm.
Proof.
  intros perm a H. unfold inverse_perm.
  rewrite (nth_indep _ O ((fun a => index_of a perm) O)) by (rewrite map_length, seq_length; auto).
  rewrite (map_nth (fun a => index_of a perm)), seq_nth by auto. reflexivity.
Qed.

Lemma permuted_inverse : forall perm p, Permutation perm (seq 0 (length p)) -> permuted (inverse_perm perm) (permuted perm p) = p.
Proof.
  intros perm p HP. rewrite <- (unperm_permuted perm p HP) at 2. unfold permuted at 1, inverse_perm, unperm.
  rewrite map_map. rewrite (Permutation_length HP), seq_length. reflexivity.
Qed.

Lemma inverse_perm_perm : forall perm r, Permutation perm (seq 0 r) -> Permutation (inverse_perm perm) (seq 0 r).
Proof.
  intros perm r HP. assert (Hl : length perm = r) by (rewrite (Permutation_length HP), seq_length; auto).
  apply NoDup_Permutation_bis.
  - apply (NoDup_nth _ O). rewrite inverse_perm_length. intros i j Hi Hj E.
    rewrite !inverse_perm_nth in E by auto.
    destruct (index_of_nth perm i) as [_ I2]; [apply (perm_in perm _ _ HP); lia|].
    destruct (index_of_nth perm j) as [_ J2]; [apply (perm_in perm _ _ HP); lia|]. congruence.
  - rewrite inverse_perm_length, seq_length. lia.
  - intros x Hx. apply (In_nth _ _ O) in Hx. destruct Hx as (a & Ha & Ex). rewrite inverse_perm_length in Ha.
    rewrite inverse_perm_nth in Ex by auto. subst x.
    destruct (index_of_nth perm a) as [I1 _]; [apply (perm_in perm _ _ HP); lia|]. apply in_seq. lia.
Qed.

Lemma ravel_inj : forall s p q, in_shape s p -> in_shape s q -> ravel s p = ravel s q -> p = q.
Proof. intros s p q Hp Hq E. rewrite <- (unravel_ravel s p Hp), <- (unravel_ravel s q Hq), E. auto. Qed.

(** what the matrix of BackwardPermute computes, for every shape *)
Lemma permute_reads : forall s dims y p, Permutation dims (seq 1 (length s)) -> in_shape s p ->
  let inv := inverse_perm (map pred dims) in
  aff (prodn s) (bb_wu (backward_permute s dims)) zero_vec y (ravel s p) = y (ravel (permuted inv s) (permuted inv p)).
Proof.
  intros s dims y p HP Ip inv.
  assert (HP' : Permutation (map pred dims) (seq 0 (length s))).
  { apply (Permutation_map pred) in HP. rewrite <- seq_shift, map_map in HP. cbn [pred] in HP. rewrite map_id in HP. auto. }
  pose proof (inverse_perm_perm _ _ HP') as HI. fold inv in HI.
  unfold backward_permute. cbn [bb_wu]. fold inv. unfold aff, dot, zero_vec. rewrite Rplus_0_r.
  set (i0 := ravel (permuted inv s) (permuted inv p)).
  assert (L0 : (i0 < prodn s)%nat).
  { rewrite <- (prodn_permuted inv s HI). apply ravel_lt. apply in_shape_permuted; auto. }
  rewrite (rsum_ext _ _ (fun i => if Nat.eqb i i0 then y i else 0)).
  - apply (rsum_delta _ i0 y L0).
  - intros i Hi. unfold id_mat.
    rewrite <- (prodn_permuted inv s HI) in Hi. destruct (transpose_split inv s i HI Hi) as (q & Iq & Ei).
    rewrite Ei, transpose_at by auto.
    destruct (Nat.eqb_spec (ravel s q) (ravel s p)) as [E|E].
    + apply ravel_inj in E; auto. subst q. fold i0. rewrite Nat.eqb_refl. ring.
    + destruct (Nat.eqb_spec (ravel (permuted inv s) (permuted inv q)) i0) as [E'|E']; [|ring].
      exfalso. apply E. apply ravel_inj in E'; [|apply in_shape_permuted; auto|apply in_shape_permuted; auto].
      f_equal. pose proof (in_shape_length _ _ Iq) as Lq. pose proof (in_shape_length _ _ Ip) as Lp.
      rewrite <- (permuted_inverse inv q) by (rewrite <- Lq; auto). rewrite <- (permuted_inverse inv p) by (rewrite <- Lp; auto). congruence.
Qed.

Lemma permute_map : forall s dims f, Permutation dims (seq 1 (length s)) -> permuted (map pred dims) s = s ->
  is_permute s (map pred dims) f -> is_map (prodn s) (prodn s) f (backward_permute s dims).
Proof.
  intros s dims f HP Hs Hf y j Hj.
  assert (HP' : Permutation (map pred dims) (seq 0 (length s))).
  { apply (Permutation_map pred) in HP. rewrite <- seq_shift, map_map in HP. cbn [pred] in HP. rewrite map_id in HP. auto. }
  destruct (unravel_spec s j Hj) as [I E]. set (q := unravel s j) in *.
  assert (G : aff (prodn s) (bb_wu (backward_permute s dims)) zero_vec y j = f y j).
  { rewrite <- E at 1. rewrite permute_reads by auto. cbv zeta.
    pose proof (in_shape_length _ _ I) as Lq.
    assert (Hq : exists p, in_shape s p /\ q = permuted (map pred dims) p).
    { exists (unperm (map pred dims) q (length s)). split; [apply unperm_in_shape; auto; rewrite Hs; auto|].
      symmetry. apply permuted_unperm; auto. }
    destruct Hq as (p & Ip & Eq). pose proof (in_shape_length _ _ Ip) as Lp.
    rewrite Eq. rewrite <- Hs at 1. rewrite !permuted_inverse by (auto; rewrite <- Lp; auto).
    specialize (Hf y p Ip). rewrite Hs in Hf. rewrite <- E, Eq. auto. }
  split; exact G.
Qed.
