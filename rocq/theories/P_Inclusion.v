(** Isotonicity of the constant bounds: each layer, then networks. *)
From Coq Require Import Reals Lra Lia Psatz List Arith Bool ZArith Permutation.
From Verif Require Import RLib Spec Spec_Layers Spec_Backward Spec_Convert Spec_Network Spec_Inclusion M_Core M_Utils M_MergeLayers M_Ops M_Layers M_Pool M_Crown M_Convert M_Network.
From Verif Require Import P_Core P_Merge P_Utils P_MergeLayers P_Axis P_Ops P_Sort P_Act P_SShape P_Layers P_Move P_Graph P_Convert P_ConvertThm P_Pool P_Network P_NetworkForward P_Near.
From Verif Require Import Spec_Network.
Import ListNotations.
Local Open Scope R_scope.

Lemma bind_ok : forall (A B : Type) (r : result A) (k : A -> result B) y, bind r k = Ok y -> exists x, r = Ok x /\ k x = Ok y.
Proof. intros A B [x|e] k y H; [exists x; auto|discriminate H]. Qed.

Tactic Notation "inv_bind" hyp(H) ident(x) ident(E) := apply bind_ok in H; destruct H as (x & E & H).

Section Two.
Variables (ke : R) (sp sp' : spec).
Hypothesis Hm : get_ibp (sp_mode sp) = true.
Hypothesis Hm' : sp_mode sp' = IBP.
Hypothesis Hdc : sp_dc sp = false.
Hypothesis Hdc' : sp_dc sp' = false.
Hypothesis HD : norm_ok (sp_dom sp).
Hypothesis HD' : norm_ok (sp_dom sp').

Definition finside (m : nat) (r r' : full tensor) : Prop :=
  forall j, (j < m)%nat -> f_lc r' 0%nat j <= f_lc r 0%nat j /\ f_uc r 0%nat j <= f_uc r' 0%nat j.
Definition ins (m : nat) (ts ts' : list tensor) : Prop :=
  length ts = spec_nb (sp_mode sp) false /\ length ts' = spec_nb IBP false /\
  exists r r', unpack empty_tensor (sp_mode sp) false ts = Ok r /\ unpack empty_tensor IBP false ts' = Ok r' /\ finside m r r'.

Lemma Hib' : get_ibp (sp_mode sp') = true.
Proof. rewrite Hm'. reflexivity. Qed.

Lemma complete_le : forall ca ti r o, complete sp ca ti r = Ok o ->
  forall j, f_lc r 0%nat j <= f_lc o 0%nat j /\ f_uc o 0%nat j <= f_uc r 0%nat j.
Proof.
  intros ca ti r o H j. unfold complete in H. destruct (sp_mode sp) eqn:Em; [| |]; try discriminate Hm.
  - cbn [mode_eqb] in H. rewrite !andb_false_r in H. cbn [orb] in H. injection H as <-. lra.
  - cbn [mode_eqb] in H. rewrite andb_false_r, andb_true_r in H. cbn [orb] in H. destruct ti; [|injection H as <-; lra].
    inv_bind H ua E. inv_bind H la E'. injection H as <-. cbn. unfold vt. split; [apply Rmax_l|apply Rmin_l].
Qed.

Lemma ins_full : forall m ts ts' ca ti ca' ti' r r', ins m ts ts' -> get_fullinputs sp ca ti ts = Ok r -> get_fullinputs sp' ca' ti' ts' = Ok r' -> finside m r r'.
Proof.
  intros m ts ts' ca ti ca' ti' r r' (_ & _ & q & q' & Eq & Eq' & F) H H'. unfold get_fullinputs in *. rewrite Hdc, Eq in H. rewrite Hdc', Hm', Eq' in H'. cbn [bind] in *.
  unfold complete in H'. rewrite Hm' in H'. cbn [mode_eqb] in H'. rewrite !andb_false_r in H'. cbn [orb] in H'. injection H' as <-.
  intros j Hj. specialize (F j Hj). pose proof (complete_le _ _ _ _ H j). lra.
Qed.

Lemma ins_out : forall m o o', finside m o o' -> ins m (extract (sp_mode sp) (sp_dc sp) o) (extract (sp_mode sp') (sp_dc sp') o').
Proof.
  intros m o o' F. rewrite Hdc, Hdc', Hm'. unfold ins. destruct (sp_mode sp) eqn:Em; try discriminate Hm.
  - split; [reflexivity|]. split; [reflexivity|]. do 2 eexists. split; [reflexivity|]. split; [reflexivity|]. exact F.
  - split; [reflexivity|]. split; [reflexivity|]. do 2 eexists. split; [reflexivity|]. split; [reflexivity|]. exact F.
Qed.

Lemma ins_mono : forall m m' ts ts', (m' <= m)%nat -> ins m ts ts' -> ins m' ts ts'.
Proof. intros m m' ts ts' H (A & B & r & r' & E & E' & F). split; [exact A|]. split; [exact B|]. exists r, r'. split; [exact E|]. split; [exact E'|]. intros j Hj. apply F. lia. Qed.

(** ** linear layers *)
Definition pn_mono (m mo : nat) (Ap An : vec -> vec) : Prop :=
  forall u u' l l' : vec, (forall i, (i < m)%nat -> l' i <= l i /\ u i <= u' i) -> forall j, (j < mo)%nat ->
    Ap l' j + An u' j <= Ap l j + An u j /\ Ap u j + An l j <= Ap u' j + An l' j.

Lemma term_mono : forall k u u' l l', l' <= l -> u <= u' ->
  Rmax 0 k * l' + Rmin 0 k * u' <= Rmax 0 k * l + Rmin 0 k * u /\ Rmax 0 k * u + Rmin 0 k * l <= Rmax 0 k * u' + Rmin 0 k * l'.
Proof.
  intros k u u' l l' Hl Hu. destruct (Rle_dec 0 k).
  - rewrite Rmax_right, Rmin_left by lra. nra.
  - rewrite Rmax_left, Rmin_right by lra. nra.
Qed.

Lemma kdot_mono : forall rows d units k, (0 < units)%nat ->
  pn_mono (rows * d) (rows * units) (kdotv d units (kpos k)) (kdotv d units (kneg k)).
Proof.
  intros rows d units k Hu u u' l l' H j Hj. unfold kdotv, kpos, kneg. rewrite <- !rsum_plus.
  assert (Hp : (j / units < rows)%nat) by (apply Nat.div_lt_upper_bound; lia).
  split; apply rsum_le; intros c Hc; destruct (H (j / units * d + c)%nat ltac:(nia)) as [A B];
    pose proof (term_mono (k c (j mod units)%nat) _ _ _ _ A B); lra.
Qed.

Lemma conv_mono : forall g k, pn_mono (im_size (cg_in g)) (im_size (cg_out g)) (conv2d g (k4pos k)) (conv2d g (k4neg k)).
Proof.
  intros g k u u' l l' H j Hj. unfold conv2d, k4pos, k4neg. cbv zeta. rewrite <- !rsum_plus.
  assert (P : forall ky kx c, (c < cg_cin g)%nat ->
    let s := px_src (cg_last g) (cg_y g) (cg_x g) (cg_cin g) (im_y (cg_out g) j) (im_x (cg_out g) j) ky kx c in
    px l' s <= px l s /\ px u s <= px u' s).
  { intros ky kx c Hc s. destruct s as [i|] eqn:E; cbn [px]; [|lra]. apply H. apply (px_src_lt _ _ _ _ _ _ _ _ _ _ Hc E). }
  split; apply rsum_le; intros ky _; rewrite <- !rsum_plus; apply rsum_le; intros kx _; rewrite <- !rsum_plus;
    apply rsum_le; intros c Hc; destruct (P ky kx c Hc) as [A B];
    pose proof (term_mono (k ky kx c (im_ch (cg_out g) j)) _ _ _ _ A B); lra.
Qed.

Lemma lin_ins : forall m mo A Ap An ob r r' o o', pn_mono m mo Ap An -> finside m r r' ->
  lin_out sp A Ap An ob r o -> lin_out sp' A Ap An ob r' o' -> finside mo o o'.
Proof.
  intros m mo A Ap An ob r r' o o' HM F [O _] [O' _]. destruct (O Hm) as [E1 E2]. destruct (O' Hib') as [E3 E4].
  intros j Hj. rewrite E1, E2, E3, E4. destruct (HM (f_uc r 0%nat) (f_uc r' 0%nat) (f_lc r 0%nat) (f_lc r' 0%nat) F j Hj) as [H1 H2].
  destruct ob as [b|]; cbn [add_bias]; lra.
Qed.

Lemma dense_ins : forall rows d units kernel bias ts ts' out out', (0 < units)%nat -> ins (rows * d) ts ts' ->
  decomon_dense sp d units kernel bias false None ts = Ok out -> decomon_dense sp' d units kernel bias false None ts' = Ok out' ->
  ins (rows * units) out out'.
Proof.
  intros rows d units kernel bias ts ts' out out' Hu I H H'. unfold decomon_dense in *. rewrite get_fullinputs_r_false in *.
  inv_bind H r E. inv_bind H' r' E'. pose proof (ins_full _ _ _ _ _ _ _ _ _ I E E') as F.
  destruct (dense_full_out sp d units kernel bias r) as (o & Eo & Lo). destruct (dense_full_out sp' d units kernel bias r') as (o' & Eo' & Lo').
  rewrite Eo in H. rewrite Eo' in H'. cbn [bind] in *. injection H as <-. injection H' as <-. apply ins_out.
  exact (lin_ins _ _ _ _ _ _ _ _ _ _ (kdot_mono rows d units kernel Hu) F Lo Lo').
Qed.

Lemma conv_ins : forall g kernel bias ts ts' out out', ins (im_size (cg_in g)) ts ts' ->
  decomon_conv2d sp g kernel bias false ts = Ok out -> decomon_conv2d sp' g kernel bias false ts' = Ok out' ->
  ins (im_size (cg_out g)) out out'.
Proof.
  intros g kernel bias ts ts' out out' I H H'. unfold decomon_conv2d in *. rewrite get_fullinputs_r_false in *.
  inv_bind H r E. inv_bind H' r' E'. pose proof (ins_full _ _ _ _ _ _ _ _ _ I E E') as F.
  assert (Hd : dom_ok (sp_dom sp) (sp_mode sp)) by (destruct (sp_mode sp); cbn; auto).
  assert (Hd' : dom_ok (sp_dom sp') (sp_mode sp')) by (rewrite Hm'; cbn; auto).
  destruct (conv_full_out sp g kernel bias r Hd) as (o & Eo & Lo). destruct (conv_full_out sp' g kernel bias r' Hd') as (o' & Eo' & Lo').
  rewrite Eo in H. rewrite Eo' in H'. cbn [bind] in *. injection H as <-. injection H' as <-. apply ins_out.
  exact (lin_ins _ _ _ _ _ _ _ _ _ _ (conv_mono g kernel) F Lo Lo').
Qed.

Lemma finish_ins : forall m r r' out out', finside m r r' -> finish sp r = Ok out -> finish sp' r' = Ok out' -> ins m out out'.
Proof.
  intros m r r' out out' F H H'. unfold finish in *. rewrite Hdc in H. rewrite Hdc' in H'. injection H as <-. injection H' as <-.
  pose proof (ins_out m r r' F) as I. rewrite Hdc, Hdc' in I. exact I.
Qed.

Lemma bn_ins : forall pre k post axis gamma beta mean var eps ts ts' out out',
  bn_axis pre post axis -> (forall c, (c < k)%nat -> 0 < var c + eps) -> ins (prodn (pre ++ k :: post)) ts ts' ->
  decomon_bn sp (pre ++ k :: post) axis gamma beta mean var eps false ts = Ok out ->
  decomon_bn sp' (pre ++ k :: post) axis gamma beta mean var eps false ts' = Ok out' -> ins (prodn (pre ++ k :: post)) out out'.
Proof.
  intros pre k post axis gamma beta mean var eps ts ts' out out' Hax Hv I H H'. unfold decomon_bn in *.
  inv_bind H r E. inv_bind H' r' E'. pose proof (ins_full _ _ _ _ _ _ _ _ _ I E E') as F.
  assert (Eax : b_axis (pre ++ k :: post) axis = Ok (length pre)) by (destruct Hax as [-> | ->]; [apply b_axis_pos | apply b_axis_neg]).
  rewrite Eax in *. cbn [bind] in *. refine (finish_ins _ _ _ _ _ _ H H'). clear H H'.
  set (ga := match gamma with Some v => v | None => fun _ => 1 end). set (be := match beta with Some v => v | None => fun _ => 0 end).
  intros j Hj. rewrite Hm, Hib'. cbn [when f_uc f_lc]. destruct (F j Hj) as [A B].
  set (c := bn_chan (pre ++ k :: post) (length pre) j).
  assert (Hc : (c < k)%nat).
  { destruct (unravel_spec _ _ Hj) as [In E0]. apply Forall2_app_inv_l in In. destruct In as (p & q & Ip & Iq & E1).
    inversion Iq as [|? c' ? q' Hc Iq' E2 E3]; subst. unfold c. rewrite <- E0, E1. rewrite bn_chan_at; auto. }
  assert (Hs : 0 < / sqrt (var c + eps)) by (apply Rinv_0_lt_compat, sqrt_lt_R0; auto).
  pose proof (term_mono (ga c) ((f_uc r 0%nat j - mean c) / sqrt (var c + eps)) ((f_uc r' 0%nat j - mean c) / sqrt (var c + eps))
    ((f_lc r 0%nat j - mean c) / sqrt (var c + eps)) ((f_lc r' 0%nat j - mean c) / sqrt (var c + eps))) as T.
  assert (T1 : forall a b, a <= b -> (a - mean c) / sqrt (var c + eps) <= (b - mean c) / sqrt (var c + eps)) by (intros a b Hab; unfold Rdiv; apply Rmult_le_compat_r; lra).
  specialize (T (T1 _ _ A) (T1 _ _ B)). lra.
Qed.

(** ** layers that move entries *)
Lemma move_ins : forall m mo (idx : nat -> nat) (op opw op' opw' : tensor -> tensor) r r',
  (forall j, (j < mo)%nat -> (idx j < m)%nat) -> (forall t j, (j < mo)%nat -> op t 0%nat j = t 0%nat (idx j)) -> (forall t j, (j < mo)%nat -> op' t 0%nat j = t 0%nat (idx j)) ->
  finside m r r' -> finside mo (move_full sp op opw r) (move_full sp' op' opw' r').
Proof.
  intros m mo idx op opw op' opw' r r' Hi Hop Hop' F j Hj. unfold move_full. rewrite Hm, Hib'. cbn [when f_uc f_lc]. rewrite !Hop, !Hop' by exact Hj. apply F. apply Hi. exact Hj.
Qed.

Lemma flatten_ins : forall cf ch size ts ts' out out', ins (ch * size) ts ts' ->
  decomon_flatten sp cf ch size ts = Ok out -> decomon_flatten sp' cf ch size ts' = Ok out' -> ins (ch * size) out out'.
Proof.
  intros cf ch size ts ts' out out' I H H'. unfold decomon_flatten in *. inv_bind H r E. inv_bind H' r' E'. pose proof (ins_full _ _ _ _ _ _ _ _ _ I E E') as F.
  injection H as <-. injection H' as <-. apply ins_out. refine (move_ins _ _ (flatten_idx cf ch size) _ _ _ _ _ _ _ _ _ F); try reflexivity.
  intros j Hj. unfold flatten_idx. destruct cf; auto.
  assert (ch <> 0%nat) by (intro K; rewrite K in Hj; lia).
  assert (j mod ch < ch)%nat by (apply Nat.mod_upper_bound; auto).
  assert (j / ch < size)%nat by (apply Nat.div_lt_upper_bound; auto). nia.
Qed.

Lemma reshape_ins : forall m ts ts' out out', ins m ts ts' -> decomon_reshape sp ts = Ok out -> decomon_reshape sp' ts' = Ok out' -> ins m out out'.
Proof.
  intros m ts ts' out out' I H H'. unfold decomon_reshape in *. inv_bind H r E. inv_bind H' r' E'. pose proof (ins_full _ _ _ _ _ _ _ _ _ I E E') as F.
  injection H as <-. injection H' as <-. apply ins_out. refine (move_ins _ _ (fun j => j) _ _ _ _ _ _ _ _ _ F); auto.
Qed.

Lemma permute_ins : forall s dims ts ts' out out', Permutation dims (seq 1 (length s)) -> ins (prodn s) ts ts' ->
  decomon_permute sp s dims ts = Ok out -> decomon_permute sp' s dims ts' = Ok out' -> ins (prodn (permuted (map pred dims) s)) out out'.
Proof.
  intros s dims ts ts' out out' HP I H H'.
  assert (HP' : Permutation (map pred dims) (seq 0 (length s))).
  { apply (Permutation_map pred) in HP. rewrite <- seq_shift, map_map in HP. cbn in HP. rewrite map_id in HP. auto. }
  unfold decomon_permute in *. inv_bind H r E. inv_bind H' r' E'. pose proof (ins_full _ _ _ _ _ _ _ _ _ I E E') as F.
  cbv zeta in *. injection H as <-. injection H' as <-. apply ins_out. refine (move_ins _ _ (transpose_idx s (map pred dims)) _ _ _ _ _ _ _ _ _ F); try reflexivity.
  intros j Hj. apply transpose_lt; auto.
Qed.

(** ** operators *)
Lemma add_ins : forall m a b a' b' out out', ins m a a' -> ins m b b' -> add sp a b = Ok out -> add sp' a' b' = Ok out' -> ins m out out'.
Proof.
  intros m a b a' b' out out' I J H H'. unfold add in *. inv_bind H r0 E0. inv_bind H r1 E1. inv_bind H' r0' E0'. inv_bind H' r1' E1'.
  pose proof (ins_full _ _ _ _ _ _ _ _ _ I E0 E0') as F. pose proof (ins_full _ _ _ _ _ _ _ _ _ J E1 E1') as G.
  injection H as <-. injection H' as <-. apply ins_out. intros j Hj. specialize (F j Hj). specialize (G j Hj). cbn. lra.
Qed.

Lemma minus_ins : forall m a a' out out', ins m a a' -> minus sp a = Ok out -> minus sp' a' = Ok out' -> ins m out out'.
Proof.
  intros m a a' out out' I H H'. unfold minus in *. inv_bind H r0 E0. inv_bind H' r0' E0'. pose proof (ins_full _ _ _ _ _ _ _ _ _ I E0 E0') as F.
  injection H as <-. injection H' as <-. apply ins_out. intros j Hj. specialize (F j Hj). cbn. lra.
Qed.

Lemma subtract_ins : forall m a b a' b' out out', ins m a a' -> ins m b b' -> subtract sp a b = Ok out -> subtract sp' a' b' = Ok out' -> ins m out out'.
Proof.
  intros m a b a' b' out out' I J H H'. unfold subtract in *. inv_bind H r0 E0. inv_bind H' r0' E0'.
  exact (add_ins _ _ _ _ _ _ _ I (minus_ins _ _ _ _ _ J E0 E0') H H').
Qed.

Lemma relu_ins : forall sl ft sl' ft' m a a' out out', ins m a a' -> relu_ ke sp sl ft a = Ok out -> relu_ ke sp' sl' ft' a' = Ok out' -> ins m out out'.
Proof.
  intros sl ft sl' ft' m a a' out out' I H H'. unfold relu_ in *. inv_bind H r0 E0. inv_bind H' r0' E0'. pose proof (ins_full _ _ _ _ _ _ _ _ _ I E0 E0') as F.
  injection H as <-. injection H' as <-. apply ins_out. unfold relu_full. rewrite Hm, Hib', Hdc, Hdc'. intros j Hj. specialize (F j Hj).
  destruct (get_affine (sp_mode sp)), (get_affine (sp_mode sp')); cbn; unfold Rrelu; split; rcases.
Qed.

Lemma maximum_ins : forall ft ft' m a b a' b' out out', ins m a a' -> ins m b b' -> maximum ke sp ft a b = Ok out -> maximum ke sp' ft' a' b' = Ok out' -> ins m out out'.
Proof.
  intros ft ft' m a b a' b' out out' I J H H'. unfold maximum in *. inv_bind H r0 E0. inv_bind H r1 E1. inv_bind H' r0' E0'. inv_bind H' r1' E1'.
  exact (add_ins _ _ _ _ _ _ _ (relu_ins _ _ _ _ _ _ _ _ _ (subtract_ins _ _ _ _ _ _ _ J I E0 E0') E1 E1') I H H').
Qed.

(** activations *)
Lemma hull_out_ins : forall m f hl hl' r r', (forall x y, x <= y -> f x <= f y) -> finside m r r' ->
  finside m (hull_out sp (ew f (f_uc r)) (ew f (f_lc r)) hl r) (hull_out sp' (ew f (f_uc r')) (ew f (f_lc r')) hl' r').
Proof. intros m f hl hl' r r' Hf F j Hj. unfold hull_out. rewrite Hm, Hib'. cbn [when f_uc f_lc]. unfold ew. specialize (F j Hj). split; apply Hf; lra. Qed.

Lemma s_shape_le : forall f fp, s_shape f fp -> forall x y, x <= y -> f x <= f y.
Proof.
  intros f fp Hs x y [H | ->]; [|lra]. destruct (ss_mvt f fp Hs x y H) as (c & E & _). pose proof (ss_pos _ _ Hs c). nra.
Qed.

Lemma s_ins : forall f fp m a a' out out', s_shape f fp -> ins m a a' -> op_s_shape ke sp f fp a = Ok out -> op_s_shape ke sp' f fp a' = Ok out' -> ins m out out'.
Proof.
  intros f fp m a a' out out' Hs I H H'. unfold op_s_shape in *. inv_bind H r E. inv_bind H q Q. inv_bind H' r' E'. inv_bind H' q' Q'.
  refine (finish_ins _ _ _ _ _ _ H H'). apply hull_out_ins; [exact (s_shape_le f fp Hs)|]. exact (ins_full _ _ _ _ _ _ _ _ _ I E E').
Qed.

Lemma act_ins : forall o o' a m t t' out out', ins m t t' -> decomon_activation ke sp o a m t = Ok out -> decomon_activation ke sp' o' a m t' = Ok out' -> ins m out out'.
Proof.
  intros o o' a m t t' out out' I H H'. destruct a; cbn [decomon_activation] in *.
  - injection H as <-. injection H' as <-. exact I.
  - exact (relu_ins _ _ _ _ _ _ _ _ _ I H H').
  - exact (s_ins _ _ _ _ _ _ _ sigmoid_s I H H').
  - exact (s_ins _ _ _ _ _ _ _ tanh_s I H H').
  - exact (s_ins _ _ _ _ _ _ _ softsign_s I H H').
  - unfold op_softplus in *. inv_bind H r E. inv_bind H q Q. inv_bind H' r' E'. inv_bind H' q' Q'. refine (finish_ins _ _ _ _ _ _ H H').
    apply hull_out_ins; [exact softplus_le|]. exact (ins_full _ _ _ _ _ _ _ _ _ I E E').
  - unfold op_exp in *. inv_bind H r E. inv_bind H' r' E'. refine (finish_ins _ _ _ _ _ _ H H').
    apply hull_out_ins; [|exact (ins_full _ _ _ _ _ _ _ _ _ I E E')]. intros x y [K| ->]; [left; apply exp_increasing; exact K|right; reflexivity].
Qed.

(** ** merges *)
Inductive insl : list nat -> list (list tensor) -> list (list tensor) -> Prop :=
| insl_nil : insl [] [] []
| insl_cons : forall m ts ts' ms tss tss', ins m ts ts' -> insl ms tss tss' -> insl (m :: ms) (ts :: tss) (ts' :: tss').

Lemma insl_len : forall ms tss tss', insl ms tss tss' -> length tss = length ms /\ length tss' = length ms.
Proof. intros ms tss tss' H. induction H; cbn; [auto|]. destruct IHinsl. split; congruence. Qed.

Lemma insl_nth : forall ms tss tss' t m ts ts', insl ms tss tss' -> nth_error ms t = Some m -> nth_error tss t = Some ts -> nth_error tss' t = Some ts' -> ins m ts ts'.
Proof.
  intros ms tss tss' t m ts ts' H. revert t. induction H; intros [|t] A B C; try discriminate.
  - cbn in *. congruence.
  - cbn in *. eauto.
Qed.

Lemma insl_left : forall ms tss tss', insl ms tss tss' -> forall l, In l tss -> length l = spec_nb (sp_mode sp) (sp_dc sp).
Proof. intros ms tss tss' H. rewrite Hdc. induction H; intros l Hl; [destruct Hl|]. destruct Hl as [<-|Hl]; [apply H|apply IHinsl; exact Hl]. Qed.
Lemma insl_right : forall ms tss tss', insl ms tss tss' -> forall l, In l tss' -> length l = spec_nb (sp_mode sp') (sp_dc sp').
Proof. intros ms tss tss' H. rewrite Hdc', Hm'. induction H; intros l Hl; [destruct Hl|]. destruct Hl as [<-|Hl]; [apply H|apply IHinsl; exact Hl]. Qed.

Lemma split_ins : forall ms tss tss', insl ms tss tss' ->
  split_to_merge (nb_tensors (sp_mode sp) (sp_dc sp)) (concat tss) = tss /\ split_to_merge (nb_tensors (sp_mode sp') (sp_dc sp')) (concat tss') = tss'.
Proof.
  intros ms tss tss' H. split; rewrite nb_tensors_spec; apply split_to_merge_concat.
  - destruct (sp_mode sp), (sp_dc sp); cbn; lia.
  - exact (insl_left _ _ _ H).
  - destruct (sp_mode sp'), (sp_dc sp'); cbn; lia.
  - exact (insl_right _ _ _ H).
Qed.

Lemma by_type_ins : forall ms tss tss' r r', insl ms tss tss' -> get_fullinputs_by_type sp false true (concat tss) = Ok r -> get_fullinputs_by_type sp' false true (concat tss') = Ok r' ->
  length (f_uc r) = length ms /\ length (f_lc r) = length ms /\ length (f_uc r') = length ms /\ length (f_lc r') = length ms /\
  forall i, (i < length ms)%nat -> finside (nth i ms O) (rowd r i) (rowd r' i).
Proof.
  intros ms tss tss' r r' H E E'. destruct (insl_len _ _ _ H) as [L L'].
  destruct (merge_by_type_ok sp false true tss HD (insl_left _ _ _ H) ltac:(intros; reflexivity)) as (r0 & E0 & A & P).
  destruct (merge_by_type_ok sp' false true tss' HD' (insl_right _ _ _ H) ltac:(intros; reflexivity)) as (r0' & E0' & A' & P').
  rewrite E in E0. injection E0 as <-. rewrite E' in E0'. injection E0' as <-.
  unfold all_len in A, A'. rewrite L in A. rewrite L' in A'. repeat split; try tauto.
  - destruct (nth_error tss i) as [ts|] eqn:Et; [|apply nth_error_None in Et; lia].
    destruct (nth_error tss' i) as [ts'|] eqn:Et'; [|apply nth_error_None in Et'; lia].
    destruct (P i ts Et) as (q & Eq & Rq). destruct (P' i ts' Et') as (q' & Eq' & Rq').
    rewrite (row_is_rowd _ _ _ Rq), (row_is_rowd _ _ _ Rq').
    assert (I : ins (nth i ms O) ts ts') by (apply (insl_nth _ _ _ i _ _ _ H); auto; apply nth_error_nth'; lia).
    apply (ins_full _ _ _ _ _ _ _ _ _ I Eq Eq' j H1).
  - destruct (nth_error tss i) as [ts|] eqn:Et; [|apply nth_error_None in Et; lia].
    destruct (nth_error tss' i) as [ts'|] eqn:Et'; [|apply nth_error_None in Et'; lia].
    destruct (P i ts Et) as (q & Eq & Rq). destruct (P' i ts' Et') as (q' & Eq' & Rq').
    rewrite (row_is_rowd _ _ _ Rq), (row_is_rowd _ _ _ Rq').
    assert (I : ins (nth i ms O) ts ts') by (apply (insl_nth _ _ _ i _ _ _ H); auto; apply nth_error_nth'; lia).
    apply (ins_full _ _ _ _ _ _ _ _ _ I Eq Eq' j H1).
Qed.

Lemma sum_t_le : forall (l l' : list tensor) j, length l = length l' -> (forall i, (i < length l)%nat -> nth i l empty_tensor 0%nat j <= nth i l' empty_tensor 0%nat j) ->
  sum_t l 0%nat j <= sum_t l' 0%nat j.
Proof.
  intros l l' j. unfold sum_t.
  assert (G : forall (l l' : list tensor) (a a' : tensor), length l = length l' -> a 0%nat j <= a' 0%nat j -> (forall i, (i < length l)%nat -> nth i l empty_tensor 0%nat j <= nth i l' empty_tensor 0%nat j) ->
    fold_left (fun (acc t : tensor) => fun i j => acc i j + t i j) l a 0%nat j <= fold_left (fun (acc t : tensor) => fun i j => acc i j + t i j) l' a' 0%nat j).
  { clear l l'. intros l. induction l as [|t l IH]; intros [|t' l'] a a' L Ha H; try discriminate; [exact Ha|]. cbn [fold_left]. apply IH.
    - cbn in L. lia.
    - pose proof (H 0%nat ltac:(cbn; lia)) as H0. cbn in H0. lra.
    - intros i Hi. apply (H (Datatypes.S i)). cbn. lia. }
  intros L H. apply G; auto. lra.
Qed.

Lemma reduce_ins : forall (op : list tensor -> tensor) opw opw' m k tss tss' out out', (0 < k)%nat ->
  (forall (l l' : list tensor) j, length l = length l' -> (forall i, (i < length l)%nat -> nth i l empty_tensor 0%nat j <= nth i l' empty_tensor 0%nat j) -> op l 0%nat j <= op l' 0%nat j) ->
  insl (repeat m k) tss tss' -> merge_reduce sp op opw (concat tss) = Ok out -> merge_reduce sp' op opw' (concat tss') = Ok out' -> ins m out out'.
Proof.
  intros op opw opw' m k tss tss' out out' Hk Hop I H H'. unfold merge_reduce in *. inv_bind H r E. inv_bind H' r' E'.
  destruct (by_type_ins _ _ _ _ _ I E E') as (L1 & L2 & L3 & L4 & F). rewrite repeat_length in *.
  destruct (f_x r) as [|x xs]; [discriminate H|]. destruct (f_x r') as [|x' xs']; [discriminate H'|].
  rewrite Hm in H. rewrite Hib' in H'. rewrite Hm' in H'. cbn [get_affine] in H'.
  assert (F' : forall j, (j < m)%nat -> op (f_lc r') 0%nat j <= op (f_lc r) 0%nat j /\ op (f_uc r) 0%nat j <= op (f_uc r') 0%nat j).
  { intros j Hj. assert (G : forall i, (i < k)%nat -> nth i (f_lc r') empty_tensor 0%nat j <= nth i (f_lc r) empty_tensor 0%nat j /\ nth i (f_uc r) empty_tensor 0%nat j <= nth i (f_uc r') empty_tensor 0%nat j).
    { intros i Hi. specialize (F i Hi). replace (nth i (repeat m k) O) with m in F; [exact (F j Hj)|].
      clear - Hi. revert i Hi. induction k as [|k IH]; intros [|i] Hi; cbn; [lia|lia|reflexivity|apply IH; lia]. }
    split; apply Hop; try congruence; intros i Hi; apply G; congruence. }
  destruct (get_affine (sp_mode sp)); rewrite Hdc in H; rewrite Hdc' in H'; injection H as <-; injection H' as <-; rewrite <- Hdc at 1; rewrite <- Hdc', <- Hm'; apply ins_out; exact F'.
Qed.

Lemma avg_t_le : forall (l l' : list tensor) j, length l = length l' -> (forall i, (i < length l)%nat -> nth i l empty_tensor 0%nat j <= nth i l' empty_tensor 0%nat j) ->
  avg_t l 0%nat j <= avg_t l' 0%nat j.
Proof.
  intros l l' j L H. unfold avg_t. rewrite <- L. destruct l as [|t l].
  - destruct l'; [lra|discriminate L].
  - apply Rmult_le_compat_r; [|apply sum_t_le; auto]. left. apply Rinv_0_lt_compat. apply lt_0_INR. cbn. lia.
Qed.

Lemma fold_ins : forall (P : nat -> list tensor -> Prop) (op op' : list tensor -> list tensor -> result (list tensor)) m tss tss', 
  (forall a b a' b' o o', P m a -> P m b -> ins m a a' -> ins m b b' -> op a b = Ok o -> op' a' b' = Ok o' -> ins m o o' /\ P m o) ->
  forall k, insl (repeat m k) tss tss' -> (forall l, In l tss -> P m l) -> forall a a' o o', P m a -> ins m a a' -> foldR op tss a = Ok o -> foldR op' tss' a' = Ok o' -> ins m o o'.
Proof.
  intros P op op' m tss tss' Hop k I. remember (repeat m k) as ms eqn:Em. revert k Em.
  induction I as [|m0 ts ts' ms tss tss' J I IH]; intros k Em HP a a' o o' Pa Ia H H'.
  - cbn in *. injection H as <-. injection H' as <-. exact Ia.
  - destruct k as [|k]; [discriminate Em|]. cbn in Em. injection Em as -> ->. cbn [foldR] in *. inv_bind H q Q. inv_bind H' q' Q'.
    destruct (Hop _ _ _ _ _ _ Pa (HP ts (or_introl eq_refl)) Ia J Q Q') as [A B]. refine (IH k eq_refl _ q q' o o' B A H H').
    intros l Hl. apply HP. right. exact Hl.
Qed.

Lemma fold_shape : forall (op : list tensor -> list tensor -> result (list tensor)) tss out,
  match tss with [] => Err IndexError | [_] => Ok (concat tss) | a :: b :: q => o <- op a b ; foldR op q o end = Ok out ->
  exists a q, tss = a :: q /\ foldR op q a = Ok out.
Proof.
  intros op [|a [|b q]] out H; [discriminate H| |].
  - exists a, []. split; [reflexivity|]. cbn in *. rewrite app_nil_r in H. exact H.
  - exists a, (b :: q). split; [reflexivity|exact H].
Qed.

Lemma decomon_maximum_ins : forall m k tss tss' out out', insl (repeat m k) tss tss' ->
  decomon_maximum ke sp (concat tss) = Ok out -> decomon_maximum ke sp' (concat tss') = Ok out' -> ins m out out'.
Proof.
  intros m k tss tss' out out' I H H'. unfold decomon_maximum in *. destruct (split_ins _ _ _ I) as [S1 S2].
  rewrite S1 in H. rewrite S2 in H'. rewrite Hdc in H. rewrite Hdc' in H'. apply fold_shape in H, H'. destruct H as (a & q & -> & H). destruct H' as (a' & q' & -> & H').
  inversion I as [|m0 ? ? ms ? ? J I']; subst. destruct k as [|k]; [discriminate|]. cbn in H0. injection H0 as -> ->.
  refine (fold_ins (fun _ _ => True) _ _ m q q' _ k I' _ a a' out out' Logic.I J H H'); auto.
  intros x y x' y' o o' _ _ Ix Iy Ho Ho'. split; [|exact Logic.I]. exact (maximum_ins _ _ _ _ _ _ _ _ _ Ix Iy Ho Ho').
Qed.

Lemma mapR_ins : forall m k tss tss' ls ls', insl (repeat m k) tss tss' -> mapR (minus sp) tss = Ok ls -> mapR (minus sp') tss' = Ok ls' -> insl (repeat m k) ls ls'.
Proof.
  intros m k tss tss' ls ls' I. remember (repeat m k) as ms eqn:Em. revert k Em ls ls'. induction I as [|m0 ts ts' ms tss tss' J I IH]; intros k Em ls ls' H H'.
  - cbn in *. injection H as <-. injection H' as <-. constructor.
  - destruct k as [|k]; [discriminate Em|]. cbn in Em. injection Em as -> ->. cbn [mapR] in *. inv_bind H q Q. inv_bind H w W. inv_bind H' q' Q'. inv_bind H' w' W'.
    injection H as <-. injection H' as <-. constructor; [exact (minus_ins _ _ _ _ _ J Q Q')|exact (IH k eq_refl _ _ W W')].
Qed.

Lemma decomon_minimum_ins : forall m k tss tss' out out', insl (repeat m k) tss tss' ->
  decomon_minimum ke sp (concat tss) = Ok out -> decomon_minimum ke sp' (concat tss') = Ok out' -> ins m out out'.
Proof.
  intros m k tss tss' out out' I H H'. unfold decomon_minimum in *. destruct (split_ins _ _ _ I) as [S1 S2].
  rewrite S1 in H. rewrite S2 in H'. rewrite Hdc in H. rewrite Hdc' in H'. inv_bind H ls E. inv_bind H' ls' E'.
  pose proof (mapR_ins _ _ _ _ _ _ I E E') as I2.
  inversion I2 as [A B C|m0 a a' ms q q' J I3 A B C]; subst; [discriminate H|].
  destruct k as [|k]; [discriminate A|]. cbn in A. injection A as -> ->.
  inversion I3 as [A B C|m0 b b' ms q0 q0' J' I4 A B C]; subst.
  - destruct (insl_len _ _ _ I) as [L L']. assert (k = 0%nat) by (destruct k; [reflexivity|discriminate A]). subst k. cbn [length repeat] in *. destruct tss as [|t [|]]; try discriminate L. destruct tss' as [|t' [|]]; try discriminate L'.
    injection H as <-. injection H' as <-. cbn [concat]. rewrite !app_nil_r. inversion I; subst. assumption.
  - inv_bind H o1 O1. inv_bind H o2 O2. inv_bind H' o1' O1'. inv_bind H' o2' O2'.
    refine (minus_ins _ _ _ _ _ _ H H').
    refine (fold_ins (fun _ _ => True) (maximum ke sp None) (maximum ke sp' None) m (b :: q0) (b' :: q0') _ k I3 _ a a' o2 o2' Logic.I J _ _); auto.
    + intros x y x' y' o o' _ _ Ix Iy Ho Ho'. split; [|exact Logic.I]. exact (maximum_ins _ _ _ _ _ _ _ _ _ Ix Iy Ho Ho').
    + cbn [foldR]. rewrite O1. exact O2.
    + cbn [foldR]. rewrite O1'. exact O2'.
Qed.

Lemma decomon_subtract_ins : forall m tss tss' out out', insl [m; m] tss tss' ->
  decomon_subtract sp (concat tss) = Ok out -> decomon_subtract sp' (concat tss') = Ok out' -> ins m out out'.
Proof.
  intros m tss tss' out out' I H H'. unfold decomon_subtract in *. destruct (split_ins _ _ _ I) as [S1 S2].
  rewrite S1 in H. rewrite S2 in H'. rewrite Hdc in H. rewrite Hdc' in H'.
  inversion I as [|? a a' ? q q' J I1]; subst. inversion I1 as [|? b b' ? w w' J' I2]; subst. inversion I2; subst.
  exact (subtract_ins _ _ _ _ _ _ _ J J' H H').
Qed.

Lemma concatenate_ins : forall pre post ks axis tss tss' out out',
  axis_ok (sp_mode sp) pre post axis -> axis_ok (sp_mode sp') pre post axis -> ks <> [] -> insl (map (fun k => prodn (pre ++ k :: post)) ks) tss tss' ->
  decomon_concatenate sp (cat_shapes pre post ks) axis (concat tss) = Ok out -> decomon_concatenate sp' (cat_shapes pre post ks) axis (concat tss') = Ok out' ->
  ins (prodn (pre ++ total ks :: post)) out out'.
Proof.
  intros pre post ks axis tss tss' out out' Ha Ha' Hne I H H'. unfold decomon_concatenate in *. inv_bind H r E. inv_bind H' r' E'. cbv zeta in *.
  destruct (by_type_ins _ _ _ _ _ I E E') as (L1 & L2 & L3 & L4 & F). rewrite map_length in *.
  destruct ks as [|k0 ks']; [congruence|]. set (ks := k0 :: ks') in *.
  assert (E0 : nth 0 (cat_shapes pre post ks) [] = pre ++ k0 :: post) by reflexivity.
  rewrite E0 in *. rewrite (axis_ok_b _ pre k0 post axis Ha) in *. cbn [bind] in *. inv_bind H aw W. inv_bind H' aw' W'.
  refine (finish_ins _ _ _ _ _ _ H H'). intros j Hj. rewrite Hm, Hib'. cbn [when f_uc f_lc]. rewrite cat_lens_mid, ax_inner_mid.
  destruct (position_split_mid _ _ _ _ Hj) as (p & c0 & q & Ip & Hc & Iq & ->).
  destruct (locate_split ks c0 Hc) as (t & c & Ht & Hc' & ->).
  rewrite !(cat_at pre post ks) by auto. specialize (F t Ht).
  rewrite (nth_indep _ O (prodn (pre ++ 0%nat :: post))) in F by (rewrite map_length; exact Ht).
  rewrite (map_nth (fun k => prodn (pre ++ k :: post)) ks 0%nat t) in F.
  exact (F _ (position_mid_lt pre (nth t ks O) post p c q Ip Iq Hc')).
Qed.

(** ** max pooling *)
Lemma pool_fast_ins : forall g ts ts' out out', cg_cout g = cg_cin g -> ins (im_size (cg_in g)) ts ts' ->
  pool_fast sp g ts = Ok out -> pool_fast sp' g ts' = Ok out' -> ins (im_size (cg_out g)) out out'.
Proof.
  intros g ts ts' out out' Hch I H H'. unfold pool_fast in *. inv_bind H r E. inv_bind H' r' E'. pose proof (ins_full _ _ _ _ _ _ _ _ _ I E E') as F.
  refine (finish_ins _ _ _ _ _ _ H H'). intros j Hj. cbn [f_uc f_lc]. unfold vt.
  assert (P : forall i, In i (pool_px g j) -> (i < im_size (cg_in g))%nat).
  { intros i Hi. apply pool_px_in in Hi. destruct Hi as (ky & kx & _ & _ & Hi).
    assert (Hc : (im_ch (cg_out g) j < cg_cin g)%nat) by (rewrite <- Hch; apply (im_ch_lt (cg_out g)); auto).
    apply (px_src_lt _ _ _ _ _ _ _ _ _ _ Hc Hi). }
  split.
  - pose proof (max_pool_shift g (f_lc r' 0%nat) (f_lc r 0%nat) j 0 ltac:(lra)) as Q. rewrite Rplus_0_r in Q. apply Q. intros i Hi. destruct (F i (P i Hi)). lra.
  - pose proof (max_pool_shift g (f_uc r 0%nat) (f_uc r' 0%nat) j 0 ltac:(lra)) as Q. rewrite Rplus_0_r in Q. apply Q. intros i Hi. destruct (F i (P i Hi)). lra.
Qed.

Lemma op_max_ins : forall pre k post axis ts ts' out out', sp_mode sp = IBP -> (0 < k)%nat -> axis_ok IBP pre post axis -> ins (prodn (pre ++ k :: post)) ts ts' ->
  op_max ke sp (pre ++ k :: post) axis None ts = Ok out -> op_max ke sp' (pre ++ k :: post) axis None ts' = Ok out' -> ins (prodn (pre ++ post)) out out'.
Proof.
  intros pre k post axis ts ts' out out' Em Hk Ha I H H'. unfold op_max in *. inv_bind H r E. inv_bind H' r' E'. pose proof (ins_full _ _ _ _ _ _ _ _ _ I E E') as F.
  rewrite (axis_ok_b _ pre k post axis Ha) in *. cbn [bind] in *. rewrite Em, Hdc in H. rewrite Hm', Hdc' in H'. cbn [mode_eqb andb negb] in *.
  injection H as <-. injection H' as <-. unfold ins. rewrite Em. split; [reflexivity|]. split; [reflexivity|]. do 2 eexists. split; [reflexivity|]. split; [reflexivity|].
  intros j Hj. cbn [f_uc f_lc]. destruct (position_split _ _ _ Hj) as (p & q & Ip & Iq & ->). unfold red_axis. rewrite ax_len_mid.
  split.
  - match goal with |- rmax k ?v <= rmax k ?w => pose proof (rmax_shift k v w 0 Hk) as Q end. rewrite Rplus_0_r in Q. apply Q. intros c Hc. rewrite !slice_at by auto. destruct (F _ (position_mid_lt pre k post p c q Ip Iq Hc)). lra.
  - match goal with |- rmax k ?v <= rmax k ?w => pose proof (rmax_shift k v w 0 Hk) as Q end. rewrite Rplus_0_r in Q. apply Q. intros c Hc. rewrite !slice_at by auto. destruct (F _ (position_mid_lt pre k post p c q Ip Iq Hc)). lra.
Qed.

Lemma pool_not_fast_ins : forall g fl ts ts' out out', sp_mode sp = IBP -> pool_ok g -> pool_init (wn_k (cg_y g)) (wn_k (cg_x g)) = Ok fl -> ins (im_size (cg_in g)) ts ts' ->
  pool_not_fast ke sp g fl ts = Ok out -> pool_not_fast ke sp' g fl ts' = Ok out' -> ins (im_size (cg_out g)) out out'.
Proof.
  intros g fl ts ts' out out' Em Hg Hfl I H H'. unfold pool_not_fast in *. inv_bind H r E. inv_bind H' r' E'. pose proof (ins_full _ _ _ _ _ _ _ _ _ I E E') as F. cbv zeta in *.
  assert (Hsize : prodn (pool_shape g ++ [pool_p g]) = (im_size (cg_out g) * pool_p g)%nat) by (cbn; unfold im_size; lia).
  assert (Ffl : forall a b p, (a < wn_k (cg_y g))%nat -> (b < wn_k (cg_x g))%nat -> fl a b p = if Nat.eqb p (filter_index (wn_k (cg_y g)) a b) then 1 else 0).
  { destruct (pool_init_ok (wn_k (cg_y g)) (wn_k (cg_x g))) as (fl' & E'' & P').
    - destruct Hg as (_ & _ & _ & _ & ? & [-> | ->]); lia.
    - rewrite Hfl in E''. injection E''; intros ->. auto. }
  assert (Hky : (0 < wn_k (cg_y g))%nat) by (destruct Hg as (_ & _ & _ & _ & ? & [-> | ->]); lia).
  assert (HP : (0 < pool_p g)%nat) by (destruct Hg as (_ & _ & _ & _ & ? & _); unfold pool_p; nia).
  replace (im_size (cg_out g)) with (prodn (pool_shape g ++ [])) by (rewrite app_nil_r; cbn; unfold im_size; lia).
  refine (op_max_ins (pool_shape g) (pool_p g) [] (-1)%Z _ _ out out' Em HP _ _ H H').
  - right. split; auto.
  - apply ins_out. refine (move_ins _ _ (pool_idx g) _ _ _ _ _ _ _ _ _ F).
    + intros q Hq. rewrite Hsize in Hq. apply pool_idx_lt; auto.
    + intros t q Hq. rewrite Hsize in Hq. apply pool_conv_at; auto.
    + intros t q Hq. rewrite Hsize in Hq. apply pool_conv_at; auto.
Qed.

(** ** products *)
Definition mu (a b c d : R) : R := Rmax (b * d) (b * c) + Rmax (b * c) (a * c) - b * c.
Definition ml (a b c d : R) : R := Rmin (a * c) (a * d) + Rmin (a * c) (b * c) - a * c.

Lemma mu_case : forall a b c d, a <= b -> c <= d -> mu a b c d = (if Rle_dec 0 b then b * d else b * c) + (if Rle_dec 0 c then b * c else a * c) - b * c.
Proof. intros a b c d H K. unfold mu. f_equal. f_equal; destruct (Rle_dec 0 _); unfold Rmax; destruct (Rle_dec _ _); nra. Qed.

Lemma mu_mono : forall a b c d a' b' c' d', a' <= a -> a <= b -> b <= b' -> c' <= c -> c <= d -> d <= d' -> mu a b c d <= mu a' b' c' d'.
Proof.
  assert (S1 : forall a b c d a', a' <= a -> a <= b -> c <= d -> mu a b c d <= mu a' b c d).
  { intros. rewrite !mu_case by lra. destruct (Rle_dec 0 c), (Rle_dec 0 b); nra. }
  assert (S2 : forall a b c d b', a <= b -> b <= b' -> c <= d -> mu a b c d <= mu a b' c d).
  { intros. rewrite !mu_case by lra. destruct (Rle_dec 0 c), (Rle_dec 0 b), (Rle_dec 0 b'); nra. }
  assert (S3 : forall a b c d c', a <= b -> c' <= c -> c <= d -> mu a b c d <= mu a b c' d).
  { intros. rewrite !mu_case by lra. destruct (Rle_dec 0 c), (Rle_dec 0 c'), (Rle_dec 0 b); nra. }
  assert (S4 : forall a b c d d', a <= b -> c <= d -> d <= d' -> mu a b c d <= mu a b c d').
  { intros. rewrite !mu_case by lra. destruct (Rle_dec 0 c), (Rle_dec 0 b); nra. }
  intros. apply Rle_trans with (mu a' b c d); [apply S1; lra|]. apply Rle_trans with (mu a' b' c d); [apply S2; lra|].
  apply Rle_trans with (mu a' b' c' d); [apply S3; lra|]. apply S4; lra.
Qed.

Lemma ml_mu : forall a b c d, ml a b c d = - mu (-b) (-a) c d.
Proof. intros. unfold ml, mu. unfold Rmin, Rmax. repeat destruct (Rle_dec _ _); lra. Qed.

Lemma ml_mono : forall a b c d a' b' c' d', a' <= a -> a <= b -> b <= b' -> c' <= c -> c <= d -> d <= d' -> ml a' b' c' d' <= ml a b c d.
Proof. intros. rewrite !ml_mu. apply Ropp_le_contravar. apply mu_mono; lra. Qed.

(** bounds that hold at some point *)
Definition wit (m : nat) (S : vec -> Prop) (ts : list tensor) : Prop := exists f, op_sp sp S m f ts.

Lemma mul_ins : forall (S : vec -> Prop) z m a b a' b' o o', (0 < sp_n sp)%nat -> S z -> wit m S a -> wit m S b -> ins m a a' -> ins m b b' ->
  multiply sp a b = Ok o -> multiply sp' a' b' = Ok o' -> ins m o o' /\ wit m S o.
Proof.
  intros S z m a b a' b' o o' Hn Hz [f Wa] [h Wb] I J H H'.
  assert (Hd : dom_ok (sp_dom sp) (sp_mode sp)) by (destruct (sp_mode sp); cbn; auto).
  split.
  - destruct (get_full_sound sp true true S m f a Hn Hd Wa) as (r0 & E0 & C0 & _). destruct (get_full_sound sp true true S m h b Hn Hd Wb) as (r1 & E1 & C1 & _).
    rewrite orb_true_r in *. specialize (C0 eq_refl). specialize (C1 eq_refl).
    unfold multiply in *. rewrite E0, E1 in H. cbn [bind] in H. inv_bind H' r0' E0'. inv_bind H' r1' E1'.
    pose proof (ins_full _ _ _ _ _ _ _ _ _ I E0 E0') as F0. pose proof (ins_full _ _ _ _ _ _ _ _ _ J E1 E1') as F1.
    refine (finish_ins _ _ _ _ _ _ H H'). intros j Hj. specialize (F0 j Hj). specialize (F1 j Hj). specialize (C0 z j Hz Hj). specialize (C1 z j Hz Hj).
    unfold mul_full. rewrite Hm, Hib'. cbn [when f_uc f_lc].
    pose proof (ml_mono (f_lc r0 0%nat j) (f_uc r0 0%nat j) (f_lc r1 0%nat j) (f_uc r1 0%nat j) (f_lc r0' 0%nat j) (f_uc r0' 0%nat j) (f_lc r1' 0%nat j) (f_uc r1' 0%nat j) ltac:(lra) ltac:(lra) ltac:(lra) ltac:(lra) ltac:(lra) ltac:(lra)) as M1.
    pose proof (mu_mono (f_lc r0 0%nat j) (f_uc r0 0%nat j) (f_lc r1 0%nat j) (f_uc r1 0%nat j) (f_lc r0' 0%nat j) (f_uc r0' 0%nat j) (f_lc r1' 0%nat j) (f_uc r1' 0%nat j) ltac:(lra) ltac:(lra) ltac:(lra) ltac:(lra) ltac:(lra) ltac:(lra)) as M2.
    pose proof (mu_mono (f_lc r1 0%nat j) (f_uc r1 0%nat j) (f_lc r0 0%nat j) (f_uc r0 0%nat j) (f_lc r1' 0%nat j) (f_uc r1' 0%nat j) (f_lc r0' 0%nat j) (f_uc r0' 0%nat j) ltac:(lra) ltac:(lra) ltac:(lra) ltac:(lra) ltac:(lra) ltac:(lra)) as M3.
    split; [exact M1|]. apply Rmin_glb; [eapply Rle_trans; [apply Rmin_l|exact M2]|eapply Rle_trans; [apply Rmin_r|exact M3]].
  - destruct (multiply_sound sp S m f h a b Hn Hd Hdc Wa Wb) as (out & E & V). rewrite E in H. injection H as <-. eexists. exact V.
Qed.

Lemma decomon_multiply_ins : forall (S : vec -> Prop) z m k tss tss' out out', (0 < sp_n sp)%nat -> S z -> (forall l, In l tss -> wit m S l) -> insl (repeat m k) tss tss' ->
  decomon_multiply sp (concat tss) = Ok out -> decomon_multiply sp' (concat tss') = Ok out' -> ins m out out'.
Proof.
  intros S z m k tss tss' out out' Hn Hz W I H H'. unfold decomon_multiply in *. destruct (split_ins _ _ _ I) as [S1 S2].
  rewrite S1 in H. rewrite S2 in H'. rewrite Hdc in H. rewrite Hdc' in H'. apply fold_shape in H, H'. destruct H as (a & q & -> & H). destruct H' as (a' & q' & -> & H').
  inversion I as [|m0 ? ? ms ? ? J I']; subst. destruct k as [|k]; [discriminate|]. cbn in H0. injection H0 as -> ->.
  refine (fold_ins (fun m ts => wit m S ts) _ _ m q q' _ k I' _ a a' out out' (W a (or_introl eq_refl)) J H H').
  - intros x y x' y' o o' Px Py Ix Iy Ho Ho'. exact (mul_ins S z m x y x' y' o o' Hn Hz Px Py Ix Iy Ho Ho').
  - intros l Hl. apply W. right. exact Hl.
Qed.

Lemma permute_dim_ins : forall pre k post axis ts ts' out out', dot_axis_ok (sp_mode sp) pre post axis -> ins (prodn (pre ++ k :: post)) ts ts' ->
  permute_dimensions (mk_spec (sp_dc sp) (sp_mode sp) Box (sp_n sp)) (pre ++ k :: post) axis ts = Ok out ->
  permute_dimensions (mk_spec (sp_dc sp') (sp_mode sp') Box (sp_n sp')) (pre ++ k :: post) axis ts' = Ok out' -> ins (prodn (k :: pre ++ post)) out out'.
Proof.
  intros pre k post axis ts ts' out out' Hax I H H'. set (s := pre ++ k :: post) in *. unfold permute_dimensions in *. inv_bind H r E. inv_bind H' r' E'.
  assert (F : finside (prodn s) r r').
  { destruct I as (_ & _ & q & q' & Eq & Eq' & F). unfold get_fullinputs in E, E'. cbn [sp_dc sp_mode] in E, E'. rewrite Hdc, Eq in E. rewrite Hdc', Hm', Eq' in E'.
    cbn [bind] in *. unfold complete in E, E'. cbn [andb orb] in E, E'. injection E as <-. injection E' as <-. exact F. }
  destruct (Nat.leb_spec (length s) 1) as [Ls|Ls].
  { injection H as <-. injection H' as <-. replace (prodn (k :: pre ++ post)) with (prodn s); [exact I|].
    assert (pre = [] /\ post = []) as [Ep Eq].
    { unfold s in Ls. rewrite app_length in Ls. cbn [length] in Ls. destruct pre; cbn [length] in Ls; [|lia]. destruct post; cbn [length] in Ls; [auto|lia]. }
    unfold s. rewrite Ep, Eq. reflexivity. }
  assert (Lr : length s = (length pre + 1 + length post)%nat) by (unfold s; rewrite app_length; cbn [length]; lia).
  assert (Nb : norm_axis (length s + 1) axis = Ok (Datatypes.S (length pre))).
  { destruct Hax as [-> | [[_ ->] | [Ep Eq]]].
    - unfold neg_axis. replace (-1 - Z.of_nat (length post))%Z with (Z.of_nat (Datatypes.S (length pre)) - Z.of_nat (length s + 1))%Z by lia.
      apply norm_axis_neg. lia.
    - apply norm_axis_pos. lia.
    - rewrite Ep, Eq in Lr. cbn [length] in Lr. lia. }
  pose proof (move_axis_block _ _ _ axis Lr Nb) as B.
  assert (Eps : permuted (front (length pre) (length post)) s = k :: pre ++ post) by apply permuted_front.
  assert (HP : Permutation (front (length pre) (length post)) (seq 0 (length s))) by (rewrite Lr; apply front_perm).
  inv_bind H ib A1. inv_bind H pm A2. inv_bind H iw A3. inv_bind H pw A4. inv_bind H' ib' A1'. inv_bind H' pm' A2'. inv_bind H' iw' A3'. inv_bind H' pw' A4'.
  rewrite A1 in A1'. injection A1' as <-. rewrite A2 in A2'. injection A2' as <-. rewrite A1 in B. cbn [bind] in B. rewrite A2 in B. injection B as ->.
  rewrite finish_dom in H, H'. refine (finish_ins _ _ _ _ _ _ H H').
  assert (Hlt : forall j, (j < prodn (k :: pre ++ post))%nat -> (transpose_idx s (front (length pre) (length post)) j < prodn s)%nat).
  { intros j Hj. apply transpose_lt; auto. rewrite Eps. auto. }
  intros j Hj. unfold move_full. cbn [sp_mode]. rewrite Hm, Hib'. cbn [when f_uc f_lc]. unfold gather. apply F. apply Hlt. exact Hj.
Qed.

Lemma broadcast_ins : forall m mo idx ts ts' out out', (forall j, (j < mo)%nat -> (idx j < m)%nat) -> ins m ts ts' ->
  broadcast sp idx ts = Ok out -> broadcast sp' idx ts' = Ok out' -> ins mo out out'.
Proof.
  intros m mo idx ts ts' out out' Hi I H H'. unfold broadcast in *. inv_bind H r E. inv_bind H' r' E'. pose proof (ins_full _ _ _ _ _ _ _ _ _ I E E') as F.
  rewrite Hdc in H. rewrite Hdc' in H'. injection H as <-. injection H' as <-. rewrite <- Hdc at 1. rewrite <- Hdc'. apply ins_out.
  refine (move_ins _ _ idx _ _ _ _ _ _ Hi _ _ F); reflexivity.
Qed.

Lemma dot_ins : forall (S : vec -> Prop) z pre0 post0 pre1 post1 k axis0 axis1 tss tss' out out', (0 < sp_n sp)%nat -> S z ->
  dot_axis_ok (sp_mode sp) pre0 post0 axis0 -> dot_axis_ok (sp_mode sp) pre1 post1 axis1 ->
  Forall2 (fun m ts => wit m S ts) [prodn (pre0 ++ k :: post0); prodn (pre1 ++ k :: post1)] tss ->
  insl [prodn (pre0 ++ k :: post0); prodn (pre1 ++ k :: post1)] tss tss' ->
  decomon_dot sp (pre0 ++ k :: post0) (pre1 ++ k :: post1) axis0 axis1 (concat tss) = Ok out ->
  decomon_dot sp' (pre0 ++ k :: post0) (pre1 ++ k :: post1) axis0 axis1 (concat tss') = Ok out' ->
  ins (prodn ((pre0 ++ post0) ++ pre1 ++ post1)) out out'.
Proof.
  intros S z pre0 post0 pre1 post1 k axis0 axis1 tss tss' out out' Hn Hz Ha0 Ha1 W I H H'.
  destruct (split_ins _ _ _ I) as [S1 S2]. unfold decomon_dot in *. rewrite S1 in H. rewrite S2 in H'.
  assert (Hif : forall (A : Type) (a b : A), (if sp_dc sp then a else b) = b) by (intros; rewrite Hdc; auto).
  assert (Hif' : forall (A : Type) (a b : A), (if sp_dc sp' then a else b) = b) by (intros; rewrite Hdc'; auto).
  rewrite Hif in H. rewrite Hif' in H'.
  inversion I as [|? a a' ? q q' J0 I1]; subst. inversion I1 as [|? b b' ? w w' J1 I2]; subst. inversion I2; subst. clear I I1 I2 S1 S2.
  inversion W as [|? ? ? ? W0 W']; subst. inversion W' as [|? ? ? ? W1 _]; subst. clear W W'. destruct W0 as [f0 V0]. destruct W1 as [f1 V1].
  destruct (permute_dim_sound sp pre0 k post0 axis0 S f0 a Hdc Ha0 V0) as (p0 & i0 & E0 & T0 & (tw0 & W0 & HW0) & I0 & P0).
  destruct (permute_dim_sound sp pre1 k post1 axis1 S f1 b Hdc Ha1 V1) as (p1 & i1 & E1 & T1 & (tw1 & W1 & HW1) & I1 & P1).
  cbv zeta in *. rewrite E0, E1, T0, T1, W0, W1 in H. cbn [bind tl hd] in H.
  inv_bind H' p0' E0'. inv_bind H' p1' E1'. rewrite T0, T1 in H'. cbn [bind tl hd] in H'. inv_bind H' tw0' W0'. inv_bind H' tw1' W1'.
  destruct (get_affine (sp_mode sp) && _)%bool; [discriminate H|]. rewrite Hm' in H' at 1. cbn [get_affine andb] in H'. rewrite Nat.eqb_refl in *. cbn [negb] in *.
  inv_bind H b0 B0. inv_bind H b1 B1. inv_bind H o O. inv_bind H r R. inv_bind H' b0' B0'. inv_bind H' b1' B1'. inv_bind H' o' O'. inv_bind H' r' R'.
  set (n0 := prodn (pre0 ++ post0)) in *. set (n1 := prodn (pre1 ++ post1)) in *.
  assert (Hb0 : forall j, (j < k * (n0 * n1))%nat -> (dot_idx0 n0 n1 j < prodn (k :: pre0 ++ post0))%nat).
  { intros j Hj. destruct (dot_split _ _ _ _ Hj) as (c & x & y & Hc & Hx & Hy & ->). rewrite dot_idx0_at by auto.
    cbn [prodn]. fold n0. nia. }
  assert (Hb1 : forall j, (j < k * (n0 * n1))%nat -> (dot_idx1 n0 n1 j < prodn (k :: pre1 ++ post1))%nat).
  { intros j Hj. destruct (dot_split _ _ _ _ Hj) as (c & x & y & Hc & Hx & Hy & ->). rewrite dot_idx1_at by auto.
    cbn [prodn]. fold n1. nia. }
  destruct (broadcast_sound sp S _ (k * (n0 * n1)) _ (dot_idx0 n0 n1) p0 Hdc Hb0 P0) as (c0 & C0 & VB0). rewrite B0 in C0. injection C0 as <-.
  destruct (broadcast_sound sp S _ (k * (n0 * n1)) _ (dot_idx1 n0 n1) p1 Hdc Hb1 P1) as (c1 & C1 & VB1). rewrite B1 in C1. injection C1 as <-.
  pose proof (permute_dim_ins _ _ _ _ _ _ _ _ Ha0 J0 E0 E0') as K0. pose proof (permute_dim_ins _ _ _ _ _ _ _ _ Ha1 J1 E1 E1') as K1.
  pose proof (broadcast_ins _ _ _ _ _ _ _ Hb0 K0 B0 B0') as M0. pose proof (broadcast_ins _ _ _ _ _ _ _ Hb1 K1 B1 B1') as M1.
  assert (X0 : wit (k * (n0 * n1)) S b0) by (eexists; exact VB0). assert (X1 : wit (k * (n0 * n1)) S b1) by (eexists; exact VB1).
  destruct (mul_ins S z _ _ _ _ _ _ _ Hn Hz X0 X1 M0 M1 O O') as [Io _].
  pose proof (ins_full _ _ _ _ _ _ _ _ _ Io R R') as F. refine (finish_ins _ _ _ _ _ _ H H').
  rewrite prodn_app. fold n0 n1. intros j Hj. unfold move_full. rewrite Hm, Hib'. cbn [when f_uc f_lc]. unfold red_axis, slice.
  cbn [ax_len ax_inner nth skipn prodn]. rewrite Nat.mul_1_r. unfold flat.
  assert (G : forall c, (c < k)%nat -> ((j / (n0 * n1) * k + c) * (n0 * n1) + j mod (n0 * n1) < k * (n0 * n1))%nat).
  { intros c Hc. rewrite Nat.div_small, Nat.mod_small by exact Hj. nia. }
  split; apply rsum_le; intros c Hc; apply F; apply G; exact Hc.
Qed.

(** ** layers *)
Lemma one_ins : forall m tss tss', insl [m] tss tss' -> exists ts ts', concat tss = ts /\ concat tss' = ts' /\ ins m ts ts'.
Proof.
  intros m tss tss' I. inversion I as [|? ts ts' ? q q' J I1]; subst. inversion I1; subst. exists ts, ts'. cbn. rewrite !app_nil_r. auto.
Qed.

Lemma layer_ins : forall o o' L tss tss' out out', (0 < sp_n sp)%nat -> nl_ok (sp_mode sp) (lo_fast o) L -> lo_fast o' = lo_fast o ->
  (pooling_layer L -> lo_fast o = true \/ sp_mode sp = IBP) ->
  (product_layer L -> exists (S : vec -> Prop) z, S z /\ Forall2 (fun m ts => wit m S ts) (nl_in L) tss) ->
  insl (nl_in L) tss tss' -> decomon_layer ke sp o L (concat tss) = Ok out -> decomon_layer ke sp' o' L (concat tss') = Ok out' -> ins (nl_out L) out out'.
Proof.
  intros o o' L tss tss' out out' Hn Hok Hfast Hpool Hprod I H H'.
  destruct L; cbn [nl_in nl_out nl_ok decomon_layer pooling_layer product_layer] in *;
    try (destruct (one_ins _ _ _ I) as (ts & ts' & E & E' & J); rewrite E in H; rewrite E' in H').
  - exact (dense_ins _ _ _ _ _ _ _ _ _ Hok J H H').
  - exact (conv_ins _ _ _ _ _ _ _ J H H').
  - destruct Hok as [Hv Ha]. exact (bn_ins _ _ _ _ _ _ _ _ _ _ _ _ _ Ha Hv J H H').
  - exact (flatten_ins _ _ _ _ _ _ _ J H H').
  - exact (reshape_ins _ _ _ _ _ J H H').
  - exact (permute_ins _ _ _ _ _ _ Hok J H H').
  - cbn in H, H'. injection H as <-. injection H' as <-. exact J.
  - exact (act_ins _ _ _ _ _ _ _ _ J H H').
  - unfold decomon_max_pooling in *. rewrite Hfast in H'. inv_bind H fl F. rewrite F in H'. cbn [bind] in H'. destruct Hok as [Hc Hok]. destruct (lo_fast o).
    + exact (pool_fast_ins _ _ _ _ _ Hc J H H').
    + destruct (Hpool Logic.I) as [Q|Q]; [discriminate Q|]. refine (pool_not_fast_ins g fl ts ts' out out' Q _ F J H H'). unfold pool_ok. intuition.
  - exact (reduce_ins _ _ _ _ _ _ _ _ _ Hok sum_t_le I H H').
  - exact (reduce_ins _ _ _ _ _ _ _ _ _ Hok avg_t_le I H H').
  - exact (decomon_subtract_ins _ _ _ _ _ I H H').
  - destruct (Hprod Logic.I) as (S & z & Hz & W). refine (decomon_multiply_ins S z m k tss tss' out out' Hn Hz _ I H H').
    intros l Hl. clear - W Hl. revert k W. induction tss as [|t tss IH]; intros [|k] W; cbn in *; try contradiction; inversion W; subst.
    destruct Hl as [<-|Hl]; [assumption|]. apply (IH Hl k). assumption.
  - exact (decomon_maximum_ins _ _ _ _ _ _ I H H').
  - exact (decomon_minimum_ins _ _ _ _ _ _ I H H').
  - destruct Hok as [Hks Ha]. refine (concatenate_ins pre post ks axis tss tss' out out' Ha _ Hks I H H').
    rewrite Hm'. destruct Ha as [Ha|[Ha _]]; [left; exact Ha|right; auto].
  - destruct Hok as [Ha0 Ha1]. destruct (Hprod Logic.I) as (S & z & Hz & W). exact (dot_ins S z _ _ _ _ _ _ _ _ _ _ _ Hn Hz Ha0 Ha1 W I H H').
Qed.

(** ** networks *)
Lemma net_ins : forall opts opts' net its its' vs vs', (0 < sp_n sp)%nat -> sp_n sp' = sp_n sp -> net_ok (sp_n sp) net ->
  (forall i L ps, nth_error net i = Some (Some L, ps) -> nl_ok (sp_mode sp) (lo_fast (opts i)) L /\ lo_fast (opts' i) = lo_fast (opts i) /\
     (pooling_layer L -> lo_fast (opts i) = true \/ sp_mode sp = IBP) /\
     (product_layer L -> exists (S : vec -> Prop) z, S z /\ forall p, (p < i)%nat -> wit (net_dim (sp_n sp) net p) S (vs p))) ->
  ins (sp_n sp) its its' -> evaluates (decomon_net ke sp opts net) no_map its vs -> evaluates (decomon_net ke sp' opts' net) no_map its' vs' ->
  forall i, (i < length net)%nat -> ins (net_dim (sp_n sp) net i) (vs i) (vs' i).
Proof.
  intros opts opts' net its its' vs vs' Hn Hn' Hnet HL Hits Hev Hev' i. assert (Hn2 : (0 < sp_n sp')%nat) by (rewrite Hn'; exact Hn).
  induction (lt_wf i) as [i _ IH]. intros Hi.
  destruct (nth_error net i) as [[q ps]|] eqn:En; [|apply nth_error_None in En; lia]. destruct (Hnet i q ps En) as [Hp Hq].
  pose proof (Hev i _ (net_node ke sp opts net Hn i q ps En)) as E. pose proof (Hev' i _ (net_node ke sp' opts' net Hn2 i q ps En)) as E'.
  unfold no_map, node_out in E, E'. cbn [fn_kind fn_parents] in E, E'. unfold net_dim. rewrite En. destruct q as [L|].
  - destruct Hq as [Hne Hdim]. destruct (HL i L ps En) as (Hok & Hf & Hpo & Hpr).
    refine (layer_ins (opts i) (opts' i) L (map vs ps) (map vs' ps) (vs i) (vs' i) Hn Hok Hf Hpo _ _ _ _).
    + intros Q. destruct (Hpr Q) as (S & z & Hz & W). exists S, z. split; [exact Hz|]. rewrite <- Hdim.
      apply Forall2_map_map. intros p Hin. apply W. apply Hp. exact Hin.
    + rewrite <- Hdim. clear - IH Hp Hi. induction ps as [|p ps IHp]; cbn [map]; [constructor|]. constructor.
      * apply IH; [apply Hp; left; reflexivity|]. specialize (Hp p (or_introl eq_refl)). lia.
      * apply IHp. intros x Hx. apply Hp. right. exact Hx.
    + destruct ps; [contradiction|exact E].
    + destruct ps; [contradiction|exact E'].
  - subst ps. injection E as E. injection E' as E'. rewrite <- E, <- E'. exact Hits.
Qed.

Lemma ins_inside : forall m ts ts' D n D' n' final o o', sp_dom sp = D -> sp_n sp = n -> (final = IBP \/ final = HYBRID) -> (sp_mode sp = IBP -> final = IBP) -> ins m ts ts' ->
  convert2mode D n (sp_mode sp) final ts = Ok o -> convert2mode D' n' IBP IBP ts' = Ok o' -> inside final IBP m o o'.
Proof.
  intros m ts ts' D n D' n' final o o' HDo Hno Hf Hif I H H'. unfold convert2mode in *. inv_bind H r E. inv_bind H' r' E'.
  assert (Es : mk_spec false (sp_mode sp) D n = sp) by (destruct sp; cbn in *; subst; reflexivity). rewrite Es in E.
  assert (F : finside m r r').
  { destruct I as (L & L' & q & q' & Eq & Eq' & F). intros j Hj. specialize (F j Hj).
    unfold get_fullinputs in E. rewrite Hdc, Eq in E. cbn [bind] in E. pose proof (complete_le _ _ _ _ E j) as Q.
    unfold get_fullinputs, complete in E'. cbn [sp_dc sp_mode] in E'. rewrite Eq' in E'. cbn in E'. injection E' as <-. lra. }
  cbn [mode_eqb negb andb] in H'. injection H' as <-.
  assert (Eb : (mode_eqb (sp_mode sp) IBP && negb (mode_eqb final IBP))%bool = false) by (destruct (sp_mode sp); try reflexivity; rewrite (Hif eq_refl); reflexivity).
  rewrite Eb in H. injection H as <-. destruct Hf as [-> | ->]; cbn [extract app]; unfold inside, const_bounds; do 4 eexists; split; try reflexivity; split; try reflexivity; exact F.
Qed.
End Two.
