(** Proofs about M_Layers: linear layers (dense, convolution, batch normalisation). *)
From Coq Require Import Reals Lra Lia Psatz List Arith Bool ZArith.
From Verif Require Import RLib Spec Spec_Layers M_Core M_Utils M_MergeLayers M_Ops M_Layers.
From Verif Require Import P_Core P_Utils P_Axis P_Ops.
Import ListNotations.
Local Open Scope R_scope.

(** ** Linear operators split into a positive and a negative part *)

(** [A] is enclosed by its positive part on the upper bounds plus its negative part on the lower bounds *)
Definition pn_encl (m mo : nat) (A Ap An : vec -> vec) : Prop :=
  forall (v u l : vec), (forall i, (i < m)%nat -> l i <= v i <= u i) ->
  forall j, (j < mo)%nat -> Ap l j + An u j <= A v j <= Ap u j + An l j.
(** it commutes with affine combinations *)
Definition aff_op (A : vec -> vec) : Prop :=
  forall n (w : mat) (b z : vec) j, A (fun k => aff n w b z k) j = aff n (fun i => A (w i)) (A b) z j.

Lemma pn_const : forall m mo A Ap An (S : vec -> Prop) f (u l : vec), pn_encl m mo A Ap An ->
  const_ok S m f u l ->
  const_ok S mo (fun z => A (f z)) (fun j => Ap u j + An l j) (fun j => Ap l j + An u j).
Proof. intros m mo A Ap An S f u l H C z j Hz Hj. apply H; auto. Qed.

Lemma pn_affine : forall m mo A Ap An (S : vec -> Prop) n f wu bu wl bl,
  pn_encl m mo A Ap An -> aff_op Ap -> aff_op An ->
  affine_ok S n m f wu bu wl bl ->
  affine_ok S n mo (fun z => A (f z))
    (fun i j => Ap (wu i) j + An (wl i) j) (fun j => Ap bu j + An bl j)
    (fun i j => Ap (wl i) j + An (wu i) j) (fun j => Ap bl j + An bu j).
Proof.
  intros m mo A Ap An S n f wu bu wl bl H Lp Ln C z j Hz Hj.
  rewrite (aff_plus n (fun i => Ap (wl i)) (fun i => An (wu i)) (Ap bl) (An bu)).
  rewrite (aff_plus n (fun i => Ap (wu i)) (fun i => An (wl i)) (Ap bu) (An bl)).
  rewrite <- (Lp n wl bl z j), <- (Ln n wu bu z j), <- (Lp n wu bu z j), <- (Ln n wl bl z j).
  apply (H (f z) (fun k => aff n wu bu z k) (fun k => aff n wl bl z k)); auto.
Qed.

Lemma aff_bias : forall n w b c z j, aff n w (fun j => b j + c j) z j = aff n w b z j + c j.
Proof. intros. unfold aff. lra. Qed.

Lemma const_bias : forall (S : vec -> Prop) m f u l (c : vec), const_ok S m f u l ->
  const_ok S m (fun z j => f z j + c j) (fun j => u j + c j) (fun j => l j + c j).
Proof. intros S m f u l c C z j Hz Hj. specialize (C z j Hz Hj). lra. Qed.

Lemma affine_bias : forall (S : vec -> Prop) n m f wu bu wl bl (c : vec), affine_ok S n m f wu bu wl bl ->
  affine_ok S n m (fun z j => f z j + c j) wu (fun j => bu j + c j) wl (fun j => bl j + c j).
Proof. intros S n m f wu bu wl bl c C z j Hz Hj. rewrite !aff_bias. specialize (C z j Hz Hj). lra. Qed.

Lemma term_pn : forall k v u l, l <= v <= u ->
  Rmax 0 k * l + Rmin 0 k * u <= k * v <= Rmax 0 k * u + Rmin 0 k * l.
Proof.
  intros k v u l H. destruct (Rle_dec 0 k).
  - rewrite Rmax_right, Rmin_left by lra. nra.
  - rewrite Rmax_left, Rmin_right by lra. nra.
Qed.

(** ** Dense *)
Definition kdotv (d units : nat) (k : mat) (v : vec) : vec :=
  fun j => rsum d (fun c => v (j / units * d + c)%nat * k c (j mod units)%nat).

Lemma kdot_encl : forall rows d units k, (0 < units)%nat ->
  pn_encl (rows * d) (rows * units) (kdotv d units k) (kdotv d units (kpos k)) (kdotv d units (kneg k)).
Proof.
  intros rows d units k Hu v u l H j Hj. unfold kdotv, kpos, kneg. rewrite <- !rsum_plus.
  assert (Hr : (j / units < rows)%nat) by (apply Nat.div_lt_upper_bound; lia).
  assert (P : forall c, (c < d)%nat -> (j / units * d + c < rows * d)%nat) by (intros; nia).
  split; apply rsum_le; intros c Hc; specialize (H _ (P c Hc));
    pose proof (term_pn (k c (j mod units)%nat) _ _ _ H); lra.
Qed.

Lemma kdot_aff : forall d units k, aff_op (kdotv d units k).
Proof.
  intros d units k n w b z j. unfold kdotv, aff, dot.
  rewrite (rsum_ext d _ (fun c => rsum n (fun i => w i (j / units * d + c)%nat * k c (j mod units)%nat * z i)
    + b (j / units * d + c)%nat * k c (j mod units)%nat)).
  - rewrite rsum_plus. f_equal. rewrite rsum_swap. apply rsum_ext. intros i _.
    rewrite <- rsum_scal_r. reflexivity.
  - intros c _. rewrite Rmult_plus_distr_r, <- rsum_scal_r. f_equal. apply rsum_ext. intros. ring.
Qed.

(** ** 2D convolution *)

Lemma pos3_lt : forall a b c A B C, (a < A -> b < B -> c < C -> (a * B + b) * C + c < A * B * C)%nat.
Proof.
  intros. assert (a * B + b + 1 <= A * B)%nat by nia.
  assert ((a * B + b + 1) * C <= A * B * C)%nat by (apply Nat.mul_le_mono_r; auto). lia.
Qed.

Lemma im_pos_lt : forall m y x c, (y < im_h m)%nat -> (x < im_w m)%nat -> (c < im_c m)%nat -> (im_pos m y x c < im_size m)%nat.
Proof.
  intros m y x c Hy Hx Hc. unfold im_pos, im_size. destruct (im_last m).
  - apply pos3_lt; auto.
  - replace (im_h m * im_w m * im_c m)%nat with (im_c m * im_h m * im_w m)%nat by lia. apply pos3_lt; auto.
Qed.

(** a triple sum as an operator *)
Lemma conv_encl : forall g k,
  pn_encl (im_size (cg_in g)) (im_size (cg_out g)) (conv2d g k) (conv2d g (k4pos k)) (conv2d g (k4neg k)).
Proof.
  intros g k v u l H j Hj. unfold conv2d, k4pos, k4neg. cbv zeta.
  rewrite <- !rsum_plus.
  assert (P : forall ky kx c, (c < cg_cin g)%nat ->
    let s := px_src (cg_last g) (cg_y g) (cg_x g) (cg_cin g) (im_y (cg_out g) j) (im_x (cg_out g) j) ky kx c in
    px l s <= px v s <= px u s).
  { intros ky kx c Hc. unfold px_src, wn_src. cbv zeta.
    destruct (Nat.leb_spec (wn_pad (cg_y g)) (im_y (cg_out g) j * wn_s (cg_y g) + ky * wn_d (cg_y g))); [|cbn; lra].
    destruct (Nat.ltb_spec (im_y (cg_out g) j * wn_s (cg_y g) + ky * wn_d (cg_y g) - wn_pad (cg_y g)) (wn_in (cg_y g))); [|cbn; lra].
    destruct (Nat.leb_spec (wn_pad (cg_x g)) (im_x (cg_out g) j * wn_s (cg_x g) + kx * wn_d (cg_x g))); [|cbn; lra].
    destruct (Nat.ltb_spec (im_x (cg_out g) j * wn_s (cg_x g) + kx * wn_d (cg_x g) - wn_pad (cg_x g)) (wn_in (cg_x g))); [|cbn; lra].
    cbn [px]. apply H. apply im_pos_lt; cbn [im_h im_w im_c]; auto. }
  split; apply rsum_le; intros ky _; rewrite <- !rsum_plus; apply rsum_le; intros kx _; rewrite <- !rsum_plus;
    apply rsum_le; intros c Hc; specialize (P ky kx c Hc); cbv zeta in P;
    pose proof (term_pn (k ky kx c (im_ch (cg_out g) j)) _ _ _ P); lra.
Qed.

Lemma px_aff : forall n w b z o, px (fun k => aff n w b z k) o = rsum n (fun i => px (w i) o * z i) + px b o.
Proof.
  intros n w b z [i|]; cbn; [reflexivity|]. rewrite (rsum_eq0 n); [lra|]. intros; ring.
Qed.

Lemma conv_aff : forall g k, aff_op (conv2d g k).
Proof.
  intros g k n w b z j. unfold conv2d. cbv zeta. unfold aff at 2. unfold dot.
  set (src := fun ky kx c => px_src (cg_last g) (cg_y g) (cg_x g) (cg_cin g) (im_y (cg_out g) j) (im_x (cg_out g) j) ky kx c).
  set (kk := fun ky kx c => k ky kx c (im_ch (cg_out g) j)).
  assert (E : forall K1 K2 K3,
    rsum K1 (fun ky => rsum K2 (fun kx => rsum K3 (fun c => kk ky kx c * px (fun k => aff n w b z k) (src ky kx c)))) =
    rsum n (fun i => rsum K1 (fun ky => rsum K2 (fun kx => rsum K3 (fun c => kk ky kx c * px (w i) (src ky kx c)))) * z i) +
    rsum K1 (fun ky => rsum K2 (fun kx => rsum K3 (fun c => kk ky kx c * px b (src ky kx c))))).
  { intros K1 K2 K3.
    assert (E3 : forall ky kx, rsum K3 (fun c => kk ky kx c * px (fun k => aff n w b z k) (src ky kx c)) =
      rsum n (fun i => rsum K3 (fun c => kk ky kx c * px (w i) (src ky kx c)) * z i) + rsum K3 (fun c => kk ky kx c * px b (src ky kx c))).
    { intros ky kx.
      rewrite (rsum_ext K3 _ (fun c => rsum n (fun i => kk ky kx c * px (w i) (src ky kx c) * z i) + kk ky kx c * px b (src ky kx c))).
      - rewrite rsum_plus, rsum_swap. f_equal. apply rsum_ext. intros. apply rsum_scal_r.
      - intros c _. rewrite px_aff, Rmult_plus_distr_l, <- rsum_scal. f_equal. apply rsum_ext. intros; ring. }
    assert (E2 : forall ky, rsum K2 (fun kx => rsum K3 (fun c => kk ky kx c * px (fun k => aff n w b z k) (src ky kx c))) =
      rsum n (fun i => rsum K2 (fun kx => rsum K3 (fun c => kk ky kx c * px (w i) (src ky kx c))) * z i) +
      rsum K2 (fun kx => rsum K3 (fun c => kk ky kx c * px b (src ky kx c)))).
    { intros ky. rewrite (rsum_ext K2 _ _ (fun kx _ => E3 ky kx)). rewrite rsum_plus, rsum_swap. f_equal.
      apply rsum_ext. intros. apply rsum_scal_r. }
    rewrite (rsum_ext K1 _ _ (fun ky _ => E2 ky)). rewrite rsum_plus, rsum_swap. f_equal.
    apply rsum_ext. intros. apply rsum_scal_r. }
  apply E.
Qed.

(** ** identity inputs *)
Lemma get_fullinputs_r_false : forall sp ca ti ts, get_fullinputs_r false sp ca ti ts = get_fullinputs sp ca ti ts.
Proof. reflexivity. Qed.

(** what the completed tensors of an identity input satisfy *)
Definition vident (D : domain) (mode : fmode) (S : vec -> Prop) (n : nat) (r : full tensor) : Prop :=
  (get_ibp mode = true -> const_ok S n (fun z => z) (f_uc r 0%nat) (f_lc r 0%nat)) /\
  (get_affine mode = true -> forall z, S z -> in_dom D n (f_x r) z).

Lemma ball_coord : forall n p eps c z i, p <> Pnum 0 -> in_ball n p eps c z -> (i < n)%nat -> Rabs (z i - c i) <= eps.
Proof.
  intros n p eps c z i Hp H Hi. destruct p as [k|]; [|apply H; auto].
  destruct H as [He H]. destruct k as [|k]; [congruence|].
  destruct (Rle_dec (Rabs (z i - c i)) eps) as [L|L]; auto.
  exfalso. assert (G : eps ^ S k < Rabs (z i - c i) ^ S k).
  { clear H Hp. apply Rnot_le_lt in L. induction k as [|k IH]; [cbn; lra|].
    change (eps * eps ^ S k < Rabs (z i - c i) * Rabs (z i - c i) ^ S k).
    assert (0 <= eps ^ S k) by (apply pow_le; auto). assert (0 < Rabs (z i - c i) ^ S k) by lra. nra. }
  pose proof (rsum_ge_term n (fun i => Rabs (z i - c i) ^ S k) i
    (fun k0 _ => pow_le _ _ (Rabs_pos _)) Hi). cbv beta in *. lra.
Qed.

Lemma ident_sound : forall sp ti (S : vec -> Prop) ts,
  (forall eps, sp_dom sp <> Ball eps (Pnum 0)) ->
  valid_identity (sp_dom sp) (sp_mode sp) (sp_dc sp) S (sp_n sp) ts ->
  exists r, get_fullinputs_r true sp false ti ts = Ok r /\ vident (sp_dom sp) (sp_mode sp) S (sp_n sp) r.
Proof.
  intros sp ti S ts HD [Hl Hv]. unfold get_fullinputs_r.
  destruct (extract_unpack tensor empty_tensor _ _ _ Hl) as (r & Er & Ex). rewrite Er. cbn [bind].
  assert (V : vident (sp_dom sp) (sp_mode sp) S (sp_n sp) r).
  { destruct r as [x uc wu bu lc wl bl h g]. subst ts. unfold vident.
    destruct (sp_mode sp), (sp_dc sp); cbn in *; split; intros; try discriminate; try tauto; apply Hv; auto. }
  clear Hl Hv Er Ex ts. destruct V as [V1 V2]. unfold complete_r.
  destruct (sp_mode sp) eqn:Em; cbn [mode_eqb andb orb].
  - rewrite andb_false_r. exists r. split; auto. split; auto.
  - rewrite andb_false_r. exists r. split; auto. split; auto.
  - destruct ti; cbn [andb]; [|exists r; split; auto; split; auto].
    specialize (V1 eq_refl). specialize (V2 eq_refl).
    assert (G : exists ua la, get_upper (sp_dom sp) (sp_n sp) true (f_x r) (f_wu r) (f_bu r 0%nat) no_kw = Ok ua /\
      get_lower (sp_dom sp) (sp_n sp) true (f_x r) (f_wl r) (f_bl r 0%nat) no_kw = Ok la /\
      (forall z i, in_dom (sp_dom sp) (sp_n sp) (f_x r) z -> (i < sp_n sp)%nat -> la i <= z i <= ua i)).
    { destruct (sp_dom sp) as [|eps p].
      - exists (f_x r 1%nat), (f_x r 0%nat). repeat split; auto; apply H; auto.
      - exists (fun j => f_x r 0%nat j + eps), (fun j => f_x r 0%nat j - eps). split; [reflexivity|]. split; [reflexivity|].
        intros z i Hz Hi.
        assert (Hp : p <> Pnum 0) by (intros ->; apply (HD eps); auto).
        pose proof (ball_coord _ _ _ _ _ i Hp Hz Hi) as B. unfold Rabs in B. destruct Rcase_abs; lra. }
    destruct G as (ua & la & E1 & E2 & B). rewrite E1, E2. cbn [bind].
    eexists. split; [reflexivity|]. split; cbn; auto. intros _ z i Hz Hi.
    specialize (V1 z i Hz Hi). specialize (B z i (V2 z Hz) Hi).
    split; [apply Rmax_lub | apply Rmin_glb]; lra.
Qed.

(** ** DecomonDense *)
Definition bias_of (b : option vec) : vec := match b with Some v => v | None => fun _ => 0 end.

Definition add_bias (ob : option vec) (v : vec) : vec := match ob with Some b => fun j => v j + b j | None => v end.

Lemma const_add_bias : forall (S : vec -> Prop) m f u l ob, const_ok S m f u l ->
  const_ok S m (fun z j => f z j + bias_of ob j) (add_bias ob u) (add_bias ob l).
Proof.
  intros S m f u l [b|] C; cbn [add_bias bias_of]; [apply const_bias; auto|].
  intros z j Hz Hj. specialize (C z j Hz Hj). lra.
Qed.
Lemma affine_add_bias : forall (S : vec -> Prop) n m f wu bu wl bl ob, affine_ok S n m f wu bu wl bl ->
  affine_ok S n m (fun z j => f z j + bias_of ob j) wu (add_bias ob bu) wl (add_bias ob bl).
Proof.
  intros S n m f wu bu wl bl [b|] C; cbn [add_bias bias_of]; [apply affine_bias; auto|].
  intros z j Hz Hj. specialize (C z j Hz Hj). lra.
Qed.

(** soundness of any layer of the form A^+ / A^- plus a bias *)
Definition lin_out (sp : spec) (A Ap An : vec -> vec) (ob : option vec) (r o : full tensor) : Prop :=
  (get_ibp (sp_mode sp) = true ->
     f_uc o 0%nat = add_bias ob (fun j => Ap (f_uc r 0%nat) j + An (f_lc r 0%nat) j) /\
     f_lc o 0%nat = add_bias ob (fun j => Ap (f_lc r 0%nat) j + An (f_uc r 0%nat) j)) /\
  (get_affine (sp_mode sp) = true -> f_x o = f_x r /\
     f_wu o = (fun i j => Ap (f_wu r i) j + An (f_wl r i) j) /\
     f_wl o = (fun i j => Ap (f_wl r i) j + An (f_wu r i) j) /\
     f_bu o 0%nat = add_bias ob (fun j => Ap (f_bu r 0%nat) j + An (f_bl r 0%nat) j) /\
     f_bl o 0%nat = add_bias ob (fun j => Ap (f_bl r 0%nat) j + An (f_bu r 0%nat) j)).

Lemma lin_out_sound : forall sp (S : vec -> Prop) m mo A Ap An ob f r o,
  pn_encl m mo A Ap An -> aff_op Ap -> aff_op An ->
  vfull (sp_dom sp) (get_ibp (sp_mode sp)) (get_affine (sp_mode sp)) S (sp_n sp) m f r ->
  lin_out sp A Ap An ob r o ->
  op_sp sp S mo (fun z j => A (f z) j + bias_of ob j) (extract (sp_mode sp) (sp_dc sp) o).
Proof.
  intros sp S m mo A Ap An ob f r o HE Lp Ln [C V] [O1 O2]. apply vfull_valid. split.
  - intros Hi. destruct (O1 Hi) as [-> ->]. apply const_add_bias. apply (pn_const m mo A Ap An); auto.
  - intros Ha. destruct (O2 Ha) as (-> & -> & -> & -> & ->). destruct (V Ha) as [X B]. split; auto.
    apply affine_add_bias. apply (pn_affine m mo A Ap An); auto.
Qed.

Lemma dense_full_out : forall sp d units kernel bias r,
  exists o, dense_full sp d units kernel bias false None r = Ok o /\
    lin_out sp (kdotv d units kernel) (kdotv d units (kpos kernel)) (kdotv d units (kneg kernel)) (option_map (tile units) bias) r o.
Proof.
  intros sp d units kernel bias r. unfold dense_full, lin_out.
  destruct (sp_dc sp), (get_ibp (sp_mode sp)), (get_affine (sp_mode sp)), bias as [b|]; cbn [andb negb is_some];
    (eexists; split; [reflexivity|]); split; intros Hx; try discriminate Hx; repeat split; reflexivity.
Qed.

Lemma tile_bias : forall units ob j, bias_of (option_map (tile units) ob) j = bias_of ob (j mod units)%nat.
Proof. intros units [b|] j; reflexivity. Qed.

Lemma dense_sound : forall sp rows d units kernel bias S f ts,
  (0 < sp_n sp)%nat -> dom_ok (sp_dom sp) (sp_mode sp) -> (0 < units)%nat ->
  op_sp sp S (rows * d) f ts ->
  exists out, decomon_dense sp d units kernel bias false None ts = Ok out /\
    op_sp sp S (rows * units) (fun z => keras_dense d units kernel (bias_of bias) (f z)) out.
Proof.
  intros sp rows d units kernel bias S f ts Hn Hd Hu Hv.
  destruct (get_full_sound sp false true S _ f ts Hn Hd Hv) as (r & Er & V).
  rewrite orb_false_r in V.
  unfold decomon_dense. rewrite get_fullinputs_r_false, Er. cbn [bind].
  destruct (dense_full_out sp d units kernel bias r) as (o & Eo & Lo). rewrite Eo. cbn [bind].
  eexists. split; [reflexivity|].
  eapply op_sp_ext; [|exact (lin_out_sound sp S _ _ _ _ _ _ f r o (kdot_encl rows d units kernel Hu) (kdot_aff _ _ _) (kdot_aff _ _ _) V Lo)].
  intros z j _ _. cbv beta. rewrite tile_bias. reflexivity.
Qed.

(** ** DecomonConv2D *)
Lemma conv_full_out : forall sp g kernel bias r, dom_ok (sp_dom sp) (sp_mode sp) ->
  exists o, conv_full sp g kernel bias false r = Ok o /\
    lin_out sp (conv2d g kernel) (conv2d g (k4pos kernel)) (conv2d g (k4neg kernel)) (option_map (conv_bias g) bias) r o.
Proof.
  intros sp g kernel bias r Hd. unfold conv_full, lin_out.
  destruct (get_affine (sp_mode sp)) eqn:Ea.
  - assert (Hn : norm_ok (sp_dom sp)) by (destruct (sp_mode sp); [discriminate | exact Hd | exact Hd]).
    destruct (get_upper_ok (sp_dom sp) (sp_n sp) (f_x r) (ew2 Rminus (f_wu r) (f_wl r)) (ew2 Rminus (f_bu r) (f_bl r) 0%nat) Hn) as [xm ->].
    destruct (sp_dc sp), (get_ibp (sp_mode sp)), bias as [b|]; cbn [bind];
    (eexists; split; [reflexivity|]); split; intros Hx; try discriminate Hx; repeat split; reflexivity.
  - destruct (sp_dc sp), (get_ibp (sp_mode sp)), bias as [b|]; cbn [bind];
    (eexists; split; [reflexivity|]); split; intros Hx; try discriminate Hx; repeat split; reflexivity.
Qed.

Lemma conv_bias_of : forall g ob j, bias_of (option_map (conv_bias g) ob) j = bias_of ob (im_ch (cg_out g) j).
Proof. intros g [b|] j; reflexivity. Qed.

Lemma conv_sound : forall sp g kernel bias S f ts,
  (0 < sp_n sp)%nat -> dom_ok (sp_dom sp) (sp_mode sp) ->
  op_sp sp S (im_size (cg_in g)) f ts ->
  exists out, decomon_conv2d sp g kernel bias false ts = Ok out /\
    op_sp sp S (im_size (cg_out g)) (fun z => keras_conv2d g kernel (bias_of bias) (f z)) out.
Proof.
  intros sp g kernel bias S f ts Hn Hd Hv.
  destruct (get_full_sound sp false true S _ f ts Hn Hd Hv) as (r & Er & V).
  rewrite orb_false_r in V.
  unfold decomon_conv2d. rewrite get_fullinputs_r_false, Er. cbn [bind].
  destruct (conv_full_out sp g kernel bias r Hd) as (o & Eo & Lo). rewrite Eo. cbn [bind].
  eexists. split; [reflexivity|].
  eapply op_sp_ext; [|exact (lin_out_sound sp S _ _ _ _ _ _ f r o (conv_encl g kernel) (conv_aff _ _) (conv_aff _ _) V Lo)].
  intros z j _ _. cbv beta. rewrite conv_bias_of. reflexivity.
Qed.

(** ** identity inputs of Dense and Conv2D: the affine bounds are the layer itself *)
Lemma dense_ident : forall sp units kernel bias S ts,
  (0 < units)%nat -> (forall eps, sp_dom sp <> Ball eps (Pnum 0)) ->
  valid_identity (sp_dom sp) (sp_mode sp) (sp_dc sp) S (sp_n sp) ts ->
  exists out, decomon_dense sp (sp_n sp) units kernel bias true None ts = Ok out /\
    op_sp sp S units (fun z => keras_dense (sp_n sp) units kernel (bias_of bias) z) out.
Proof.
  intros sp units kernel bias S ts Hu HD Hv.
  destruct (ident_sound sp true S ts HD Hv) as (r & Er & V1 & V2).
  unfold decomon_dense. rewrite Er. cbn [bind].
  assert (E : exists o, dense_full sp (sp_n sp) units kernel bias true None r = Ok o /\
    (get_ibp (sp_mode sp) = true ->
     f_uc o 0%nat = add_bias (option_map (tile units) bias) (fun j => kdotv (sp_n sp) units (kpos kernel) (f_uc r 0%nat) j + kdotv (sp_n sp) units (kneg kernel) (f_lc r 0%nat) j) /\
     f_lc o 0%nat = add_bias (option_map (tile units) bias) (fun j => kdotv (sp_n sp) units (kpos kernel) (f_lc r 0%nat) j + kdotv (sp_n sp) units (kneg kernel) (f_uc r 0%nat) j)) /\
    (get_affine (sp_mode sp) = true -> f_x o = f_x r /\ f_wu o = kernel /\ f_wl o = kernel /\
      f_bu o 0%nat = add_bias (option_map (tile units) bias) (fun _ => 0) /\ f_bl o 0%nat = add_bias (option_map (tile units) bias) (fun _ => 0))).
  { unfold dense_full.
    destruct (sp_dc sp), (get_ibp (sp_mode sp)), (get_affine (sp_mode sp)), bias as [b|]; cbn [andb negb is_some];
    (eexists; split; [reflexivity|]); split; intros Hx; try discriminate Hx; repeat split; reflexivity. }
  destruct E as (o & Eo & O1 & O2). rewrite Eo. cbn [bind]. eexists. split; [reflexivity|].
  apply (op_sp_ext _ _ _ (fun z j => kdotv (sp_n sp) units kernel z j + bias_of (option_map (tile units) bias) j)).
  { intros z j _ _. rewrite tile_bias. reflexivity. }
  apply vfull_valid. split.
  - intros Hi. destruct (O1 Hi) as [-> ->]. apply const_add_bias.
    pose proof (pn_const _ _ _ _ _ S (fun z => z) (f_uc r 0%nat) (f_lc r 0%nat) (kdot_encl 1 (sp_n sp) units kernel Hu)) as P.
    rewrite !Nat.mul_1_l in P. apply P. auto.
  - intros Ha. destruct (O2 Ha) as (-> & -> & -> & -> & ->). split; [auto|].
    apply affine_add_bias. intros z j Hz Hj.
    assert (E : aff (sp_n sp) kernel (fun _ => 0) z j = kdotv (sp_n sp) units kernel z j).
    { unfold aff, dot, kdotv. rewrite (Nat.div_small j units), (Nat.mod_small j units) by auto.
      cbn [Nat.mul Nat.add]. rewrite Rplus_0_r. apply rsum_ext. intros; ring. }
    lra.
Qed.

Lemma conv_ident : forall sp g kernel bias S ts,
  im_size (cg_in g) = sp_n sp -> (forall eps, sp_dom sp <> Ball eps (Pnum 0)) ->
  valid_identity (sp_dom sp) (sp_mode sp) (sp_dc sp) S (sp_n sp) ts ->
  exists out, decomon_conv2d sp g kernel bias true ts = Ok out /\
    op_sp sp S (im_size (cg_out g)) (fun z => keras_conv2d g kernel (bias_of bias) z) out.
Proof.
  intros sp g kernel bias S ts Hsz HD Hv.
  destruct (ident_sound sp true S ts HD Hv) as (r & Er & V1 & V2).
  unfold decomon_conv2d. rewrite Er. cbn [bind].
  set (w := (fun i => conv2d g kernel (fun k => if Nat.eqb k i then 1 else 0)) : tensor).
  assert (E : exists o, conv_full sp g kernel bias true r = Ok o /\
    (get_ibp (sp_mode sp) = true ->
     f_uc o 0%nat = add_bias (option_map (conv_bias g) bias) (fun j => conv2d g (k4pos kernel) (f_uc r 0%nat) j + conv2d g (k4neg kernel) (f_lc r 0%nat) j) /\
     f_lc o 0%nat = add_bias (option_map (conv_bias g) bias) (fun j => conv2d g (k4pos kernel) (f_lc r 0%nat) j + conv2d g (k4neg kernel) (f_uc r 0%nat) j)) /\
    (get_affine (sp_mode sp) = true -> f_x o = f_x r /\ f_wu o = w /\ f_wl o = w /\
      f_bu o 0%nat = add_bias (option_map (conv_bias g) bias) (fun _ => 0) /\ f_bl o 0%nat = add_bias (option_map (conv_bias g) bias) (fun _ => 0))).
  { unfold conv_full.
    destruct (sp_dc sp), (get_ibp (sp_mode sp)), (get_affine (sp_mode sp)), bias as [b|]; cbn [bind];
    (eexists; split; [reflexivity|]); split; intros Hx; try discriminate Hx; repeat split; reflexivity. }
  destruct E as (o & Eo & O1 & O2). rewrite Eo. cbn [bind]. eexists. split; [reflexivity|].
  apply (op_sp_ext _ _ _ (fun z j => conv2d g kernel z j + bias_of (option_map (conv_bias g) bias) j)).
  { intros z j _ _. rewrite conv_bias_of. reflexivity. }
  apply vfull_valid. split.
  - intros Hi. destruct (O1 Hi) as [-> ->]. apply const_add_bias.
    apply (pn_const _ _ _ _ _ S (fun z => z) _ _ (conv_encl g kernel)). rewrite Hsz. auto.
  - intros Ha. destruct (O2 Ha) as (-> & -> & -> & -> & ->). split; [auto|].
    apply affine_add_bias. intros z j Hz Hj.
    assert (E : aff (sp_n sp) w (fun _ => 0) z j = conv2d g kernel z j).
    { transitivity (aff (sp_n sp) w (conv2d g kernel (fun _ => 0)) z j).
      - unfold aff. f_equal. unfold conv2d. cbv zeta. symmetry.
        apply rsum_eq0; intros; apply rsum_eq0; intros; apply rsum_eq0; intros.
        destruct (px_src _ _ _ _ _ _ _ _ _); cbn; ring.
      - pose proof (conv_aff g kernel (sp_n sp) (fun i k => if Nat.eqb k i then 1 else 0) (fun _ => 0) z j) as L.
        cbv beta in L. fold w in L. rewrite <- L. unfold conv2d. cbv zeta.
        apply rsum_ext; intros ky _; apply rsum_ext; intros kx _; apply rsum_ext; intros c Hc. f_equal.
        unfold px_src.
        destruct (wn_src (cg_y g) (im_y (cg_out g) j) ky) as [y|] eqn:Ey; [|reflexivity].
        destruct (wn_src (cg_x g) (im_x (cg_out g) j) kx) as [x|] eqn:Ex; [|reflexivity].
        assert (Hy : (y < wn_in (cg_y g))%nat).
        { unfold wn_src in Ey. cbv zeta in Ey. destruct (_ <=? _); [|discriminate]. destruct (Nat.ltb_spec (im_y (cg_out g) j * wn_s (cg_y g) + ky * wn_d (cg_y g) - wn_pad (cg_y g)) (wn_in (cg_y g))); congruence. }
        assert (Hx : (x < wn_in (cg_x g))%nat).
        { unfold wn_src in Ex. cbv zeta in Ex. destruct (_ <=? _); [|discriminate]. destruct (Nat.ltb_spec (im_x (cg_out g) j * wn_s (cg_x g) + kx * wn_d (cg_x g) - wn_pad (cg_x g)) (wn_in (cg_x g))); congruence. }
        pose proof (im_pos_lt (cg_in g) y x c Hy Hx Hc) as Hp. rewrite Hsz in Hp.
        change (mk_img (wn_in (cg_y g)) (wn_in (cg_x g)) (cg_cin g) (cg_last g)) with (cg_in g).
        set (p := im_pos (cg_in g) y x c) in *. cbn [px]. unfold aff, dot.
        rewrite (rsum_ext _ _ (fun i => if Nat.eqb i p then z i else 0)).
        + rewrite rsum_delta by auto. lra.
        + intros i _. rewrite (Nat.eqb_sym p i). destruct (Nat.eqb i p); ring. }
    lra.
Qed.

(** ** batch normalisation *)
Lemma bn_chan_at : forall pre k post p c q, in_shape pre p -> in_shape post q -> (c < k)%nat ->
  bn_chan (pre ++ k :: post) (length pre) (ravel (pre ++ k :: post) (p ++ c :: q)) = c.
Proof.
  intros. unfold bn_chan. rewrite ax_len_mid, ax_inner_mid, ravel_flat by auto. unfold flat.
  pose proof (ravel_lt _ _ H0). rewrite flat_div by auto. apply flat_mod. auto.
Qed.

Lemma bn_term : forall g m s y u l, 0 < s -> l <= y <= u ->
  Rmax 0 g * ((l - m) / s) + Rmin 0 g * ((u - m) / s) <= g * (y - m) / s <= Rmax 0 g * ((u - m) / s) + Rmin 0 g * ((l - m) / s).
Proof.
  intros g m s y u l Hs H.
  assert (B : (l - m) / s <= (y - m) / s <= (u - m) / s).
  { pose proof (Rinv_0_lt_compat s Hs). unfold Rdiv. split; apply Rmult_le_compat_r; lra. }
  pose proof (term_pn g _ _ _ B). unfold Rdiv in *. lra.
Qed.

Lemma aff_bn : forall n (a s m : R) (w1 w2 : mat) (b1 b2 : vec) (a' c : R) z j, s <> 0 ->
  a * ((aff n w1 b1 z j - m) / s) + a' * ((aff n w2 b2 z j - m) / s) + c =
  aff n (fun i _ => a * (w1 i j / s) + a' * (w2 i j / s)) (fun _ => a * ((b1 j - m) / s) + a' * ((b2 j - m) / s) + c) z j.
Proof.
  intros. unfold aff. rewrite dot_plus_l. 
  rewrite (dot_ext n (fun i => a * (w1 i j / s)) (fun i => (a / s) * w1 i j) z z) by (intros; auto; unfold Rdiv; ring).
  rewrite (dot_ext n (fun i => a' * (w2 i j / s)) (fun i => (a' / s) * w2 i j) z z) by (intros; auto; unfold Rdiv; ring).
  rewrite !dot_scal_l. field. auto.
Qed.

Definition bn_axis (pre post : list nat) (axis : Z) : Prop := axis = pos_axis pre \/ axis = neg_axis post.

Lemma bn_sound : forall sp pre k post axis gamma beta mean var eps S f g ts,
  (0 < sp_n sp)%nat -> dom_ok (sp_dom sp) (sp_mode sp) -> sp_dc sp = false -> bn_axis pre post axis ->
  (forall c, (c < k)%nat -> 0 < var c + eps) ->
  (forall z p c q, in_shape pre p -> in_shape post q -> (c < k)%nat ->
     g z (ravel (pre ++ k :: post) (p ++ c :: q)) =
     keras_bn (match gamma with Some v => v | None => fun _ => 1 end) (match beta with Some v => v | None => fun _ => 0 end)
       mean var eps c (f z (ravel (pre ++ k :: post) (p ++ c :: q)))) ->
  op_sp sp S (prodn (pre ++ k :: post)) f ts ->
  exists out, decomon_bn sp (pre ++ k :: post) axis gamma beta mean var eps false ts = Ok out /\
    op_sp sp S (prodn (pre ++ k :: post)) g out.
Proof.
  intros sp pre k post axis gamma beta mean var eps S f g ts Hn Hd Hdc Hax Hv Hg Hop.
  destruct (get_full_sound sp false true S _ f ts Hn Hd Hop) as (r & Er & C & A).
  rewrite orb_false_r in C.
  unfold decomon_bn. rewrite Er. cbn [bind].
  assert (Eax : b_axis (pre ++ k :: post) axis = Ok (length pre)).
  { destruct Hax as [-> | ->]; [apply b_axis_pos | apply b_axis_neg]. }
  rewrite Eax. cbn [bind]. apply finish_sound; auto.
  set (ga := match gamma with Some v => v | None => fun _ => 1 end) in *.
  set (be := match beta with Some v => v | None => fun _ => 0 end) in *.
  assert (Split : forall j, (j < prodn (pre ++ k :: post))%nat -> exists c, (c < k)%nat /\
     bn_chan (pre ++ k :: post) (length pre) j = c /\ 0 < sqrt (var c + eps) /\
     forall z, g z j = ga c * (f z j - mean c) / sqrt (var c + eps) + be c).
  { intros j Hj. destruct (unravel_spec _ _ Hj) as [I E].
    apply Forall2_app_inv_l in I. destruct I as (p & q & Ip & Iq & E').
    inversion Iq as [|? c ? q' Hc Iq' E1 E2]; subst.
    exists c. repeat split; auto.
    - rewrite <- E, E'. apply bn_chan_at; auto.
    - apply sqrt_lt_R0. auto.
    - intros z. rewrite <- E, E'. rewrite Hg by auto. reflexivity. }
  split.
  - intros Hi. rewrite Hi. cbn [when f_uc f_lc]. intros z j Hz Hj.
    destruct (Split j Hj) as (c & Hc & Ec & Hs & Eg). rewrite Eg, Ec.
    pose proof (bn_term (ga c) (mean c) _ _ _ _ Hs (C Hi z j Hz Hj)). lra.
  - intros Ha. rewrite Ha. cbn [when f_x f_wu f_bu f_wl f_bl]. destruct (A Ha) as [X B]. split; auto.
    intros z j Hz Hj. destruct (Split j Hj) as (c & Hc & Ec & Hs & Eg). rewrite Eg.
    specialize (B z j Hz Hj).
    pose proof (bn_term (ga c) (mean c) _ _ _ _ Hs B) as T.
    assert (Hs' : sqrt (var c + eps) <> 0) by lra.
    pose proof (aff_bn (sp_n sp) (Rmax 0 (ga c)) (sqrt (var c + eps)) (mean c) (f_wl r) (f_wu r) (f_bl r 0%nat) (f_bu r 0%nat) (Rmin 0 (ga c)) (be c) z j Hs') as L.
    pose proof (aff_bn (sp_n sp) (Rmax 0 (ga c)) (sqrt (var c + eps)) (mean c) (f_wu r) (f_wl r) (f_bu r 0%nat) (f_bl r 0%nat) (Rmin 0 (ga c)) (be c) z j Hs') as U.
    unfold aff in L, U |- *. rewrite Ec. unfold aff in T. lra.
Qed.
