(** Difference-of-convex decompositions through the operators (dc_decomp=True). *)
From Coq Require Import Reals Lra Lia Psatz List Arith Bool ZArith Sorting.Permutation.
From Verif Require Import RLib Spec Spec_Layers M_Core M_Utils M_MergeLayers M_Ops M_Layers.
From Verif Require Import P_Core P_Utils P_MergeLayers P_Axis P_Ops P_Layers P_Move.
Import ListNotations.
Local Open Scope R_scope.

(** ** convex functions *)
Section CVX.
Variable S : vec -> Prop.
Lemma cvx_ext : forall h h', (forall z, S z -> h z = h' z) -> convex_on S h -> convex_on S h'.
Proof. intros h h' E H x y t Sx Sy Ht Sc. rewrite <- !E by auto. apply H; auto. Qed.
Lemma ccv_ext : forall h h', (forall z, S z -> h z = h' z) -> concave_on S h -> concave_on S h'.
Proof. intros h h' E H x y t Sx Sy Ht Sc. rewrite <- !E by auto. apply H; auto. Qed.
Lemma cvx_opp : forall g, concave_on S g -> convex_on S (fun z => - g z).
Proof. intros g H x y t Sx Sy Ht Sc. specialize (H x y t Sx Sy Ht Sc). lra. Qed.
Lemma ccv_opp : forall h, convex_on S h -> concave_on S (fun z => - h z).
Proof. intros h H x y t Sx Sy Ht Sc. specialize (H x y t Sx Sy Ht Sc). lra. Qed.
Lemma cvx_plus : forall h h', convex_on S h -> convex_on S h' -> convex_on S (fun z => h z + h' z).
Proof. intros h h' H H' x y t Sx Sy Ht Sc. specialize (H x y t Sx Sy Ht Sc). specialize (H' x y t Sx Sy Ht Sc). lra. Qed.
Lemma ccv_plus : forall h h', concave_on S h -> concave_on S h' -> concave_on S (fun z => h z + h' z).
Proof. intros h h' H H' x y t Sx Sy Ht Sc. specialize (H x y t Sx Sy Ht Sc). specialize (H' x y t Sx Sy Ht Sc). lra. Qed.
Lemma cvx_const : forall c, convex_on S (fun _ => c).
Proof. intros c x y t Sx Sy Ht Sc. lra. Qed.
Lemma ccv_const : forall c, concave_on S (fun _ => c).
Proof. intros c x y t Sx Sy Ht Sc. lra. Qed.
Lemma cvx_pos : forall c h, 0 <= c -> convex_on S h -> convex_on S (fun z => c * h z).
Proof. intros c h Hc H x y t Sx Sy Ht Sc. specialize (H x y t Sx Sy Ht Sc). nra. Qed.
Lemma ccv_pos : forall c h, 0 <= c -> concave_on S h -> concave_on S (fun z => c * h z).
Proof. intros c h Hc H x y t Sx Sy Ht Sc. specialize (H x y t Sx Sy Ht Sc). nra. Qed.
Lemma cvx_neg : forall c h, c <= 0 -> concave_on S h -> convex_on S (fun z => c * h z).
Proof. intros c h Hc H x y t Sx Sy Ht Sc. specialize (H x y t Sx Sy Ht Sc). nra. Qed.
Lemma ccv_neg : forall c h, c <= 0 -> convex_on S h -> concave_on S (fun z => c * h z).
Proof. intros c h Hc H x y t Sx Sy Ht Sc. specialize (H x y t Sx Sy Ht Sc). nra. Qed.
Lemma cvx_max : forall h h', convex_on S h -> convex_on S h' -> convex_on S (fun z => Rmax (h z) (h' z)).
Proof.
  intros h h' H H' x y t Sx Sy Ht Sc. specialize (H x y t Sx Sy Ht Sc). specialize (H' x y t Sx Sy Ht Sc).
  pose proof (Rmax_l (h x) (h' x)). pose proof (Rmax_r (h x) (h' x)). pose proof (Rmax_l (h y) (h' y)). pose proof (Rmax_r (h y) (h' y)).
  apply Rmax_lub; nra.
Qed.
Lemma cvx_sum : forall n (h : nat -> vec -> R), (forall i, (i < n)%nat -> convex_on S (h i)) -> convex_on S (fun z => rsum n (fun i => h i z)).
Proof.
  induction n; intros h H; cbn [rsum]; [apply cvx_const|]. apply (cvx_plus (fun z => rsum n (fun i => h i z)) (h n)); auto.
Qed.
Lemma ccv_sum : forall n (h : nat -> vec -> R), (forall i, (i < n)%nat -> concave_on S (h i)) -> concave_on S (fun z => rsum n (fun i => h i z)).
Proof.
  induction n; intros h H; cbn [rsum]; [apply ccv_const|]. apply (ccv_plus (fun z => rsum n (fun i => h i z)) (h n)); auto.
Qed.
Lemma cvx_rmax : forall n (h : nat -> vec -> R), (0 < n)%nat -> (forall i, (i < n)%nat -> convex_on S (h i)) -> convex_on S (fun z => rmax n (fun i => h i z)).
Proof.
  intros n h Hn H x y t Sx Sy Ht Sc. apply rmax_lub; auto. intros i Hi.
  pose proof (H i Hi x y t Sx Sy Ht Sc). pose proof (rmax_ge n (fun i => h i x) i Hi). pose proof (rmax_ge n (fun i => h i y) i Hi).
  cbv beta in *. nra.
Qed.
End CVX.

(** ** adding h and g to the tensors of a mode *)
Definition with_hg (r : full tensor) (h g : tensor) : full tensor :=
  mk_full (f_x r) (f_uc r) (f_wu r) (f_bu r) (f_lc r) (f_wl r) (f_bl r) h g.

Lemma full_hg : forall sp ca ti S m f base h g r, sp_dc sp = true -> op_sp (no_dc sp) S m f base ->
  get_fullinputs (no_dc sp) ca ti base = Ok r -> get_fullinputs sp ca ti (base ++ [h; g]) = Ok (with_hg r h g).
Proof.
  intros [dc mode D n] ca ti S m f base h g r Hdc [Hl _] E. cbn [sp_dc sp_mode sp_dom sp_n no_dc] in *. subst dc.
  unfold get_fullinputs in *. cbn [sp_dc sp_mode sp_dom sp_n no_dc] in *.
  destruct mode; cbn [spec_nb Nat.add] in Hl; do 8 (try (destruct base as [|? base]; cbn [length] in Hl; try discriminate Hl));
    cbn [unpack app bind] in *.
  - destruct ca, ti; cbn in E |- *; injection E as <-; reflexivity.
  - destruct ca, ti; unfold complete, no_dc in *;
    cbn [mode_eqb sp_mode sp_dom sp_n f_x f_wu f_bu f_wl f_bl f_uc f_lc f_h f_g andb orb] in E |- *;
    try (injection E as <-; reflexivity);
    (revert E; match goal with |- context [get_upper ?a ?b ?c ?d ?e ?f0 ?k] => destruct (get_upper a b c d e f0 k) end; [|discriminate]; match goal with |- context [get_lower ?a ?b ?c ?d ?e ?f0 ?k] => destruct (get_lower a b c d e f0 k) end; [|discriminate];
     cbn [bind]; intros E; injection E as <-; reflexivity).
  - destruct ca, ti; unfold complete, no_dc in *;
    cbn [mode_eqb sp_mode sp_dom sp_n f_x f_wu f_bu f_wl f_bl f_uc f_lc f_h f_g andb orb] in E |- *;
    try (injection E as <-; reflexivity);
    (revert E; match goal with |- context [get_upper ?a ?b ?c ?d ?e ?f0 ?k] => destruct (get_upper a b c d e f0 k) end; [|discriminate]; match goal with |- context [get_lower ?a ?b ?c ?d ?e ?f0 ?k] => destruct (get_lower a b c d e f0 k) end; [|discriminate];
     cbn [bind]; intros E; injection E as <-; reflexivity).
Qed.

Lemma extract_dc : forall mode (r : full tensor), extract mode true r = extract mode false r ++ [f_h r; f_g r].
Proof. intros [] r; reflexivity. Qed.
Lemma extract_hg : forall mode (r : full tensor) h g, extract mode false (with_hg r h g) = extract mode false r.
Proof. intros [] r h g; reflexivity. Qed.

(** ** operators *)
Section OPS.
Variable sp : spec.
Hypothesis Hn : (0 < sp_n sp)%nat.
Hypothesis Hd : dom_ok (sp_dom sp) (sp_mode sp).
Hypothesis Hdc : sp_dc sp = true.
Variable S : vec -> Prop.

Definition dcv (m : nat) (f : vec -> vec) (base : list tensor) (h g : vec -> tensor) : Prop :=
  op_sp (no_dc sp) S m f base /\ dc_ok S m f h g.

Lemma add_dc : forall m f0 f1 b0 h0 g0 b1 h1 g1, dcv m f0 b0 h0 g0 -> dcv m f1 b1 h1 g1 ->
  exists b h g, add (no_dc sp) b0 b1 = Ok b /\ (forall z, add sp (b0 ++ [h0 z; g0 z]) (b1 ++ [h1 z; g1 z]) = Ok (b ++ [h z; g z])) /\
    dcv m (fun z j => f0 z j + f1 z j) b h g.
Proof.
  intros m f0 f1 b0 h0 g0 b1 h1 g1 [V0 D0] [V1 D1].
  destruct (add_sound (no_dc sp) S m f0 f1 b0 b1 Hn Hd V0 V1) as (b & E & V).
  destruct (get_full_sound (no_dc sp) true true S m f0 b0 Hn Hd V0) as (r0 & E0 & _).
  destruct (get_full_sound (no_dc sp) true true S m f1 b1 Hn Hd V1) as (r1 & E1 & _).
  exists b, (fun z i j => h0 z i j + h1 z i j), (fun z i j => g0 z i j + g1 z i j). split; [exact E|split; [|split; [exact V|]]].
  - intros z. unfold add in *. rewrite E0, E1 in E. rewrite (full_hg sp true true S m f0 b0 _ _ r0 Hdc V0 E0), (full_hg sp true true S m f1 b1 _ _ r1 Hdc V1 E1).
    cbn [bind] in *. rewrite Hdc, extract_dc. injection E as <-. f_equal; destruct (sp_mode sp); reflexivity.
  - intros j Hj. destruct (D0 j Hj) as (A0 & B0 & C0), (D1 j Hj) as (A1 & B1 & C1). split; [|split].
    + intros z Hz. rewrite <- (A0 z Hz), <- (A1 z Hz). ring.
    + apply (cvx_plus S _ _ B0 B1).
    + apply (ccv_plus S _ _ C0 C1).
Qed.

Lemma minus_dc : forall m f b0 h0 g0, dcv m f b0 h0 g0 ->
  exists b h g, minus (no_dc sp) b0 = Ok b /\ (forall z, minus sp (b0 ++ [h0 z; g0 z]) = Ok (b ++ [h z; g z])) /\
    dcv m (fun z j => - f z j) b h g.
Proof.
  intros m f b0 h0 g0 [V0 D0].
  destruct (minus_sound (no_dc sp) S m f b0 Hn Hd V0) as (b & E & V).
  destruct (get_full_sound (no_dc sp) false false S m f b0 Hn Hd V0) as (r0 & E0 & _).
  exists b, (fun z i j => - g0 z i j), (fun z i j => - h0 z i j). split; [exact E|split; [|split; [exact V|]]].
  - intros z. unfold minus in *. rewrite E0 in E. rewrite (full_hg sp false false S m f b0 _ _ r0 Hdc V0 E0).
    cbn [bind] in *. rewrite Hdc, extract_dc. injection E as <-. f_equal; destruct (sp_mode sp); reflexivity.
  - intros j Hj. destruct (D0 j Hj) as (A0 & B0 & C0). split; [|split].
    + intros z Hz. rewrite <- (A0 z Hz). ring.
    + apply (cvx_opp S _ C0).
    + apply (ccv_opp S _ B0).
Qed.

Lemma subtract_dc : forall m f0 f1 b0 h0 g0 b1 h1 g1, dcv m f0 b0 h0 g0 -> dcv m f1 b1 h1 g1 ->
  exists b h g, subtract (no_dc sp) b0 b1 = Ok b /\ (forall z, subtract sp (b0 ++ [h0 z; g0 z]) (b1 ++ [h1 z; g1 z]) = Ok (b ++ [h z; g z])) /\
    dcv m (fun z j => f0 z j - f1 z j) b h g.
Proof.
  intros m f0 f1 b0 h0 g0 b1 h1 g1 V0 V1.
  destruct (minus_dc m f1 b1 h1 g1 V1) as (bm & hm & gm & Em & Fm & Vm).
  destruct (add_dc m f0 _ b0 h0 g0 bm hm gm V0 Vm) as (b & h & g & E & F & V).
  exists b, h, g. split; [|split; [|exact V]].
  - unfold subtract. rewrite Em. exact E.
  - intros z. unfold subtract. rewrite Fm. apply F.
Qed.

Lemma index_dead_cases : forall u, (0 < u /\ index_dead u = 0) \/ (u <= 0 /\ index_dead u = 1).
Proof.
  intros u. unfold index_dead, Rclip. destruct (Rsgn_cases u) as [[? ->]|[[? ->]|[? ->]]].
  - left. split; auto. rewrite Rmax_left by lra. rewrite Rmin_left; lra.
  - right. split; [lra|]. rewrite Rmax_left by lra. rewrite Rmin_left; lra.
  - right. split; [lra|]. rewrite Rmax_right by lra. rewrite Rmin_left; lra.
Qed.
Lemma index_linear_cases : forall l, (l < 0 /\ index_linear l = 0) \/ (0 <= l /\ index_linear l = 1).
Proof.
  intros l. unfold index_linear, Rclip. destruct (Rsgn_cases l) as [[? ->]|[[? ->]|[? ->]]].
  - right. split; [lra|]. rewrite Rmax_left by lra. rewrite Rmin_right; lra.
  - right. split; [lra|]. rewrite Rmax_left by lra. rewrite Rmin_right; lra.
  - left. split; [lra|]. rewrite Rmax_left by lra. rewrite Rmin_left; lra.
Qed.

Lemma relu_dc : forall ke sl ft m f b0 h0 g0, 0 < ke -> ft_ok m ft -> gaps_ok ke (no_dc sp) m b0 -> dcv m f b0 h0 g0 ->
  exists b h g, relu_ ke (no_dc sp) sl ft b0 = Ok b /\ (forall z, relu_ ke sp sl ft (b0 ++ [h0 z; g0 z]) = Ok (b ++ [h z; g z])) /\
    dcv m (fun z j => Rrelu (f z j)) b h g.
Proof.
  intros ke sl ft m f b0 h0 g0 Hke Hft Hgap [V0 D0].
  destruct (relu_sound ke (no_dc sp) sl ft S m f b0 Hke Hn Hd Hft V0 Hgap) as (b & E & V).
  destruct (get_full_sound (no_dc sp) true true S m f b0 Hn Hd V0) as (r0 & E0 & C & _). rewrite orb_true_r in C. specialize (C eq_refl).
  exists b, (fun z => f_h (relu_full ke sp sl ft (with_hg r0 (h0 z) (g0 z)))), (fun z => f_g (relu_full ke sp sl ft (with_hg r0 (h0 z) (g0 z)))).
  split; [exact E|split; [|split; [exact V|]]].
  - intros z. unfold relu_ in *. rewrite E0 in E. rewrite (full_hg sp true true S m f b0 _ _ r0 Hdc V0 E0).
    cbn [bind] in *. rewrite Hdc, extract_dc. injection E as <-. f_equal. f_equal. unfold relu_full. cbn [no_dc sp_mode sp_dc]. rewrite Hdc.
    destruct (sp_mode sp); reflexivity.
  - intros j Hj. destruct (D0 j Hj) as (A0 & B0 & C0).
    set (u := f_uc r0 0%nat j) in *. set (l := f_lc r0 0%nat j) in *.
    assert (Eh : forall z, f_h (relu_full ke sp sl ft (with_hg r0 (h0 z) (g0 z))) 0%nat j =
      (1 - index_linear l) * ((1 - index_dead u) * Rmax (h0 z 0%nat j) (- g0 z 0%nat j)) + index_linear l * h0 z 0%nat j).
    { intros z. unfold relu_full. rewrite Hdc. destruct (get_ibp (sp_mode sp)), (get_affine (sp_mode sp)); reflexivity. }
    assert (Eg : forall z, f_g (relu_full ke sp sl ft (with_hg r0 (h0 z) (g0 z))) 0%nat j =
      (1 - index_linear l) * ((1 - index_dead u) * g0 z 0%nat j) + index_linear l * g0 z 0%nat j).
    { intros z. unfold relu_full. rewrite Hdc. destruct (get_ibp (sp_mode sp)), (get_affine (sp_mode sp)); reflexivity. }
    assert (Cj : forall z, S z -> l <= f z j <= u) by (intros z Hz; apply (C z j Hz Hj)).
    split; [|split].
    + intros z Hz. rewrite Eh, Eg. specialize (Cj z Hz). pose proof (A0 z Hz) as A.
      destruct (index_linear_cases l) as [[Hl ->]|[Hl ->]].
      * destruct (index_dead_cases u) as [[Hu ->]|[Hu ->]].
        -- unfold Rrelu. rewrite <- A. unfold Rmax. repeat destruct Rle_dec; lra.
        -- unfold Rrelu. rewrite (Rmax_right (f z j) 0) by lra. ring.
      * unfold Rrelu. rewrite (Rmax_left (f z j) 0) by lra. rewrite <- A. ring.
    + apply (cvx_ext S (fun z => (1 - index_linear l) * ((1 - index_dead u) * Rmax (h0 z 0%nat j) (- g0 z 0%nat j)) + index_linear l * h0 z 0%nat j)); [intros; auto|].
      assert (M : convex_on S (fun z => Rmax (h0 z 0%nat j) (- g0 z 0%nat j))) by (apply (cvx_max S _ _ B0 (cvx_opp S _ C0))).
      destruct (index_linear_cases l) as [[_ ->]|[_ ->]], (index_dead_cases u) as [[_ ->]|[_ ->]];
      apply cvx_plus; repeat (apply cvx_pos; [lra|]); auto.
    + apply (ccv_ext S (fun z => (1 - index_linear l) * ((1 - index_dead u) * g0 z 0%nat j) + index_linear l * g0 z 0%nat j)); [intros; auto|].
      destruct (index_linear_cases l) as [[_ ->]|[_ ->]], (index_dead_cases u) as [[_ ->]|[_ ->]];
      apply ccv_plus; repeat (apply ccv_pos; [lra|]); auto.
Qed.

Lemma dcv_ext : forall m f f' b h g, (forall z j, S z -> (j < m)%nat -> f z j = f' z j) -> dcv m f b h g -> dcv m f' b h g.
Proof.
  intros m f f' b h g E [V D]. split; [eapply op_sp_ext; eauto|].
  intros j Hj. destruct (D j Hj) as (A & B & C). split; [|split]; auto. intros z Hz. rewrite A by auto. apply E; auto.
Qed.

Lemma maximum_dc : forall ke ft m f0 f1 b0 h0 g0 b1 h1 g1, 0 < ke -> ft_ok m ft -> max_gaps_ok ke (no_dc sp) m b0 b1 ->
  dcv m f0 b0 h0 g0 -> dcv m f1 b1 h1 g1 ->
  exists b h g, maximum ke (no_dc sp) ft b0 b1 = Ok b /\
    (forall z, maximum ke sp ft (b0 ++ [h0 z; g0 z]) (b1 ++ [h1 z; g1 z]) = Ok (b ++ [h z; g z])) /\
    dcv m (fun z j => Rmax (f0 z j) (f1 z j)) b h g.
Proof.
  intros ke ft m f0 f1 b0 h0 g0 b1 h1 g1 Hke Hft Hgap V0 V1.
  destruct (subtract_dc m f1 f0 b1 h1 g1 b0 h0 g0 V1 V0) as (bs & hs & gs & Es & Fs & Vs).
  destruct (relu_dc ke V_SLOPE ft m _ bs hs gs Hke Hft (Hgap bs Es) Vs) as (br & hr & gr & Er & Fr & Vr).
  destruct (add_dc m _ f0 br hr gr b0 h0 g0 Vr V0) as (b & h & g & E & F & V).
  exists b, h, g. split; [|split].
  - unfold maximum. rewrite Es. cbn [bind]. rewrite Er. exact E.
  - intros z. unfold maximum. rewrite Fs. cbn [bind]. rewrite Fr. apply F.
  - eapply dcv_ext; [|exact V]. intros z j _ _. cbn. unfold Rrelu, Rmax. repeat destruct Rle_dec; lra.
Qed.

Lemma minimum_dc : forall ke ft m f0 f1 b0 h0 g0 b1 h1 g1, 0 < ke -> ft_ok m ft -> min_gaps_ok ke (no_dc sp) m b0 b1 ->
  dcv m f0 b0 h0 g0 -> dcv m f1 b1 h1 g1 ->
  exists b h g, minimum ke (no_dc sp) ft b0 b1 = Ok b /\
    (forall z, minimum ke sp ft (b0 ++ [h0 z; g0 z]) (b1 ++ [h1 z; g1 z]) = Ok (b ++ [h z; g z])) /\
    dcv m (fun z j => Rmin (f0 z j) (f1 z j)) b h g.
Proof.
  intros ke ft m f0 f1 b0 h0 g0 b1 h1 g1 Hke Hft Hgap V0 V1.
  destruct (minus_dc m f0 b0 h0 g0 V0) as (c0 & k0 & l0 & E0 & F0 & W0).
  destruct (minus_dc m f1 b1 h1 g1 V1) as (c1 & k1 & l1 & E1 & F1 & W1).
  destruct (maximum_dc ke ft m _ _ c0 k0 l0 c1 k1 l1 Hke Hft (Hgap c0 c1 E0 E1) W0 W1) as (cm & km & lm & Em & Fm & Wm).
  destruct (minus_dc m _ cm km lm Wm) as (b & h & g & E & F & V).
  exists b, h, g. split; [|split].
  - unfold minimum. rewrite E0. cbn [bind]. rewrite E1. cbn [bind]. rewrite Em. exact E.
  - intros z. unfold minimum. rewrite F0. cbn [bind]. rewrite F1. cbn [bind]. rewrite Fm. apply F.
  - eapply dcv_ext; [|exact V]. intros z j _ _. cbn. unfold Rmin, Rmax. repeat destruct Rle_dec; lra.
Qed.

(** layers that move entries *)
Lemma move_dc : forall m mo (f : vec -> vec) idx h0 g0, (forall j, (j < mo)%nat -> (idx j < m)%nat) -> dc_ok S m f h0 g0 ->
  dc_ok S mo (fun z j => f z (idx j)) (fun z => gather idx (h0 z)) (fun z => gather idx (g0 z)).
Proof. intros m mo f idx h0 g0 Hi D j Hj. apply (D (idx j)). auto. Qed.

Lemma flatten_dc : forall (cf : bool) ch size f b0 h0 g0, (sp_mode sp = IBP \/ cf = false) -> dcv (ch * size) f b0 h0 g0 ->
  exists b h g, decomon_flatten (no_dc sp) cf ch size b0 = Ok b /\ (forall z, decomon_flatten sp cf ch size (b0 ++ [h0 z; g0 z]) = Ok (b ++ [h z; g z])) /\
    dcv (ch * size) (fun z j => f z (flatten_idx cf ch size j)) b h g.
Proof.
  intros cf ch size f b0 h0 g0 Hm [V0 D0].
  destruct (flatten_sound (no_dc sp) cf ch size S f b0 Hn Hd Hm V0) as (b & E & V).
  destruct (get_full_sound (no_dc sp) false true S _ f b0 Hn Hd V0) as (r0 & E0 & _).
  exists b, (fun z => gather (flatten_idx cf ch size) (h0 z)), (fun z => gather (flatten_idx cf ch size) (g0 z)).
  split; [exact E|split; [|split; [exact V|]]].
  - intros z. unfold decomon_flatten in *. rewrite E0 in E. rewrite (full_hg sp false true S _ f b0 _ _ r0 Hdc V0 E0).
    cbn [bind] in *. rewrite Hdc, extract_dc. injection E as <-. f_equal; unfold move_full, no_dc; cbn [sp_mode sp_dc]; rewrite Hdc; destruct (sp_mode sp); reflexivity.
  - apply (move_dc (ch * size)); auto. intros j Hj. unfold flatten_idx. destruct cf; auto.
    assert (ch <> 0%nat) by (intro K; rewrite K in Hj; lia).
    assert (j mod ch < ch)%nat by (apply Nat.mod_upper_bound; auto).
    assert (j / ch < size)%nat by (apply Nat.div_lt_upper_bound; auto). nia.
Qed.

Lemma reshape_dc : forall m f b0 h0 g0, dcv m f b0 h0 g0 ->
  exists b h g, decomon_reshape (no_dc sp) b0 = Ok b /\ (forall z, decomon_reshape sp (b0 ++ [h0 z; g0 z]) = Ok (b ++ [h z; g z])) /\
    dcv m f b h g.
Proof.
  intros m f b0 h0 g0 [V0 D0].
  destruct (reshape_sound (no_dc sp) m S f b0 Hn Hd V0) as (b & E & V).
  destruct (get_full_sound (no_dc sp) false true S _ f b0 Hn Hd V0) as (r0 & E0 & _).
  exists b, h0, g0. split; [exact E|split; [|split; [exact V|exact D0]]].
  intros z. unfold decomon_reshape in *. rewrite E0 in E. rewrite (full_hg sp false true S _ f b0 _ _ r0 Hdc V0 E0).
  cbn [bind] in *. rewrite Hdc, extract_dc. injection E as <-. f_equal; unfold move_full, no_dc; cbn [sp_mode sp_dc]; rewrite Hdc; destruct (sp_mode sp); reflexivity.
Qed.

Lemma permute_dc : forall s dims f f' b0 h0 g0, Permutation dims (seq 1 (length s)) -> permutes (map pred dims) s f f' -> dcv (prodn s) f b0 h0 g0 ->
  exists b h g, decomon_permute (no_dc sp) s dims b0 = Ok b /\ (forall z, decomon_permute sp s dims (b0 ++ [h0 z; g0 z]) = Ok (b ++ [h z; g z])) /\
    dcv (prodn (permuted (map pred dims) s)) f' b h g.
Proof.
  intros s dims f f' b0 h0 g0 HP Hf [V0 D0].
  assert (HP' : Permutation (map pred dims) (seq 0 (length s))).
  { apply (Permutation_map pred) in HP. rewrite <- seq_shift, map_map in HP. cbn in HP. rewrite map_id in HP. auto. }
  destruct (permute_sound (no_dc sp) s dims S f f' b0 Hn Hd HP Hf V0) as (b & E & V).
  destruct (get_full_sound (no_dc sp) false true S _ f b0 Hn Hd V0) as (r0 & E0 & _).
  exists b, (fun z => gather (transpose_idx s (map pred dims)) (h0 z)), (fun z => gather (transpose_idx s (map pred dims)) (g0 z)).
  split; [exact E|split; [|split; [exact V|]]].
  - intros z. unfold decomon_permute in *. rewrite E0 in E. rewrite (full_hg sp false true S _ f b0 _ _ r0 Hdc V0 E0).
    cbn [bind] in *. rewrite Hdc, extract_dc. injection E as <-. f_equal; unfold move_full, no_dc; cbn [sp_mode sp_dc]; rewrite Hdc; destruct (sp_mode sp); reflexivity.
  - intros j Hj. destruct (move_dc (prodn s) (prodn (permuted (map pred dims) s)) f (transpose_idx s (map pred dims)) h0 g0) with (j := j) as (A & B & C); auto.
    { intros; apply transpose_lt; auto. }
    split; [|split]; auto. intros z Hz. rewrite (A z Hz).
    destruct (transpose_split (map pred dims) s j HP' Hj) as (p & Ip & ->). rewrite transpose_at by auto. symmetry. apply Hf; auto.
Qed.
(** affine layers: h gets the convex terms, g the concave ones *)
Lemma lin_dc_term : forall w (h g : vec -> R), convex_on S h -> concave_on S g ->
  convex_on S (fun z => Rmax 0 w * h z + Rmin 0 w * g z) /\ concave_on S (fun z => Rmax 0 w * g z + Rmin 0 w * h z).
Proof.
  intros w h g Hh Hg. split.
  - apply (cvx_plus S (fun z => Rmax 0 w * h z) (fun z => Rmin 0 w * g z)); [apply cvx_pos|apply cvx_neg]; auto; [apply Rmax_l|apply Rmin_l].
  - apply (ccv_plus S (fun z => Rmax 0 w * g z) (fun z => Rmin 0 w * h z)); [apply ccv_pos|apply ccv_neg]; auto; [apply Rmax_l|apply Rmin_l].
Qed.
Lemma pn_sum : forall w, Rmax 0 w + Rmin 0 w = w.
Proof. intros w. unfold Rmax, Rmin. repeat destruct Rle_dec; lra. Qed.

Lemma bias_dc : forall m f h g (ob : option vec), dc_ok S m f h g ->
  dc_ok S m (fun z j => f z j + bias_of ob j)
    (fun z => match ob with Some b => tbias (fun j => Rmax 0 (b j)) (h z) | None => h z end)
    (fun z => match ob with Some b => tbias (fun j => Rmin 0 (b j)) (g z) | None => g z end).
Proof.
  intros m f h g [b|] D j Hj; destruct (D j Hj) as (A & B & C); cbn [bias_of]; unfold tbias; (split; [|split]).
  - intros z Hz. rewrite <- (A z Hz). rewrite <- (pn_sum (b j)) at 3. ring.
  - apply (cvx_plus S _ (fun _ => Rmax 0 (b j)) B). apply cvx_const.
  - apply (ccv_plus S _ (fun _ => Rmin 0 (b j)) C). apply ccv_const.
  - intros z Hz. rewrite <- (A z Hz). ring.
  - auto.
  - auto.
Qed.

Lemma kdot_dc : forall rows d units k f h g, (0 < units)%nat -> dc_ok S (rows * d) f h g ->
  dc_ok S (rows * units) (fun z => kdotv d units k (f z))
    (fun z => tadd (kdot d units (kpos k) (h z)) (kdot d units (kneg k) (g z)))
    (fun z => tadd (kdot d units (kpos k) (g z)) (kdot d units (kneg k) (h z))).
Proof.
  intros rows d units k f h g Hu D j Hj. unfold tadd, ew2, kdot, kdotv, kpos, kneg.
  assert (Hr : (j / units < rows)%nat) by (apply Nat.div_lt_upper_bound; lia).
  assert (P : forall c, (c < d)%nat -> (j / units * d + c < rows * d)%nat) by (intros; nia).
  split; [|split].
  - intros z Hz. rewrite <- !rsum_plus. apply rsum_ext. intros c Hc. destruct (D _ (P c Hc)) as (A & _). rewrite <- (A z Hz).
    rewrite <- (pn_sum (k c (j mod units)%nat)) at 5. ring.
  - apply (cvx_ext S (fun z => rsum d (fun c => Rmax 0 (k c (j mod units)%nat) * h z 0%nat (j / units * d + c)%nat + Rmin 0 (k c (j mod units)%nat) * g z 0%nat (j / units * d + c)%nat))).
    { intros z _. rewrite <- rsum_plus. apply rsum_ext. intros; ring. }
    apply (cvx_sum S d (fun c z => Rmax 0 (k c (j mod units)%nat) * h z 0%nat (j / units * d + c)%nat + Rmin 0 (k c (j mod units)%nat) * g z 0%nat (j / units * d + c)%nat)).
    intros c Hc. destruct (D _ (P c Hc)) as (_ & B & C). apply (lin_dc_term _ _ _ B C).
  - apply (ccv_ext S (fun z => rsum d (fun c => Rmax 0 (k c (j mod units)%nat) * g z 0%nat (j / units * d + c)%nat + Rmin 0 (k c (j mod units)%nat) * h z 0%nat (j / units * d + c)%nat))).
    { intros z _. rewrite <- rsum_plus. apply rsum_ext. intros; ring. }
    apply (ccv_sum S d (fun c z => Rmax 0 (k c (j mod units)%nat) * g z 0%nat (j / units * d + c)%nat + Rmin 0 (k c (j mod units)%nat) * h z 0%nat (j / units * d + c)%nat)).
    intros c Hc. destruct (D _ (P c Hc)) as (_ & B & C). apply (lin_dc_term _ _ _ B C).
Qed.

Lemma dense_dc : forall rows d units kernel bias f b0 h0 g0, (0 < units)%nat -> dcv (rows * d) f b0 h0 g0 ->
  exists b h g, decomon_dense (no_dc sp) d units kernel bias false None b0 = Ok b /\
    (forall z, decomon_dense sp d units kernel bias false None (b0 ++ [h0 z; g0 z]) = Ok (b ++ [h z; g z])) /\
    dcv (rows * units) (fun z => keras_dense d units kernel (bias_of bias) (f z)) b h g.
Proof.
  intros rows d units kernel bias f b0 h0 g0 Hu [V0 D0].
  destruct (dense_sound (no_dc sp) rows d units kernel bias S f b0 Hn Hd Hu V0) as (b & E & V).
  destruct (get_full_sound (no_dc sp) false true S _ f b0 Hn Hd V0) as (r0 & E0 & _).
  pose (h1 := fun z => tadd (kdot d units (kpos kernel) (h0 z)) (kdot d units (kneg kernel) (g0 z))).
  pose (g1 := fun z => tadd (kdot d units (kpos kernel) (g0 z)) (kdot d units (kneg kernel) (h0 z))).
  exists b, (fun z => match bias with Some bv => tbias (tile units (fun j => Rmax 0 (bv j))) (h1 z) | None => h1 z end),
            (fun z => match bias with Some bv => tbias (tile units (fun j => Rmin 0 (bv j))) (g1 z) | None => g1 z end).
  split; [exact E|split; [|split; [exact V|]]].
  - intros z. unfold decomon_dense in *. rewrite get_fullinputs_r_false in *. rewrite E0 in E. rewrite (full_hg sp false true S _ f b0 _ _ r0 Hdc V0 E0).
    cbn [bind] in *. unfold dense_full in *. unfold no_dc in E. cbn [sp_dc sp_mode is_some] in *. rewrite andb_false_r in *. rewrite Hdc.
    cbn [with_hg f_x f_uc f_wu f_bu f_lc f_wl f_bl f_h f_g].
    unfold h1, g1.
    destruct bias as [bv|]; destruct (sp_mode sp); cbn in E |- *; injection E as <-; reflexivity.
  - pose proof (kdot_dc rows d units kernel f h0 g0 Hu D0) as D1.
    apply (bias_dc _ _ _ _ (match bias with Some bv => Some (tile units bv) | None => None end)) in D1.
    intros j Hj. destruct (D1 j Hj) as (A & B & C). destruct bias as [bv|]; cbn [bias_of] in *; (split; [|split]).
    + intros z Hz. etransitivity; [exact (A z Hz)|]. reflexivity.
    + exact B.
    + exact C.
    + intros z Hz. etransitivity; [exact (A z Hz)|]. unfold keras_dense, kdotv. cbn. reflexivity.
    + exact B.
    + exact C.
Qed.
Definition dcp (a h g : vec -> R) : Prop := (forall z, S z -> h z + g z = a z) /\ convex_on S h /\ concave_on S g.
Lemma dcp_lin : forall w a h g, dcp a h g ->
  dcp (fun z => w * a z) (fun z => Rmax 0 w * h z + Rmin 0 w * g z) (fun z => Rmax 0 w * g z + Rmin 0 w * h z).
Proof.
  intros w a h g (A & B & C). split; [|exact (lin_dc_term w h g B C)].
  intros z Hz. rewrite <- (A z Hz). rewrite <- (pn_sum w) at 5. ring.
Qed.
Lemma dcp_sum : forall n a h1 h2 g1 g2, (forall c, (c < n)%nat -> dcp (a c) (fun z => h1 c z + h2 c z) (fun z => g1 c z + g2 c z)) ->
  dcp (fun z => rsum n (fun c => a c z)) (fun z => rsum n (fun c => h1 c z) + rsum n (fun c => h2 c z)) (fun z => rsum n (fun c => g1 c z) + rsum n (fun c => g2 c z)).
Proof.
  intros n a h1 h2 g1 g2 H. split; [|split].
  - intros z Hz. rewrite <- !rsum_plus. apply rsum_ext. intros c Hc. exact (proj1 (H c Hc) z Hz).
  - apply (cvx_ext S (fun z => rsum n (fun c => h1 c z + h2 c z))); [intros; apply rsum_plus|].
    apply (cvx_sum S n (fun c z => h1 c z + h2 c z)). intros c Hc. apply (H c Hc).
  - apply (ccv_ext S (fun z => rsum n (fun c => g1 c z + g2 c z))); [intros; apply rsum_plus|].
    apply (ccv_sum S n (fun c z => g1 c z + g2 c z)). intros c Hc. apply (H c Hc).
Qed.

Lemma kconv_dc : forall g k f h0 g0, dc_ok S (im_size (cg_in g)) f h0 g0 ->
  dc_ok S (im_size (cg_out g)) (fun z => conv2d g k (f z))
    (fun z => tadd (kconv g (k4pos k) (h0 z)) (kconv g (k4neg k) (g0 z)))
    (fun z => tadd (kconv g (k4pos k) (g0 z)) (kconv g (k4neg k) (h0 z))).
Proof.
  intros g k f h0 g0 D j Hj. unfold tadd, ew2, kconv, conv2d, k4pos, k4neg. cbv zeta.
  refine (dcp_sum (wn_k (cg_y g)) (fun ky z => rsum (wn_k (cg_x g)) (fun kx => rsum (cg_cin g) (fun c => k ky kx c _ * px (f z) _))) (fun ky z => rsum _ (fun kx => rsum _ (fun c => Rmax 0 (k ky kx c _) * px (h0 z 0%nat) _))) (fun ky z => rsum _ (fun kx => rsum _ (fun c => Rmin 0 (k ky kx c _) * px (g0 z 0%nat) _))) (fun ky z => rsum _ (fun kx => rsum _ (fun c => Rmax 0 (k ky kx c _) * px (g0 z 0%nat) _))) (fun ky z => rsum _ (fun kx => rsum _ (fun c => Rmin 0 (k ky kx c _) * px (h0 z 0%nat) _))) _).
  intros ky _.
  refine (dcp_sum (wn_k (cg_x g)) (fun kx z => rsum (cg_cin g) (fun c => k ky kx c _ * px (f z) _)) (fun kx z => rsum _ (fun c => Rmax 0 (k ky kx c _) * px (h0 z 0%nat) _)) (fun kx z => rsum _ (fun c => Rmin 0 (k ky kx c _) * px (g0 z 0%nat) _)) (fun kx z => rsum _ (fun c => Rmax 0 (k ky kx c _) * px (g0 z 0%nat) _)) (fun kx z => rsum _ (fun c => Rmin 0 (k ky kx c _) * px (h0 z 0%nat) _)) _).
  intros kx _.
  refine (dcp_sum (cg_cin g) (fun c z => k ky kx c _ * px (f z) _) (fun c z => Rmax 0 (k ky kx c _) * px (h0 z 0%nat) _) (fun c z => Rmin 0 (k ky kx c _) * px (g0 z 0%nat) _) (fun c z => Rmax 0 (k ky kx c _) * px (g0 z 0%nat) _) (fun c z => Rmin 0 (k ky kx c _) * px (h0 z 0%nat) _) _).
  intros c Hc.
  apply (dcp_lin _ (fun z => px (f z) _) (fun z => px (h0 z 0%nat) _) (fun z => px (g0 z 0%nat) _)).
  set (o := px_src _ _ _ _ _ _ _ _ _).
  assert (P : match o with Some i => (i < im_size (cg_in g))%nat | None => True end).
  { unfold o, px_src, wn_src.
    destruct (Nat.leb_spec (wn_pad (cg_y g)) (im_y (cg_out g) j * wn_s (cg_y g) + ky * wn_d (cg_y g))); [|exact I].
    destruct (Nat.ltb_spec (im_y (cg_out g) j * wn_s (cg_y g) + ky * wn_d (cg_y g) - wn_pad (cg_y g)) (wn_in (cg_y g))); [|exact I].
    destruct (Nat.leb_spec (wn_pad (cg_x g)) (im_x (cg_out g) j * wn_s (cg_x g) + kx * wn_d (cg_x g))); [|exact I].
    destruct (Nat.ltb_spec (im_x (cg_out g) j * wn_s (cg_x g) + kx * wn_d (cg_x g) - wn_pad (cg_x g)) (wn_in (cg_x g))); [|exact I].
    apply im_pos_lt; cbn [im_h im_w im_c]; auto. }
  destruct o as [i|]; cbn [px].
  - exact (D i P).
  - split; [intros; ring|split; [apply cvx_const|apply ccv_const]].
Qed.

Lemma conv_dc : forall gm kernel bias f b0 h0 g0, dcv (im_size (cg_in gm)) f b0 h0 g0 ->
  exists b h g, decomon_conv2d (no_dc sp) gm kernel bias false b0 = Ok b /\
    (forall z, decomon_conv2d sp gm kernel bias false (b0 ++ [h0 z; g0 z]) = Ok (b ++ [h z; g z])) /\
    dcv (im_size (cg_out gm)) (fun z => keras_conv2d gm kernel (bias_of bias) (f z)) b h g.
Proof.
  intros gm kernel bias f b0 h0 g0 [V0 D0].
  destruct (conv_sound (no_dc sp) gm kernel bias S f b0 Hn Hd V0) as (b & E & V).
  destruct (get_full_sound (no_dc sp) false true S _ f b0 Hn Hd V0) as (r0 & E0 & _).
  pose (h1 := fun z => tadd (kconv gm (k4pos kernel) (h0 z)) (kconv gm (k4neg kernel) (g0 z))).
  pose (g1 := fun z => tadd (kconv gm (k4pos kernel) (g0 z)) (kconv gm (k4neg kernel) (h0 z))).
  exists b, (fun z => match bias with Some bv => tbias (conv_bias gm (fun j => Rmax 0 (bv j))) (h1 z) | None => h1 z end),
            (fun z => match bias with Some bv => tbias (conv_bias gm (fun j => Rmin 0 (bv j))) (g1 z) | None => g1 z end).
  split; [exact E|split; [|split; [exact V|]]].
  - intros z. unfold decomon_conv2d in *. rewrite get_fullinputs_r_false in *. rewrite E0 in E. rewrite (full_hg sp false true S _ f b0 _ _ r0 Hdc V0 E0).
    cbn [bind] in *. unfold conv_full in *. unfold no_dc in E. cbn [sp_dc sp_mode sp_dom sp_n] in *. rewrite Hdc.
    cbn [with_hg f_x f_uc f_wu f_bu f_lc f_wl f_bl f_h f_g] in *. unfold h1, g1.
    destruct (get_upper _ _ _ _ _ _ _) as [gu|e]; destruct (sp_mode sp); cbn [get_ibp get_affine bind] in E |- *; try discriminate E;
    destruct bias as [bv|]; cbn in E |- *; injection E as <-; reflexivity.
  - pose proof (kconv_dc gm kernel f h0 g0 D0) as D1.
    apply (bias_dc _ _ _ _ (match bias with Some bv => Some (conv_bias gm bv) | None => None end)) in D1.
    intros j Hj. destruct (D1 j Hj) as (A & B & C). destruct bias as [bv|]; cbn [bias_of] in *; (split; [|split]).
    + intros z Hz. etransitivity; [exact (A z Hz)|]. reflexivity.
    + exact B.
    + exact C.
    + intros z Hz. etransitivity; [exact (A z Hz)|]. reflexivity.
    + exact B.
    + exact C.
Qed.
(** max over an axis *)
Lemma op_sp_hg : forall m f base h g, op_sp (no_dc sp) S m f base -> op_sp sp S m f (base ++ [h; g]).
Proof.
  intros m f base h g [Hl H]. unfold no_dc in *. cbn [sp_dc sp_mode sp_dom sp_n] in *. unfold op_sp, valid. rewrite Hdc.
  destruct (sp_mode sp); cbn [spec_nb Nat.add] in Hl |- *; do 8 (try (destruct base as [|? base]; cbn [length] in Hl; try discriminate Hl));
    cbn [app length]; (split; [reflexivity|exact H]).
Qed.
Lemma op_sp_hg_inv : forall m f base h g, op_sp sp S m f (base ++ [h; g]) -> op_sp (no_dc sp) S m f base.
Proof.
  intros m f base h g [Hl H]. unfold no_dc, op_sp, valid. cbn [sp_dc sp_mode sp_dom sp_n] in *. rewrite Hdc in Hl.
  rewrite app_length in Hl.
  destruct (sp_mode sp); cbn [spec_nb Nat.add length] in Hl |- *; do 8 (try (destruct base as [|? base]; cbn [length Nat.add] in Hl; try (exfalso; lia)));
    cbn [app length] in *; (split; [reflexivity|exact H]).
Qed.

Lemma op_max_hg : forall ke s axis ft m f base o, op_sp (no_dc sp) S m f base ->
  op_max ke sp s axis ft (base ++ [empty_tensor; empty_tensor]) = Ok o ->
  exists b ab, b_axis s axis = Ok ab /\ (exists ph pg, o = b ++ [ph; pg]) /\ forall h g : tensor, op_max ke sp s axis ft (base ++ [h; g]) =
    Ok (b ++ [ew2 Rminus (red_axis rmax s ab (ew2 Rplus h g)) (red_axis rsum s ab g); red_axis rsum s ab g]).
Proof.
  intros ke s axis ft m f base o V E.
  destruct (get_full_sound (no_dc sp) false false S _ f base Hn Hd V) as (r & Er & _).
  unfold op_max in E. rewrite (full_hg sp false false S _ f base _ _ r Hdc V Er) in E. cbn [bind] in E.
  destruct (b_axis s axis) as [ab|] eqn:Eab; cbn [bind] in E; [|discriminate]. cbv zeta in E.
  rewrite Hdc in E. cbn [negb] in E. rewrite andb_false_r in E.
  destruct (if get_affine (sp_mode sp) then w_axis s (shift_axis axis) else Ok ab) as [aw|] eqn:Eaw; cbn [bind] in E; [|discriminate].
  destruct (negb (ax_len s aw =? ax_len s ab)%nat) eqn:Eq; [discriminate|].
  match type of E with bind ?X _ = _ => destruct X as [oo|] eqn:Eo; cbn [bind] in E; [|discriminate] end.
  match type of E with bind ?X _ = _ => destruct X as [ro|] eqn:Ero; cbn [bind] in E; [|discriminate] end.
  rewrite extract_dc in E. injection E as <-.
  exists (extract (sp_mode sp) false (mk_full (f_x r) (f_uc ro) (f_wu ro) (f_bu ro) (f_lc ro) (f_wl ro) (f_bl ro) empty_tensor empty_tensor)), ab.
  split; [reflexivity|split].
  - eexists _, _. destruct (sp_mode sp); reflexivity.
  - intros h g. unfold op_max. rewrite (full_hg sp false false S _ f base h g r Hdc V Er). cbn [bind]. rewrite Eab. cbn [bind]. cbv zeta.
    rewrite Hdc. cbn [negb]. rewrite andb_false_r. rewrite Eaw. cbn [bind]. rewrite Eq.
    match goal with |- bind ?X _ = _ => replace X with (Ok oo) by (symmetry; exact Eo) end. cbn [bind].
    rewrite Ero. cbn [bind]. rewrite extract_dc. cbn [f_h f_g with_hg]. destruct (sp_mode sp); reflexivity.
Qed.

(** max_c (h_c + g_c) - sum_c g_c = max_c (h_c - sum_{c' <> c} g_c') *)
Lemma rmax_shift : forall n a t, (0 < n)%nat -> rmax n a - t = rmax n (fun c => a c - t).
Proof.
  intros n a t Hn0. apply Rle_antisym.
  - destruct (rmax_attained n a Hn0) as (c & Hc & Ec). rewrite Ec. apply (rmax_ge n (fun c => a c - t) c Hc).
  - apply rmax_lub; auto. intros c Hc. pose proof (rmax_ge n a c Hc). lra.
Qed.
Lemma max_dcp : forall k (a h g : nat -> vec -> R), (0 < k)%nat -> (forall c, (c < k)%nat -> dcp (a c) (h c) (g c)) ->
  dcp (fun z => rmax k (fun c => a c z)) (fun z => rmax k (fun c => h c z + g c z) - rsum k (fun c => g c z)) (fun z => rsum k (fun c => g c z)).
Proof.
  intros k a h g Hk H. split; [|split].
  - intros z Hz. rewrite (rmax_ext k _ (fun c => a c z)); [ring|auto|]. intros c Hc. apply (proj1 (H c Hc) z Hz).
  - apply (cvx_ext S (fun z => rmax k (fun c => h c z - rsum k (fun c' => if Nat.eqb c' c then 0 else g c' z)))).
    { intros z Hz. rewrite rmax_shift by auto. apply rmax_ext; auto. intros c Hc.
      assert (Es : rsum k (fun c' => g c' z) = g c z + rsum k (fun c' => if (c' =? c)%nat then 0 else g c' z)); [|rewrite Es; ring].
      rewrite (rsum_ext k (fun c' => g c' z) (fun c' => (if (c' =? c)%nat then g c z else 0) + (if (c' =? c)%nat then 0 else g c' z))).
      - rewrite rsum_plus. f_equal. apply (rsum_delta k c (fun _ => g c z)); auto.
      - intros i Hi. destruct (Nat.eqb_spec i c) as [-> | _]; ring. }
    apply (cvx_rmax S k (fun c z => h c z - rsum k (fun c' => if Nat.eqb c' c then 0 else g c' z)) Hk). intros c Hc.
    apply (cvx_ext S (fun z => h c z + rsum k (fun c' => if Nat.eqb c' c then 0 else - g c' z))).
    { intros z Hz. unfold Rminus. f_equal. rewrite <- rsum_opp.
      apply rsum_ext. intros i Hi. destruct (i =? c)%nat; ring. }
    apply (cvx_plus S (h c) (fun z => rsum k (fun c' => if Nat.eqb c' c then 0 else - g c' z))); [apply (H c Hc)|].
    apply (cvx_sum S k (fun c' z => if Nat.eqb c' c then 0 else - g c' z)). intros c' Hc'. destruct (c' =? c)%nat.
    + apply cvx_const.
    + apply cvx_opp. apply (H c' Hc').
  - apply (ccv_sum S k g). intros c Hc. apply (H c Hc).
Qed.

Lemma max_dc : forall ke pre k post axis ft f g b0 h0 g0,
  0 < ke -> (0 < k)%nat -> axis_ok (sp_mode sp) pre post axis -> along_axis rmax pre k post f g ->
  ft_ok (prodn (pre ++ k :: post)) ft -> dcv (prodn (pre ++ k :: post)) f b0 h0 g0 ->
  op_max_gaps ke (no_dc sp) (pre ++ k :: post) axis ft b0 (prodn (pre ++ post)) ->
  exists b h g', (forall z, op_max ke sp (pre ++ k :: post) axis ft (b0 ++ [h0 z; g0 z]) = Ok (b ++ [h z; g' z])) /\
    dcv (prodn (pre ++ post)) g b h g'.
Proof.
  intros ke pre k post axis ft f g b0 h0 g0 Hke Hk Hax Hg Hft [V0 D0] Hgap.
  destruct (max_sound ke sp S pre k post axis ft f g (b0 ++ [empty_tensor; empty_tensor]) Hke Hn Hd Hk Hax Hg Hft (op_sp_hg _ _ _ _ _ V0)) as (o & Eo & Vo).
  { intros Hm r ab aw Er Ea Ew.
    destruct (get_full_sound (no_dc sp) false false S _ f b0 Hn Hd V0) as (r0 & E0 & _).
    rewrite (full_hg sp false false S _ f b0 _ _ r0 Hdc V0 E0) in Er. injection Er as <-.
    exact (Hgap Hm r0 ab aw E0 Ea Ew). }
  destruct (op_max_hg ke _ _ _ _ _ _ _ V0 Eo) as (b & ab & Eab & (ph & pg & ->) & Eh).
  rewrite (axis_ok_b _ _ k _ _ Hax) in Eab. injection Eab as <-.
  eexists b, _, _. split; [intros z; apply Eh|]. split; [exact (op_sp_hg_inv _ _ _ _ _ Vo)|].
  intros j Hj. destruct (position_split _ _ _ Hj) as (p & q & Ip & Iq & ->).
  pose proof (max_dcp k (fun c z => f z (ravel (pre ++ k :: post) (p ++ c :: q))) (fun c z => h0 z 0%nat (ravel (pre ++ k :: post) (p ++ c :: q))) (fun c z => g0 z 0%nat (ravel (pre ++ k :: post) (p ++ c :: q))) Hk) as M.
  destruct M as (A & B & C). { intros c Hc. apply D0. apply position_mid_lt; auto. }
  assert (E1 : forall z, red_axis rsum (pre ++ k :: post) (length pre) (g0 z) 0%nat (ravel (pre ++ post) (p ++ q)) = rsum k (fun c => g0 z 0%nat (ravel (pre ++ k :: post) (p ++ c :: q)))).
  { intros z. unfold red_axis. rewrite ax_len_mid. apply rsum_ext. intros c Hc. rewrite slice_at by auto. reflexivity. }
  assert (E2 : forall z, red_axis rmax (pre ++ k :: post) (length pre) (ew2 Rplus (h0 z) (g0 z)) 0%nat (ravel (pre ++ post) (p ++ q))
     = rmax k (fun c => h0 z 0%nat (ravel (pre ++ k :: post) (p ++ c :: q)) + g0 z 0%nat (ravel (pre ++ k :: post) (p ++ c :: q)))).
  { intros z. unfold red_axis. rewrite ax_len_mid. apply rmax_ext; auto. intros c Hc. rewrite slice_at by auto. reflexivity. }
  split; [|split].
  - intros z Hz. change (ew2 Rminus ?a ?b 0%nat ?j) with (a 0%nat j - b 0%nat j). rewrite E1, E2, (A z Hz). symmetry. apply Hg; auto.
  - eapply cvx_ext; [|exact B]. intros z Hz. cbv beta. change (ew2 Rminus ?a ?b 0%nat ?j) with (a 0%nat j - b 0%nat j). rewrite E1, E2. reflexivity.
  - eapply ccv_ext; [|exact C]. intros z Hz. cbv beta. rewrite E1. reflexivity.
Qed.
End OPS.
