(** Proofs about the s-shaped activations (sigmoid, tanh, softsign). *)
From Coq Require Import Reals Lra Lia Psatz List Arith Bool ZArith.
From Verif Require Import RLib Spec M_Core M_Utils M_MergeLayers M_Ops P_Core P_Utils P_MergeLayers P_UtilsThm P_Axis P_Ops P_Act.
Import ListNotations.
Local Open Scope R_scope.

(** ** what is used of an s-shaped function *)
Record s_shape (F F' : R -> R) : Prop := {
  ss_der : forall x, derivable_pt_lim F x (F' x);
  ss_pos : forall x, 0 < F' x;
  ss_neg : forall x y, x < y -> y <= 0 -> F' x < F' y;
  ss_dec : forall x y, 0 <= x -> x < y -> F' y < F' x
}.

Section S.
Variables (F F' : R -> R).
Hypothesis HS : s_shape F F'.

Lemma ss_mvt : forall a b, a < b -> exists c, F b - F a = F' c * (b - a) /\ a < c < b.
Proof. intros. apply MVT_cor2; auto. intros. apply (ss_der _ _ HS). Qed.

Lemma ss_inc : forall x y, x < y -> F x < F y.
Proof. intros x y H. destruct (ss_mvt x y H) as (c & E & _). pose proof (ss_pos _ _ HS c). nra. Qed.
Lemma ss_mono : forall x y, x <= y -> F x <= F y.
Proof. intros x y [H|H]; [left; apply ss_inc; auto | subst; right; auto]. Qed.

(** strict tangent inequalities *)
Lemma ss_concave : forall x y, 0 <= x -> 0 <= y -> x <> y -> F y < F x + F' x * (y - x).
Proof.
  intros x y Hx Hy Hne. destruct (Rtotal_order x y) as [H|[H|H]]; [|contradiction|].
  - destruct (ss_mvt x y H) as (c & E & Hc). pose proof (ss_dec _ _ HS x c Hx ltac:(lra)). nra.
  - destruct (ss_mvt y x H) as (c & E & Hc). pose proof (ss_dec _ _ HS c x ltac:(lra) ltac:(lra)). nra.
Qed.
Lemma ss_convex : forall x y, x <= 0 -> y <= 0 -> x <> y -> F x + F' x * (y - x) < F y.
Proof.
  intros x y Hx Hy Hne. destruct (Rtotal_order x y) as [H|[H|H]]; [|contradiction|].
  - destruct (ss_mvt x y H) as (c & E & Hc). pose proof (ss_neg _ _ HS x c ltac:(lra) ltac:(lra)). nra.
  - destruct (ss_mvt y x H) as (c & E & Hc). pose proof (ss_neg _ _ HS c x ltac:(lra) ltac:(lra)). nra.
Qed.
Lemma ss_concave_le : forall x y, 0 <= x -> 0 <= y -> F y <= F x + F' x * (y - x).
Proof. intros x y Hx Hy. destruct (Req_dec x y) as [->|]; [lra|]. left. apply ss_concave; auto. Qed.
Lemma ss_convex_le : forall x y, x <= 0 -> y <= 0 -> F x + F' x * (y - x) <= F y.
Proof. intros x y Hx Hy. destruct (Req_dec x y) as [->|]; [lra|]. left. apply ss_convex; auto. Qed.

Definition slope_of (u l : R) : R := (F u - F l) / (u - l).

Lemma slope_pos : forall u l, l < u -> 0 < slope_of u l.
Proof. intros. unfold slope_of. apply Rdiv_lt_0_compat; [|lra]. pose proof (ss_inc l u H). lra. Qed.
Lemma slope_eq : forall u l, l < u -> slope_of u l * (u - l) = F u - F l.
Proof. intros. unfold slope_of. field. lra. Qed.

(** *** chord above *)
Lemma chord_upper : forall u l z, l < u -> l <= z <= u -> slope_of u l <= F' u ->
  F z <= F l + slope_of u l * (z - l).
Proof.
  intros u l z Hlu Hz Hs. pose proof (slope_eq u l Hlu) as E. set (s := slope_of u l) in *.
  assert (Right : forall x, 0 <= x <= u -> F x <= F l + s * (x - l)).
  { intros x Hx. pose proof (ss_concave_le u x ltac:(lra) ltac:(lra)). nra. }
  destruct (Rle_dec 0 z) as [H0|H0]; [apply Right; lra|].
  (* z <= 0: convex part, between l and e = min u 0 *)
  set (e := Rmin u 0). assert (He : e <= u /\ e <= 0 /\ z <= e) by (unfold e; rcases).
  assert (Fe : F e <= F l + s * (e - l)).
  { unfold e, Rmin. destruct (Rle_dec u 0); [lra|]. apply Right; lra. }
  destruct (Req_dec z l) as [->|Hzl]; [lra|]. assert (l < z) by lra.
  pose proof (ss_convex_le z e ltac:(lra) ltac:(lra)) as C1. pose proof (ss_convex_le z l ltac:(lra) ltac:(lra)) as C2.
  assert (P1 : 0 <= (z - l) * (F e - (F z + F' z * (e - z)))) by (apply Rmult_le_pos; lra).
  assert (P2 : 0 <= (e - z) * (F l - (F z + F' z * (l - z)))) by (apply Rmult_le_pos; lra).
  assert (P3 : 0 <= (z - l) * (F l + s * (e - l) - F e)) by (apply Rmult_le_pos; lra).
  apply Rmult_le_reg_l with (e - l); [lra|]. nra.
Qed.

Lemma chord_lower : forall u l z, l < u -> l <= z <= u -> slope_of u l <= F' l ->
  F u + slope_of u l * (z - u) <= F z.
Proof.
  intros u l z Hlu Hz Hs. pose proof (slope_eq u l Hlu) as E. set (s := slope_of u l) in *.
  assert (Left : forall x, l <= x <= 0 -> F u + s * (x - u) <= F x).
  { intros x Hx. pose proof (ss_convex_le l x ltac:(lra) ltac:(lra)). nra. }
  destruct (Rle_dec z 0) as [H0|H0]; [apply Left; lra|].
  set (e := Rmax l 0). assert (He : l <= e /\ 0 <= e /\ e <= z) by (unfold e; rcases).
  assert (Fe : F u + s * (e - u) <= F e).
  { unfold e, Rmax. destruct (Rle_dec l 0); [apply Left; lra|lra]. }
  destruct (Req_dec z u) as [->|Hzu]; [lra|]. assert (z < u) by lra.
  pose proof (ss_concave_le z e ltac:(lra) ltac:(lra)) as C1. pose proof (ss_concave_le z u ltac:(lra) ltac:(lra)) as C2.
  assert (P1 : 0 <= (u - z) * (F z + F' z * (e - z) - F e)) by (apply Rmult_le_pos; lra).
  assert (P2 : 0 <= (z - e) * (F z + F' z * (u - z) - F u)) by (apply Rmult_le_pos; lra).
  assert (P3 : 0 <= (u - z) * (F e - (F u + s * (e - u)))) by (apply Rmult_le_pos; lra).
  apply Rmult_le_reg_l with (u - e); [lra|]. nra.
Qed.

(** *** the hull outside of the tangent search *)
Definition upper_side (ke u l : R) : Prop := u = l \/ (ke <= u - l /\ (0 < l \/ slope_of u l <= F' u)).
Definition lower_side (ke u l : R) : Prop := u = l \/ (ke <= u - l /\ (u < 0 \/ slope_of u l <= F' l)).

Lemma coeff_wide : forall ke u l, ke <= u - l -> (F u - F l) / Rmax ke (u - l) = slope_of u l.
Proof. intros. unfold slope_of. rewrite Rmax_right by lra. reflexivity. Qed.

Lemma hull_upper_ok : forall ke u l z, 0 < ke -> l <= z <= u -> upper_side ke u l ->
  let h := hull_s_shape ke F F' u l in 0 <= h_wu h /\ F z <= h_wu h * z + h_bu h.
Proof.
  intros ke u l z Hke Hz Hside. cbv zeta. unfold hull_s_shape.
  destruct (get_t_upper ke F F' u l (F l)) as [w2 b2]. destruct (get_t_lower ke F F' u l (F u)) as [w2' b2'].
  cbn [h_wu h_bu].
  destruct Hside as [->|[Hw Hc]].
  - assert (E0 : (F l - F l) / Rmax ke (l - l) = 0) by (unfold Rdiv; ring). rewrite !E0.
    pose proof (ss_pos _ _ HS l). destruct (Rle_dec 0 (F' l)); [|lra].
    replace z with l by lra. split; lra.
  - rewrite coeff_wide by auto. assert (Hlu : l < u) by lra.
    pose proof (slope_pos u l Hlu) as Sp.
    destruct (Rle_dec (slope_of u l) (F' u)) as [Hs|Hs].
    + pose proof (chord_upper u l z Hlu Hz Hs). split; nra.
    + destruct Hc as [Hl|Hc]; [|lra]. rewrite Rsgn_pos by auto. pose proof (ss_mono z u ltac:(lra)).
      split; nra.
Qed.

Lemma hull_lower_ok : forall ke u l z, 0 < ke -> l <= z <= u -> lower_side ke u l ->
  let h := hull_s_shape ke F F' u l in 0 <= h_wl h /\ h_wl h * z + h_bl h <= F z.
Proof.
  intros ke u l z Hke Hz Hside. cbv zeta. unfold hull_s_shape.
  destruct (get_t_upper ke F F' u l (F l)) as [w2 b2]. destruct (get_t_lower ke F F' u l (F u)) as [w2' b2'].
  cbn [h_wl h_bl].
  destruct Hside as [->|[Hw Hc]].
  - assert (E0 : (F l - F l) / Rmax ke (l - l) = 0) by (unfold Rdiv; ring). rewrite !E0.
    pose proof (ss_pos _ _ HS l). destruct (Rle_dec 0 (F' l)); [|lra].
    replace z with l by lra. split; lra.
  - rewrite coeff_wide by auto. assert (Hlu : l < u) by lra.
    pose proof (slope_pos u l Hlu) as Sp.
    destruct (Rle_dec (slope_of u l) (F' l)) as [Hs|Hs].
    + pose proof (chord_lower u l z Hlu Hz Hs). split; nra.
    + destruct Hc as [Hl|Hc]; [|lra]. rewrite Rsgn_pos by lra. pose proof (ss_mono l z ltac:(lra)).
      split; nra.
Qed.

(** intervals on one side of 0 *)
Lemma one_sided : forall ke u l, 0 < ke -> l <= u -> wide ke u l -> u < 0 \/ 0 < l ->
  upper_side ke u l /\ lower_side ke u l.
Proof.
  intros ke u l Hke Hlu [Hw|Hw] Hs; [split; left; auto|].
  assert (H : l < u) by lra. pose proof (slope_eq u l H).
  destruct Hs as [Hs|Hs]; split; right; split; auto.
  - right. pose proof (ss_convex_le u l ltac:(lra) ltac:(lra)). apply Rmult_le_reg_r with (u - l); nra.
  - right. pose proof (ss_concave_le l u ltac:(lra) ltac:(lra)). apply Rmult_le_reg_r with (u - l); nra.
Qed.

(** *** the tangent search *)
Lemma argmin_to_le : forall k f, (argmin_to k f <= k)%nat.
Proof. induction k; intros; cbn; auto. destruct (Rlt_dec _ _); auto. Qed.
Lemma argmin_to_min : forall k f i, (i <= k)%nat -> f (argmin_to k f) <= f i.
Proof.
  induction k; intros f i Hi; cbn [argmin_to].
  - replace i with 0%nat by lia. lra.
  - destruct (Nat.eq_dec i (S k)) as [->|Hne].
    + destruct (Rlt_dec (f (S k)) (f (argmin_to k f))); lra.
    + specialize (IHk f i ltac:(lia)). destruct (Rlt_dec (f (S k)) (f (argmin_to k f))); lra.
Qed.
Lemma argmin_to_first : forall k f i, (i < argmin_to k f)%nat -> f (argmin_to k f) < f i.
Proof.
  induction k; intros f i Hi; cbn [argmin_to] in *; [lia|].
  destruct (Rlt_dec (f (S k)) (f (argmin_to k f))) as [H|H].
  - pose proof (argmin_to_min k f i ltac:(lia)). lra.
  - apply IHk; auto.
Qed.
Lemma rmin_argmin : forall f, rmin 100 f = f (argmin_to 99 f).
Proof.
  intros f. apply Rle_antisym.
  - apply rmin_le. pose proof (argmin_to_le 99 f). lia.
  - apply rmin_glb; [lia|]. intros i Hi. apply argmin_to_min. lia.
Qed.
Lemma pick_lt : forall t k, (k < 100)%nat -> pick t k = t k.
Proof. intros. unfold pick. apply (rsum_delta 100 k t H). Qed.
Lemma pick_ge : forall t k, (100 <= k)%nat -> pick t k = 0.
Proof. intros. unfold pick. apply (rsum_delta_out 100 k t H). Qed.

Lemma linspace_range : forall k, (k <= 99)%nat -> 0 <= linspace100 k <= 1.
Proof.
  intros k Hk. unfold linspace100. pose proof (pos_INR k). apply le_INR in Hk.
  replace (INR 99) with 99 in Hk by (cbn; lra).
  split; [apply Rmult_le_pos; lra|]. apply Rmult_le_reg_r with 99; [lra|]. unfold Rdiv. rewrite Rmult_assoc, Rinv_l by lra. lra.
Qed.
Lemma linspace_0 : linspace100 0 = 0.
Proof. unfold linspace100. cbn. lra. Qed.
Lemma linspace_lt : forall k, linspace100 k < linspace100 (S k).
Proof. intros. unfold linspace100. rewrite S_INR. lra. Qed.

Lemma zero_Rabs : forall x, ~ 0 < Rabs x -> x = 0.
Proof. intros x H. destruct (Req_dec x 0); auto. exfalso. apply H. apply Rabs_pos_lt. auto. Qed.

(** the point returned by the search is never a tangency point *)
Lemma t_upper_not_tangent : forall u l, l < 0 -> 0 < u ->
  let t := t_upper_value F F' u l (F l) in
  0 <= t <= u /\ F' t <> (F t - F l) / (t - l).
Proof.
  intros u l Hl Hu. cbv zeta.
  pose (t := fun k => linspace100 k * u). pose (score := fun k => Rabs (F' (t k) - (F (t k) - F l) / (t k - l))).
  change (t_upper_value F F' u l (F l)) with (pick t (if Rlt_dec 0 (rmin 100 score) then argmin_to 99 score else pred (argmin_to 99 score))).
  rewrite rmin_argmin. set (index := argmin_to 99 score).
  assert (Hi : (index <= 99)%nat) by apply argmin_to_le.
  assert (Rng : forall k, (k <= 99)%nat -> 0 <= t k <= u).
  { intros k Hk. pose proof (linspace_range k Hk). unfold t. nra. }
  assert (NT : forall k, 0 < score k -> F' (t k) <> (F (t k) - F l) / (t k - l)).
  { intros k Hk E. unfold score in Hk. rewrite E, Rminus_diag_eq, Rabs_R0 in Hk by reflexivity. lra. }
  destruct (Rlt_dec 0 (score index)) as [Hp|Hp].
  - rewrite pick_lt by lia. split; auto.
  - rewrite pick_lt by lia. split; [apply Rng; lia|]. apply NT.
    destruct index as [|k] eqn:Ei.
    + exfalso. apply zero_Rabs in Hp. unfold t in Hp. rewrite linspace_0, Rmult_0_l in Hp.
      pose proof (ss_convex 0 l ltac:(lra) ltac:(lra) ltac:(lra)) as C.
      assert (E : F' 0 = (F 0 - F l) / (0 - l)) by (apply Rminus_diag_uniq; exact Hp).
      assert (F' 0 * (0 - l) = F 0 - F l) by (rewrite E; field; lra). nra.
    + cbn [pred]. pose proof (argmin_to_first 99 score k ltac:(fold index; lia)) as L. fold index in L. rewrite Ei in L.
      pose proof (Rabs_pos (F' (t (S k)) - (F (t (S k)) - F l) / (t (S k) - l))) as P. fold (score (S k)) in P. lra.
Qed.

Lemma two_tangents : forall u t1 t, t < t1 -> t1 <= 0 -> 0 < u ->
  F' t = (F u - F t) / (u - t) -> F' t1 = (F u - F t1) / (u - t1) -> False.
Proof.
  intros u t1 t Ht Ht1 Hu E E1.
  assert (H : F' t * (u - t) = F u - F t) by (rewrite E; field; lra).
  assert (H1 : F' t1 * (u - t1) = F u - F t1) by (rewrite E1; field; lra).
  pose proof (ss_convex t t1 ltac:(lra) ltac:(lra) ltac:(lra)). pose proof (ss_neg _ _ HS t t1 Ht Ht1). nra.
Qed.

Lemma t_lower_not_tangent : forall u l, l < 0 -> 0 < u ->
  let t := t_lower_value F F' u l (F u) in
  l <= t <= 0 /\ F' t <> (F u - F t) / (u - t).
Proof.
  intros u l Hl Hu. cbv zeta.
  pose (t := fun k => linspace100 k * l). pose (score := fun k => Rabs (F' (t k) - (F u - F (t k)) / (u - t k))).
  change (t_lower_value F F' u l (F u)) with (pick t (if Rlt_dec 0 (rmin 100 score) then argmin_to 99 score else S (argmin_to 99 score))).
  rewrite rmin_argmin. set (index := argmin_to 99 score).
  assert (Hi : (index <= 99)%nat) by apply argmin_to_le.
  assert (Rng : forall k, (k <= 99)%nat -> l <= t k <= 0).
  { intros k Hk. pose proof (linspace_range k Hk). unfold t. nra. }
  assert (NT : forall k, 0 < score k -> F' (t k) <> (F u - F (t k)) / (u - t k)).
  { intros k Hk E. unfold score in Hk. rewrite E, Rminus_diag_eq, Rabs_R0 in Hk by reflexivity. lra. }
  destruct (Rlt_dec 0 (score index)) as [Hp|Hp].
  - rewrite pick_lt by lia. split; auto.
  - apply zero_Rabs in Hp. fold score in Hp.
    assert (E1 : F' (t index) = (F u - F (t index)) / (u - t index)) by (apply Rminus_diag_uniq; exact Hp).
    destruct (Nat.eq_dec index 99) as [E99|Hne].
    + rewrite pick_ge by lia. split; [lra|]. intros E.
      pose proof (ss_concave 0 u ltac:(lra) ltac:(lra) ltac:(lra)).
      assert (F' 0 * (u - 0) = F u - F 0) by (rewrite E; field; lra). nra.
    + rewrite pick_lt by lia. split; [apply Rng; lia|]. intros E.
      apply (two_tangents u (t index) (t (S index))); auto.
      * unfold t. pose proof (linspace_lt index). nra.
      * apply Rng; lia.
Qed.

(** a line through a point of the curve with another slope crosses the curve *)
Lemma cross_right : forall t w b, w < F' t -> t < b ->
  exists z, t < z < b /\ F t + w * (z - t) < F z.
Proof.
  intros t w b Hw Hb. destruct (ss_der _ _ HS t (F' t - w) ltac:(lra)) as [d Hd].
  set (h := Rmin (d / 2) ((b - t) / 2)). assert (Hh : 0 < h /\ h < d /\ h < b - t).
  { pose proof (cond_pos d). unfold h, Rmin. destruct Rle_dec; lra. }
  specialize (Hd h ltac:(lra) ltac:(rewrite Rabs_right; lra)).
  exists (t + h). split; [lra|]. apply Rabs_def2 in Hd. destruct Hd as [_ Hd].
  assert (E : (F (t + h) - F t) / h * h = F (t + h) - F t) by (field; lra). nra.
Qed.
Lemma cross_right' : forall t w b, F' t < w -> t < b ->
  exists z, t < z < b /\ F z < F t + w * (z - t).
Proof.
  intros t w b Hw Hb. destruct (ss_der _ _ HS t (w - F' t) ltac:(lra)) as [d Hd].
  set (h := Rmin (d / 2) ((b - t) / 2)). assert (Hh : 0 < h /\ h < d /\ h < b - t).
  { pose proof (cond_pos d). unfold h, Rmin. destruct Rle_dec; lra. }
  specialize (Hd h ltac:(lra) ltac:(rewrite Rabs_right; lra)).
  exists (t + h). split; [lra|]. apply Rabs_def2 in Hd. destruct Hd as [Hd _].
  assert (E : (F (t + h) - F t) / h * h = F (t + h) - F t) by (field; lra). nra.
Qed.
Lemma cross_left : forall t w a, F' t < w -> a < t ->
  exists z, a < z < t /\ F t + w * (z - t) < F z.
Proof.
  intros t w b Hw Hb. destruct (ss_der _ _ HS t (w - F' t) ltac:(lra)) as [d Hd].
  set (h := Rmin (d / 2) ((t - b) / 2)). assert (Hh : 0 < h /\ h < d /\ h < t - b).
  { pose proof (cond_pos d). unfold h, Rmin. destruct Rle_dec; lra. }
  specialize (Hd (- h) ltac:(lra) ltac:(rewrite Rabs_left; lra)).
  exists (t + - h). split; [lra|]. apply Rabs_def2 in Hd. destruct Hd as [Hd _].
  assert (E : (F (t + - h) - F t) / - h * h = - (F (t + - h) - F t)) by (field; lra). nra.
Qed.
Lemma cross_left' : forall t w a, w < F' t -> a < t ->
  exists z, a < z < t /\ F z < F t + w * (z - t).
Proof.
  intros t w b Hw Hb. destruct (ss_der _ _ HS t (F' t - w) ltac:(lra)) as [d Hd].
  set (h := Rmin (d / 2) ((t - b) / 2)). assert (Hh : 0 < h /\ h < d /\ h < t - b).
  { pose proof (cond_pos d). unfold h, Rmin. destruct Rle_dec; lra. }
  specialize (Hd (- h) ltac:(lra) ltac:(rewrite Rabs_left; lra)).
  exists (t + - h). split; [lra|]. apply Rabs_def2 in Hd. destruct Hd as [_ Hd].
  assert (E : (F (t + - h) - F t) / - h * h = - (F (t + - h) - F t)) by (field; lra). nra.
Qed.

Lemma hull_upper_tangent_wrong : forall ke u l, 0 < ke -> ke <= - l -> 0 < u -> F' u < slope_of u l ->
  exists z, l <= z <= u /\ h_wu (hull_s_shape ke F F' u l) * z + h_bu (hull_s_shape ke F F' u l) < F z.
Proof.
  intros ke u l Hke Hl Hu Hs.
  destruct (t_upper_not_tangent u l ltac:(lra) Hu) as [Rt Nt]. cbv zeta in Rt, Nt.
  unfold hull_s_shape, get_t_upper. destruct (get_t_lower ke F F' u l (F u)) as [w2' b2'].
  set (t := t_upper_value F F' u l (F l)) in *. cbn [h_wu h_bu].
  rewrite coeff_wide by lra. destruct (Rle_dec (slope_of u l) (F' u)); [lra|].
  rewrite (Rsgn_neg l) by lra. rewrite Rmax_right by lra.
  set (w := (F t - F l) / (t - l)) in *.
  assert (Ew : F l = F t - w * (t - l)) by (unfold w; field; lra).
  assert (Line : forall z, F t + w * (z - t) < F z ->
    (0 * slope_of u l + (1 - 0) * ((-1 + 1) / 2) * 0 + (1 - 0 - (1 - 0) * ((-1 + 1) / 2)) * w) * z +
    (0 * (- slope_of u l * l + F l) + (1 - 0) * ((-1 + 1) / 2) * F u + (1 - 0 - (1 - 0) * ((-1 + 1) / 2)) * (- w * l + F l)) < F z).
  { intros z Hz. replace (- w * l + F l) with (- w * t + F t) by (rewrite Ew; ring). lra. }
  destruct (Rtotal_order w (F' t)) as [H|[H|H]]; [|congruence|].
  - assert (t <> u). { intros E. unfold w in H. rewrite E in H. fold (slope_of u l) in H. lra. }
    destruct (cross_right t w u H ltac:(lra)) as (z & Hz & C). exists z. split; [lra|auto].
  - destruct (cross_left t w l H ltac:(lra)) as (z & Hz & C). exists z. split; [lra|auto].
Qed.

Lemma hull_lower_tangent_wrong : forall ke u l, 0 < ke -> l < 0 -> ke <= u -> F' l < slope_of u l ->
  exists z, l <= z <= u /\ F z < h_wl (hull_s_shape ke F F' u l) * z + h_bl (hull_s_shape ke F F' u l).
Proof.
  intros ke u l Hke Hl Hu Hs.
  destruct (t_lower_not_tangent u l Hl ltac:(lra)) as [Rt Nt]. cbv zeta in Rt, Nt.
  unfold hull_s_shape, get_t_lower. destruct (get_t_upper ke F F' u l (F l)) as [w2' b2'].
  set (t := t_lower_value F F' u l (F u)) in *. cbn [h_wl h_bl].
  rewrite coeff_wide by lra. destruct (Rle_dec (slope_of u l) (F' l)); [lra|].
  rewrite (Rsgn_neg (- u)) by lra. rewrite Rmax_right by lra.
  set (w := (F u - F t) / (u - t)) in *.
  assert (Ew : F u = F t + w * (u - t)) by (unfold w; field; lra).
  assert (Line : forall z, F z < F t + w * (z - t) -> F z <
    (0 * slope_of u l + (1 - 0) * ((-1 + 1) / 2) * 0 + (1 - 0 - (1 - 0) * ((-1 + 1) / 2)) * w) * z +
    (0 * (- slope_of u l * u + F u) + (1 - 0) * ((-1 + 1) / 2) * F l + (1 - 0 - (1 - 0) * ((-1 + 1) / 2)) * (- w * u + F u))).
  { intros z Hz. replace (- w * u + F u) with (- w * t + F t) by (rewrite Ew; ring). lra. }
  destruct (Rtotal_order w (F' t)) as [H|[H|H]]; [|congruence|].
  - assert (t <> l). { intros E. unfold w in H. rewrite E in H. fold (slope_of u l) in H. lra. }
    destruct (cross_left' t w l H ltac:(lra)) as (z & Hz & C). exists z. split; [lra|auto].
  - destruct (cross_right' t w u H ltac:(lra)) as (z & Hz & C). exists z. split; [lra|auto].
Qed.

(** every interval containing 0 well inside makes the hull wrong *)
Lemma crossing_wrong : forall ke u l, 0 < ke -> ke <= - l -> ke <= u ->
  exists z, l <= z <= u /\
    (h_wu (hull_s_shape ke F F' u l) * z + h_bu (hull_s_shape ke F F' u l) < F z \/
     F z < h_wl (hull_s_shape ke F F' u l) * z + h_bl (hull_s_shape ke F F' u l)).
Proof.
  intros ke u l Hke Hl Hu.
  destruct (Rlt_dec (F' u) (slope_of u l)) as [H|H].
  - destruct (hull_upper_tangent_wrong ke u l Hke Hl ltac:(lra) H) as (z & Hz & C). exists z. auto.
  - destruct (Rlt_dec (F' l) (slope_of u l)) as [H'|H'].
    + destruct (hull_lower_tangent_wrong ke u l Hke ltac:(lra) Hu H') as (z & Hz & C). exists z. auto.
    + exfalso. pose proof (slope_eq u l ltac:(lra)) as E. set (s := slope_of u l) in *.
      pose proof (ss_convex l 0 ltac:(lra) ltac:(lra) ltac:(lra)). pose proof (ss_concave u 0 ltac:(lra) ltac:(lra) ltac:(lra)). nra.
Qed.

(** ** operator level *)
Lemma s_shape_ibp : forall ke sp S m f ts,
  (0 < sp_n sp)%nat -> sp_mode sp = IBP -> sp_dc sp = false ->
  op_sp sp S m f ts ->
  exists out, op_s_shape ke sp F F' ts = Ok out /\ op_sp sp S m (fun z j => F (f z j)) out.
Proof.
  intros ke sp S m f ts Hn Hm Hdc H.
  destruct (get_full_sound sp false true S m f ts Hn) as (r & E & C & A); auto.
  { rewrite Hm. exact I. }
  rewrite Hm in C. specialize (C eq_refl).
  unfold op_s_shape. rewrite E. cbn [bind]. rewrite Hm. cbn [get_affine bind].
  apply (hull_out_sound sp S m f); auto.
  - intros _ z j Hz Hj. specialize (C z j Hz Hj). unfold ew. split; apply ss_mono; lra.
  - rewrite Hm. discriminate.
Qed.

Definition both_sides (ke u l : R) : Prop := upper_side ke u l /\ lower_side ke u l.

Lemma s_shape_sound : forall ke sp S m f ts,
  0 < ke -> (0 < sp_n sp)%nat -> dom_ok (sp_dom sp) (sp_mode sp) -> sp_dc sp = false ->
  op_sp sp S m f ts -> intervals (both_sides ke) sp m ts ->
  exists out, op_s_shape ke sp F F' ts = Ok out /\ op_sp sp S m (fun z j => F (f z j)) out.
Proof.
  intros ke sp S m f ts Hke Hn Hd Hdc H Hs.
  assert (D : sp_mode sp = IBP \/ get_affine (sp_mode sp) = true) by (destruct (sp_mode sp); auto).
  destruct D as [D|D]; [apply s_shape_ibp; auto|].
  destruct (get_full_sound sp false true S m f ts Hn Hd H) as (r & E & C & A).
  destruct (get_full_sound sp true true S m f ts Hn Hd H) as (r' & E' & C' & A').
  rewrite orb_true_r in C'. rewrite orb_false_r in C. specialize (C' eq_refl).
  unfold op_s_shape. rewrite E. cbn [bind]. rewrite D, E'. cbn [bind].
  apply (hull_out_sound sp S m f); auto.
  - intros Hi z j Hz Hj. specialize (C Hi z j Hz Hj). unfold ew. split; apply ss_mono; lra.
  - intros Ha. destruct (A Ha) as [X B]. split; auto. split; auto. intros z j Hz Hj. specialize (C' z j Hz Hj).
    assert (Hm : sp_mode sp <> IBP) by (intro K; rewrite K in Ha; discriminate).
    destruct (Hs Hm r' E' j Hj) as [Su Sl].
    pose proof (hull_upper_ok ke _ _ (f z j) Hke C' Su) as [P1 P2].
    pose proof (hull_lower_ok ke _ _ (f z j) Hke C' Sl) as [P3 P4]. auto.
Qed.

Lemma s_shape_crossing_refuted : forall ke a b, 0 < ke -> ke <= - a -> ke <= b ->
  upper_fails (op_s_shape ke sp1 F F') F a b \/ lower_fails (op_s_shape ke sp1 F F') F a b.
Proof.
  intros ke a b Hke Ha Hb.
  destruct (crossing_wrong ke b a Hke Ha Hb) as (z & Hz & [C|C]); [left|right];
  (eexists; exists (fun _ => z); split; [unfold op_s_shape; rewrite id_full_ft; cbn [bind get_affine sp_mode]; rewrite id_full; reflexivity|]);
  (split; [exact Hz|]); unfold aff, dot; cbn [nth extract hull_out sp_mode get_affine get_ibp when f_wu f_bu f_wl f_bl f_x app rsum f_uc f_lc]; unfold vt; lra.
Qed.

Lemma s_shape_upper_refuted : forall ke a b, 0 < ke -> ke <= - a -> 0 < b -> F' b < slope_of b a ->
  upper_fails (op_s_shape ke sp1 F F') F a b.
Proof.
  intros ke a b Hke Ha Hb Hs.
  destruct (hull_upper_tangent_wrong ke b a Hke Ha Hb Hs) as (z & Hz & C).
  eexists; exists (fun _ => z); split; [unfold op_s_shape; rewrite id_full_ft; cbn [bind get_affine sp_mode]; rewrite id_full; reflexivity|];
  (split; [exact Hz|]); unfold aff, dot; cbn [nth extract hull_out sp_mode get_affine get_ibp when f_wu f_bu f_wl f_bl f_x app rsum f_uc f_lc]; unfold vt; lra.
Qed.
End S.

(** ** the three activations are s-shaped *)
Lemma sigmoid_range : forall x, 0 < sigmoid x < 1.
Proof.
  intros. unfold sigmoid. pose proof (exp_pos (- x)). split; [apply Rinv_0_lt_compat; lra|].
  rewrite <- Rinv_1. apply Rinv_lt_contravar; lra.
Qed.
Lemma sigmoid_0 : sigmoid 0 = 1 / 2.
Proof. unfold sigmoid. rewrite Ropp_0, exp_0. lra. Qed.
Lemma sigmoid_inc : forall x y, x < y -> sigmoid x < sigmoid y.
Proof.
  intros. unfold sigmoid. pose proof (exp_pos (- x)). pose proof (exp_pos (- y)).
  pose proof (exp_increasing (- y) (- x) ltac:(lra)). apply Rinv_lt_contravar; [nra|lra].
Qed.
Lemma sigmoid_der : forall x, derivable_pt_lim sigmoid x (sigmoid_prime x).
Proof.
  intros x. pose proof (exp_pos (- x)) as P.
  assert (D1 : derivable_pt_lim (fun x => 1 + exp (- x)) x (0 + exp (- x) * -1)).
  { apply (derivable_pt_lim_plus (fun _ => 1) (fun x => exp (- x))).
    - apply derivable_pt_lim_const.
    - apply (derivable_pt_lim_comp Ropp exp).
      + apply (derivable_pt_lim_opp id x 1). apply derivable_pt_lim_id.
      + apply derivable_pt_lim_exp. }
  pose proof (derivable_pt_lim_div (fun _ => 1) (fun x => 1 + exp (- x)) x 0 _ (derivable_pt_lim_const 1 x) D1 ltac:(cbv beta; lra)) as D.
  replace (sigmoid_prime x) with ((0 * (1 + exp (- x)) - (0 + exp (- x) * -1) * 1) / Rsqr (1 + exp (- x))).
  2:{ unfold sigmoid_prime, sigmoid, Rsqr. field. lra. }
  intros eps He. destruct (D eps He) as [d Hd]. exists d. intros h Hh Hh'. specialize (Hd h Hh Hh').
  unfold div_fct in Hd. unfold sigmoid. unfold Rdiv in *. rewrite !Rmult_1_l in Hd. exact Hd.
Qed.

Lemma sigmoid_s : s_shape sigmoid sigmoid_prime.
Proof.
  split.
  - exact sigmoid_der.
  - intros x. unfold sigmoid_prime. pose proof (sigmoid_range x). nra.
  - intros x y H Hy. unfold sigmoid_prime. pose proof (sigmoid_inc x y H).
    assert (sigmoid y <= 1/2) by (rewrite <- sigmoid_0; destruct Hy as [Hy|Hy]; [left; apply sigmoid_inc; auto|subst; right; auto]). nra.
  - intros x y Hx H. unfold sigmoid_prime. pose proof (sigmoid_inc x y H).
    assert (1/2 <= sigmoid x) by (rewrite <- sigmoid_0; destruct Hx as [Hx|Hx]; [left; apply sigmoid_inc; auto|subst; right; auto]). nra.
Qed.

Lemma tanh_sigmoid : forall x, tanh x = 2 * sigmoid (2 * x) - 1.
Proof.
  intros x. unfold tanh, sinh, cosh, sigmoid.
  replace (- (2 * x)) with (- x + - x) by lra. rewrite exp_plus.
  assert (E : exp x * exp (- x) = 1) by (rewrite <- exp_plus; replace (x + - x) with 0 by lra; apply exp_0).
  pose proof (exp_pos x). pose proof (exp_pos (- x)).
  set (a := exp x) in *. set (b := exp (- x)) in *.
  replace a with (/ b) by (apply Rmult_eq_reg_r with b; [rewrite Rinv_l by lra; lra|lra]).
  field. nra.
Qed.
Lemma tanh_prime_sigmoid : forall x, tanh_prime x = 4 * sigmoid_prime (2 * x).
Proof. intros. unfold tanh_prime. rewrite tanh_sigmoid. unfold sigmoid_prime. ring. Qed.

Lemma tanh_s : s_shape tanh tanh_prime.
Proof.
  split.
  - intros x. rewrite tanh_prime_sigmoid.
    assert (D : derivable_pt_lim (fun x => 2 * sigmoid (2 * x) - 1) x (2 * (sigmoid_prime (2 * x) * 2) - 0)).
    { apply (derivable_pt_lim_minus (fun x => 2 * sigmoid (2 * x)) (fun _ => 1)).
      - apply (derivable_pt_lim_scal (fun x => sigmoid (2 * x)) 2).
        apply (derivable_pt_lim_comp (fun x => 2 * x) sigmoid).
        + pose proof (derivable_pt_lim_scal id 2 x 1 (derivable_pt_lim_id x)) as D. rewrite Rmult_1_r in D. exact D.
        + apply sigmoid_der.
      - apply derivable_pt_lim_const. }
    replace (4 * sigmoid_prime (2 * x)) with (2 * (sigmoid_prime (2 * x) * 2) - 0) by lra.
    intros eps He. destruct (D eps He) as [d Hd]. exists d. intros h Hh Hh'. specialize (Hd h Hh Hh').
    rewrite !tanh_sigmoid. exact Hd.
  - intros x. rewrite tanh_prime_sigmoid. pose proof (ss_pos _ _ sigmoid_s (2 * x)). lra.
  - intros x y H Hy. rewrite !tanh_prime_sigmoid. pose proof (ss_neg _ _ sigmoid_s (2 * x) (2 * y) ltac:(lra) ltac:(lra)). lra.
  - intros x y Hx H. rewrite !tanh_prime_sigmoid. pose proof (ss_dec _ _ sigmoid_s (2 * x) (2 * y) ltac:(lra) ltac:(lra)). lra.
Qed.

(** softsign: direct computation of the difference quotient *)
Lemma softsign_odd : forall x, softsign (- x) = - softsign x.
Proof. intros. unfold softsign. rewrite Rabs_Ropp. unfold Rdiv. ring. Qed.
Lemma softsign_quot : forall x h, 0 <= x -> 0 <= x + h -> h <> 0 ->
  Rabs ((softsign (x + h) - softsign x) / h - softsign_prime x) <= Rabs h.
Proof.
  intros x h Hx Hxh Hh. unfold softsign, softsign_prime. rewrite (Rabs_right (x + h)), (Rabs_right x) by lra.
  replace (((x + h) / (1 + (x + h)) - x / (1 + x)) / h - 1 / (1 + x) ^ 2) with (- h * (/ ((1 + x) ^ 2 * (1 + (x + h))))) by (field; lra).
  rewrite Rabs_mult, Rabs_Ropp. rewrite <- (Rmult_1_r (Rabs h)) at 2. apply Rmult_le_compat_l; [apply Rabs_pos|].
  assert (P : 1 <= (1 + x) ^ 2 * (1 + (x + h))).
  { assert (1 <= (1 + x) ^ 2) by nra. nra. }
  rewrite Rabs_right by (left; apply Rinv_0_lt_compat; lra). rewrite <- Rinv_1. apply Rinv_le_contravar; lra.
Qed.
Lemma softsign_quot0 : forall h, h <> 0 -> Rabs ((softsign (0 + h) - softsign 0) / h - softsign_prime 0) <= Rabs h.
Proof.
  intros h Hh. destruct (Rle_dec 0 h) as [H|H]; [apply softsign_quot; lra|].
  pose proof (softsign_quot 0 (- h) ltac:(lra) ltac:(lra) ltac:(lra)) as Q. rewrite Rabs_Ropp in Q.
  replace (0 + - h) with (- (0 + h)) in Q by lra. rewrite softsign_odd in Q.
  replace (softsign 0) with 0 in * by (unfold softsign; unfold Rdiv; ring).
  replace ((softsign (0 + h) - 0) / h) with ((- softsign (0 + h) - 0) / - h) by (field; lra). exact Q.
Qed.
Lemma softsign_der : forall x, derivable_pt_lim softsign x (softsign_prime x).
Proof.
  assert (Pos : forall x, 0 <= x -> derivable_pt_lim softsign x (softsign_prime x)).
  { intros x [Hx|<-] eps He.
    - assert (Hd : 0 < Rmin eps x) by (apply Rmin_pos; auto). exists (mkposreal _ Hd). cbn. intros h Hh Hlt.
      pose proof (Rmin_l eps x). pose proof (Rmin_r eps x).
      assert (Hr : Rabs h < x) by lra. apply Rabs_def2 in Hr.
      pose proof (softsign_quot x h ltac:(lra) ltac:(lra) Hh). lra.
    - exists (mkposreal _ He). cbn. intros h Hh Hlt. pose proof (softsign_quot0 h Hh). lra. }
  intros x. destruct (Rle_dec 0 x) as [H|H]; [auto|].
  intros eps He. destruct (Pos (- x) ltac:(lra) eps He) as [d Hd]. exists d. intros h Hh Hlt.
  specialize (Hd (- h) ltac:(lra) ltac:(rewrite Rabs_Ropp; auto)).
  replace (- x + - h) with (- (x + h)) in Hd by lra. rewrite !softsign_odd in Hd.
  replace (softsign_prime (- x)) with (softsign_prime x) in Hd by (unfold softsign_prime; rewrite Rabs_Ropp; auto).
  replace ((softsign (x + h) - softsign x) / h) with ((- softsign (x + h) - - softsign x) / - h) by (field; lra). exact Hd.
Qed.
Lemma softsign_s : s_shape softsign softsign_prime.
Proof.
  assert (Dec : forall x y, 0 <= x -> x < y -> softsign_prime y < softsign_prime x).
  { intros x y Hx H. unfold softsign_prime. rewrite !Rabs_right by lra. unfold Rdiv. rewrite !Rmult_1_l.
    apply Rinv_lt_contravar; [|nra]. apply Rmult_lt_0_compat; nra. }
  split.
  - exact softsign_der.
  - intros x. unfold softsign_prime. pose proof (Rabs_pos x). apply Rdiv_lt_0_compat; [lra|]. nra.
  - intros x y H Hy. replace (softsign_prime x) with (softsign_prime (- x)) by (unfold softsign_prime; rewrite Rabs_Ropp; auto).
    replace (softsign_prime y) with (softsign_prime (- y)) by (unfold softsign_prime; rewrite Rabs_Ropp; auto).
    apply Dec; lra.
  - exact Dec.
Qed.
