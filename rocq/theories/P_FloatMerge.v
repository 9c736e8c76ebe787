(** Maximum, Minimum and Multiply in floating-point arithmetic: proofs. *)
From Coq Require Import Reals List Arith Bool ZArith Lra Lia.
From Flocq Require Import Core.
From Verif Require Import RLib Spec Spec_Float Spec_FloatMerge M_Core M_Utils M_MergeLayers M_Ops M_Float M_FloatMerge P_Core P_FloatThm.
Import ListNotations.
Local Open Scope R_scope.

Lemma abs_le : forall x a, Rabs x <= a -> - a <= x <= a.
Proof. intros x a H. unfold Rabs in H. destruct (Rcase_abs x); lra. Qed.
Lemma le_abs : forall x a, - a <= x <= a -> Rabs x <= a.
Proof. intros x a H. unfold Rabs. destruct (Rcase_abs x); lra. Qed.
(** an operation of exact result at most B *)
Lemma rounded_at : forall u eta B x y, 0 <= u -> Rabs x <= B -> rounded u eta x y -> - (u * B + eta) <= y - x <= u * B + eta.
Proof. intros u eta B x y Hu H R. apply abs_le. unfold rounded in R. pose proof (Rmult_le_compat_l u _ _ Hu H). lra. Qed.
Lemma mul_abs : forall A x y, 0 <= A -> Rabs x <= A -> Rabs y <= A -> Rabs (x * y) <= A * A.
Proof. intros A x y HA Hx Hy. rewrite Rabs_mult. apply Rmult_le_compat; auto using Rabs_pos. Qed.

(** ** maximum *)
Lemma maximum_step : forall u eta A E x y a b c, 0 <= u -> 0 <= eta -> 0 <= A -> 0 <= E -> within E x a -> within 0 y b -> at_most A a -> at_most A b ->
  fl_maximum (rounded u eta) a b c -> within (2 * E + maximum_error u eta A) (Rmax x y) c.
Proof.
  intros u eta A E x y (u0, l0) (u1, l1) (U, L) Hu He HA HE Wx Wy Ha Hb ((d1, d2) & (S1 & S2) & A1 & A2).
  unfold within, at_most, fl_minus, fl_relu in *. cbn [fst snd] in *.
  destruct Ha as [Ha1 Ha2]. destruct Hb as [Hb1 Hb2]. apply abs_le in Ha1, Ha2, Hb1, Hb2.
  assert (T1 : Rabs (u1 + - l0) <= 2 * A) by (apply le_abs; lra). assert (T2 : Rabs (l1 + - u0) <= 2 * A) by (apply le_abs; lra).
  apply (rounded_at _ _ _ _ _ Hu T1) in S1. apply (rounded_at _ _ _ _ _ Hu T2) in S2.
  assert (P : 0 <= u * (2 * A)) by (apply Rmult_le_pos; lra).
  assert (T3 : Rabs (Rmax 0 d1 + u0) <= 3 * A + (u * (2 * A) + eta)) by (apply le_abs; unfold Rmax; destruct (Rle_dec 0 d1); lra).
  assert (T4 : Rabs (Rmax 0 d2 + l0) <= 3 * A + (u * (2 * A) + eta)) by (apply le_abs; unfold Rmax; destruct (Rle_dec 0 d2); lra).
  apply (rounded_at _ _ _ _ _ Hu T3) in A1. apply (rounded_at _ _ _ _ _ Hu T4) in A2.
  assert (Q : u * (2 * A) + eta + (u * (3 * A + (u * (2 * A) + eta)) + eta) <= maximum_error u eta A).
  { unfold maximum_error. assert (0 <= u * A) by (apply Rmult_le_pos; lra). assert (0 <= u * (u * A)) by (apply Rmult_le_pos; lra). lra. }
  split.
  - unfold Rmax in *. destruct (Rle_dec 0 d2), (Rle_dec x y); lra.
  - unfold Rmax in *. destruct (Rle_dec 0 d1), (Rle_dec x y); lra.
Qed.

(** ** product *)
Definition mcc (m : R -> R -> R) (p q q' r q'' : R) : R := m p q + m q' r - q''.
Lemma mcc_upper : forall x y u0 l0 u1 l1, l0 <= x <= u0 -> l1 <= y <= u1 ->
  x * y <= mcc Rmax (u0 * u1) (u0 * l1) (u0 * l1) (l0 * l1) (u0 * l1) /\ x * y <= mcc Rmax (u0 * u1) (l0 * u1) (l0 * u1) (l0 * l1) (l0 * u1) /\
  mcc Rmin (l0 * l1) (l0 * u1) (l0 * l1) (u0 * l1) (l0 * l1) <= x * y.
Proof.
  intros x y u0 l0 u1 l1 Hx Hy. unfold mcc.
  assert (X : forall t, Rmin (l0 * t) (u0 * t) <= x * t <= Rmax (u0 * t) (l0 * t)).
  { intros t. destruct (Rle_dec 0 t).
    - assert (l0 * t <= x * t <= u0 * t) by (split; apply Rmult_le_compat_r; lra). unfold Rmin, Rmax. destruct (Rle_dec (l0 * t) (u0 * t)), (Rle_dec (u0 * t) (l0 * t)); lra.
    - assert (u0 * t <= x * t <= l0 * t) by (split; nra). unfold Rmin, Rmax. destruct (Rle_dec (l0 * t) (u0 * t)), (Rle_dec (u0 * t) (l0 * t)); lra. }
  assert (Y : forall t, Rmin (t * l1) (t * u1) <= t * y <= Rmax (t * u1) (t * l1)).
  { intros t. destruct (Rle_dec 0 t).
    - assert (t * l1 <= t * y <= t * u1) by (split; apply Rmult_le_compat_l; lra). unfold Rmin, Rmax. destruct (Rle_dec (t * l1) (t * u1)), (Rle_dec (t * u1) (t * l1)); lra.
    - assert (t * u1 <= t * y <= t * l1) by (split; nra). unfold Rmin, Rmax. destruct (Rle_dec (t * l1) (t * u1)), (Rle_dec (t * u1) (t * l1)); lra. }
  assert (M1 : 0 <= (u0 - x) * (y - l1)) by (apply Rmult_le_pos; lra). assert (M2 : 0 <= (x - l0) * (u1 - y)) by (apply Rmult_le_pos; lra).
  assert (M3 : 0 <= (x - l0) * (y - l1)) by (apply Rmult_le_pos; lra).
  pose proof (X l1) as X1. pose proof (X u1) as X2. pose proof (Y u0) as Y1. pose proof (Y l0) as Y2. rewrite (Rmax_comm (u0 * u1)) in Y1.
  rewrite (Rmax_comm (l0 * u1) (l0 * l1)) in Y2. rewrite (Rmax_comm (u0 * u1) (u0 * l1)), (Rmax_comm (l0 * u1) (l0 * l1)). nra.
Qed.

Lemma minmax_near : forall (m : R -> R -> R) D p q p' q', m = Rmax \/ m = Rmin -> - D <= p - p' <= D -> - D <= q - q' <= D -> - D <= m p q - m p' q' <= D.
Proof.
  intros m D p q p' q' [-> | ->] H1 H2; [unfold Rmax|unfold Rmin]; destruct (Rle_dec p q), (Rle_dec p' q'); lra.
Qed.
Lemma minmax_size : forall (m : R -> R -> R) B p q, m = Rmax \/ m = Rmin -> Rabs p <= B -> Rabs q <= B -> - B <= m p q <= B.
Proof. intros m B p q [-> | ->] H1 H2; apply abs_le in H1, H2; [unfold Rmax|unfold Rmin]; destruct (Rle_dec p q); lra. Qed.

Lemma mccormick_near : forall u eta A D m p q q' r q'' y p0 q0 q0' r0 q0'', 0 <= u -> 0 <= eta -> 0 <= A -> m = Rmax \/ m = Rmin ->
  (forall t t0, In (t, t0) [(p, p0); (q, q0); (q', q0'); (r, r0); (q'', q0'')] -> Rabs t <= A * A + (u * (A * A) + eta) /\ - (u * (A * A) + eta + D) <= t - t0 <= u * (A * A) + eta + D) ->
  fl_mccormick (rounded u eta) m p q q' r q'' y -> - (3 * D + product_error u eta A) <= y - mcc m p0 q0 q0' r0 q0'' <= 3 * D + product_error u eta A.
Proof.
  intros u eta A D m p q q' r q'' y p0 q0 q0' r0 q0'' Hu He HA Hm HI (s & S1 & S2). unfold mcc, product_error. cbv zeta.
  set (d := u * (A * A) + eta) in *. set (B := A * A + d) in *.
  destruct (HI p p0 ltac:(cbn; tauto)) as [Bp Np]. destruct (HI q q0 ltac:(cbn; tauto)) as [Bq Nq]. destruct (HI q' q0' ltac:(cbn; tauto)) as [Bq' Nq'].
  destruct (HI r r0 ltac:(cbn; tauto)) as [Br Nr]. destruct (HI q'' q0'' ltac:(cbn; tauto)) as [Bq'' Nq''].
  pose proof (minmax_near m _ _ _ _ _ Hm Np Nq) as N1. pose proof (minmax_near m _ _ _ _ _ Hm Nq' Nr) as N2.
  pose proof (minmax_size m _ _ _ Hm Bp Bq) as Z1. pose proof (minmax_size m _ _ _ Hm Bq' Br) as Z2. apply abs_le in Bq''.
  assert (T1 : Rabs (m p q + m q' r) <= 2 * B) by (apply le_abs; lra). apply (rounded_at _ _ _ _ _ Hu T1) in S1.
  assert (T2 : Rabs (s - q'') <= 2 * (A * A) + (2 * d + u * (2 * B) + eta) + B) by (apply le_abs; unfold B in *; lra). apply (rounded_at _ _ _ _ _ Hu T2) in S2.
  lra.
Qed.

Lemma multiply_step : forall u eta A E x y a b c, 0 <= u -> 0 <= eta -> 0 <= A -> 0 <= E -> within E x a -> within 0 y b -> at_most A a -> at_most A b ->
  fl_multiply (rounded u eta) a b c -> within (3 * A * E + product_error u eta A) (x * y) c.
Proof.
  intros u eta A E x y (u0, l0) (u1, l1) (U, L) Hu He HA HE Wx Wy Ha Hb (uu & ul & lu & ll & U0 & U1 & P1 & P2 & P3 & P4 & C1 & C2 & C3 & C4).
  unfold within, at_most in *. cbn [fst snd] in *. destruct Ha as [Ha1 Ha2]. destruct Hb as [Hb1 Hb2].
  set (v0 := Rmax u0 x). set (k0 := Rmin l0 x).
  assert (Wx' : k0 <= x <= v0). { unfold v0, k0, Rmax, Rmin. destruct (Rle_dec u0 x), (Rle_dec l0 x); lra. }
  assert (Nv : - E <= u0 - v0 <= E). { unfold v0, Rmax. destruct (Rle_dec u0 x); lra. }
  assert (Nk : - E <= l0 - k0 <= E). { unfold k0, Rmin. destruct (Rle_dec l0 x); lra. }
  destruct (mcc_upper x y v0 k0 u1 l1 Wx' ltac:(lra)) as (M1 & M2 & M3).
  assert (PR : forall s t p s', Rabs s <= A -> Rabs t <= A -> - E <= s - s' <= E -> rounded u eta (s * t) p ->
            Rabs p <= A * A + (u * (A * A) + eta) /\ - (u * (A * A) + eta + A * E) <= p - s' * t <= u * (A * A) + eta + A * E).
  { intros s t p s' Hs Ht Hn Hp. pose proof (mul_abs A s t HA Hs Ht) as Hm. apply (rounded_at _ _ _ _ _ Hu Hm) in Hp. apply abs_le in Hm.
    split; [apply le_abs; lra|]. assert (K : Rabs ((s - s') * t) <= E * A) by (rewrite Rabs_mult; apply Rmult_le_compat; auto using Rabs_pos; apply le_abs; lra).
    apply abs_le in K. nra. }
  pose proof (PR u0 u1 uu v0 Ha1 Hb1 Nv P1) as Q1. pose proof (PR u0 l1 ul v0 Ha1 Hb2 Nv P2) as Q2. pose proof (PR l0 u1 lu k0 Ha2 Hb1 Nk P3) as Q3. pose proof (PR l0 l1 ll k0 Ha2 Hb2 Nk P4) as Q4.
  assert (F1 := mccormick_near u eta A (A * E) Rmax uu ul ul ll ul U0 (v0 * u1) (v0 * l1) (v0 * l1) (k0 * l1) (v0 * l1) Hu He HA (or_introl eq_refl)).
  assert (F2 := mccormick_near u eta A (A * E) Rmax uu lu lu ll lu U1 (v0 * u1) (k0 * u1) (k0 * u1) (k0 * l1) (k0 * u1) Hu He HA (or_introl eq_refl)).
  assert (F3 := mccormick_near u eta A (A * E) Rmin ll lu ll ul ll L (k0 * l1) (k0 * u1) (k0 * l1) (v0 * l1) (k0 * l1) Hu He HA (or_intror eq_refl)).
  assert (G1 := F1 ltac:(intros t t0 HI; cbn in HI; repeat (destruct HI as [HI|HI]; [injection HI as <- <-; assumption|]); contradiction) C1).
  assert (G2 := F2 ltac:(intros t t0 HI; cbn in HI; repeat (destruct HI as [HI|HI]; [injection HI as <- <-; assumption|]); contradiction) C2).
  assert (G3 := F3 ltac:(intros t t0 HI; cbn in HI; repeat (destruct HI as [HI|HI]; [injection HI as <- <-; assumption|]); contradiction) C4).
  rewrite C3. unfold Rmin at 1. destruct (Rle_dec U0 U1); lra.
Qed.

(** ** chains *)
Lemma last_next : forall (tr : list (R * R)) a c, last (c :: tr) a = last tr c.
Proof. induction tr as [|b tr IH]; intros a c; [reflexivity|]. change (last (b :: tr) a = last (b :: tr) c). rewrite !IH. reflexivity. Qed.
Lemma iterated_pos : forall c e m, 0 <= c -> 0 <= e -> 0 <= iterated c e m.
Proof. induction m as [|m IH]; intros Hc He; cbn [iterated]; [lra|]. specialize (IH Hc He). pose proof (Rmult_le_pos _ _ Hc IH). lra. Qed.
Lemma chain_within : forall (g : R -> R -> R) (f : R * R -> R * R -> R * R -> Prop) A c e, 0 <= c -> 0 <= e ->
  (forall E x y a b o, 0 <= E -> within E x a -> within 0 y b -> at_most A a -> at_most A b -> f a b o -> within (c * E + e) (g x y) o) ->
  forall l tr a k x ys, within (iterated c e k) x a -> at_most A a -> Forall2 (within 0) ys l -> Forall (at_most A) l -> Forall (at_most A) tr -> fl_chain f a l tr ->
  within (iterated c e (k + length l)) (fold_left g ys x) (last tr a).
Proof.
  intros g f A c e Hc He HS. induction l as [|b l IH]; intros tr a k x ys Wx Ha HF Hl Ht HC.
  - destruct tr as [|? ?]; [|destruct HC]. inversion HF; subst. rewrite Nat.add_0_r. exact Wx.
  - destruct tr as [|o tr]; [destruct HC|]. destruct HC as [H1 H2]. inversion HF as [|y b' ys' l' Wy HF']; subst. inversion Hl; subst. inversion Ht; subst. rewrite last_next. cbn [fold_left].
    cbn [length]. rewrite <- Nat.add_succ_comm. apply (IH tr o (S k)); auto. cbn [iterated]. apply (HS _ x y a b); auto using iterated_pos.
Qed.

Lemma maximum_error_pos : forall u eta A, 0 <= u -> 0 <= eta -> 0 <= A -> 0 <= maximum_error u eta A.
Proof. intros u eta A Hu He HA. unfold maximum_error. assert (0 <= u * u) by (apply Rmult_le_pos; lra). apply Rplus_le_le_0_compat; apply Rmult_le_pos; lra. Qed.
Lemma product_error_pos : forall u eta A, 0 <= u -> 0 <= eta -> 0 <= A -> 0 <= product_error u eta A.
Proof.
  intros u eta A Hu He HA. unfold product_error. cbv zeta. assert (0 <= A * A) by (apply Rmult_le_pos; lra). assert (0 <= u * (A * A)) by (apply Rmult_le_pos; lra).
  set (d := u * (A * A) + eta) in *. assert (0 <= d) by (unfold d; lra). assert (0 <= u * (2 * (A * A + d))) by (apply Rmult_le_pos; lra).
  set (s := 2 * d + u * (2 * (A * A + d)) + eta) in *. assert (0 <= s) by (unfold s; lra). assert (0 <= u * (2 * (A * A) + s + (A * A + d))) by (apply Rmult_le_pos; lra). lra.
Qed.
Lemma fold_max_eq : forall xs x m, greatest m (x :: xs) -> fold_left Rmax xs x = m.
Proof.
  induction xs as [|y xs IH]; intros x m [HI HM]; cbn [fold_left].
  - destruct HI as [<-|[]]. reflexivity.
  - apply IH. split.
    + destruct HI as [<-|[<-|HI]]; [left; apply Rmax_left; apply HM; cbn; auto|left; apply Rmax_right; apply HM; cbn; auto|right; exact HI].
    + intros z [<-|Hz]; [apply Rmax_lub; apply HM; cbn; auto|apply HM; cbn; auto].
Qed.

Lemma fold_maximum_bounds : forall u eta A l tr y xs m, 0 <= u -> 0 <= eta -> 0 <= A -> Forall2 (within 0) xs l -> Forall (at_most A) l -> Forall (at_most A) tr ->
  fl_fold (fl_maximum (rounded u eta)) l tr y -> greatest m xs -> within (iterated 2 (maximum_error u eta A) (length l - 1)) m y.
Proof.
  intros u eta A l tr y xs m Hu He HA HF Hl Ht HC HM. destruct l as [|a l]; [destruct HC|]. destruct HC as [HC ->]. inversion HF as [|x a' xs' l' Wx HF']; subst. inversion Hl; subst.
  cbn [length]. rewrite Nat.sub_succ, Nat.sub_0_r. rewrite <- (fold_max_eq _ _ _ HM).
  apply (chain_within Rmax (fl_maximum (rounded u eta)) A 2 (maximum_error u eta A) ltac:(lra) (maximum_error_pos u eta A Hu He HA)) with (k := O); auto.
  intros E x0 y0 a0 b0 o HE. intros. apply (maximum_step u eta A E x0 y0 a0 b0 o); auto.
Qed.

(** ** layers *)
Lemma bounded_at : forall m j (xs : list vec) tss, (j < m)%nat -> Forall2 (fun (x : vec) ts => forall j, (j < m)%nat -> within 0 (x j) (neuron ts j)) xs tss ->
  Forall2 (within 0) (map (fun x : vec => x j) xs) (map (fun ts => neuron ts j) tss).
Proof. intros m j xs tss Hj HF. induction HF as [|x ts xs tss H HF IH]; cbn [map]; constructor; auto. Qed.

Lemma maximum_bounds : forall u eta A m tss tr ts' (xs : list vec) j v, 0 <= u -> 0 <= eta -> 0 <= A -> sized A m tss tr ->
  Forall2 (fun (x : vec) ts => forall j, (j < m)%nat -> within 0 (x j) (neuron ts j)) xs tss -> float_maximum (rounded u eta) m tss tr ts' ->
  (j < m)%nat -> greatest v (map (fun x : vec => x j) xs) -> within (iterated 2 (maximum_error u eta A) (length tss - 1)) v (neuron ts' j).
Proof.
  intros u eta A m tss tr ts' xs j v Hu He HA HS HF [_ HC] Hj HM. destruct (HS j Hj) as [S1 S2].
  rewrite <- (map_length (fun ts => neuron ts j) tss). apply (fold_maximum_bounds u eta A _ (tr j) _ (map (fun x : vec => x j) xs)); auto. apply (bounded_at m); auto.
Qed.
Lemma minus_at_most : forall A b, at_most A b -> at_most A (fl_minus b).
Proof. intros A b [H1 H2]. unfold at_most, fl_minus. cbn [fst snd]. rewrite !Rabs_Ropp. auto. Qed.
Lemma minus_within : forall e x b, within e x b <-> within e (- x) (fl_minus b).
Proof. intros e x b. unfold within, fl_minus. cbn [fst snd]. lra. Qed.
Lemma minimum_bounds : forall u eta A m tss tr ts' (xs : list vec) j v, 0 <= u -> 0 <= eta -> 0 <= A -> sized A m tss tr ->
  Forall2 (fun (x : vec) ts => forall j, (j < m)%nat -> within 0 (x j) (neuron ts j)) xs tss -> float_minimum (rounded u eta) m tss tr ts' ->
  (j < m)%nat -> least v (map (fun x : vec => x j) xs) -> within (iterated 2 (maximum_error u eta A) (length tss - 1)) v (neuron ts' j).
Proof.
  intros u eta A m tss tr ts' xs j v Hu He HA HS HF [_ HC] Hj [HI HM]. destruct (HS j Hj) as [S1 S2]. apply minus_within.
  rewrite <- (map_length (fun ts => fl_minus (neuron ts j)) tss). apply (fold_maximum_bounds u eta A _ (tr j) _ (map (fun x : vec => - x j) xs)); auto.
  - pose proof (bounded_at m j xs tss Hj HF) as B. clear -B. revert tss B. induction xs as [|x xs IH]; intros [|ts tss] B; cbn [map] in *; inversion B; subst; constructor; auto. now apply minus_within in H2.
  - clear -S1. induction tss as [|ts tss IH]; cbn [map] in *; inversion S1; subst; constructor; auto using minus_at_most.
  - split.
    + apply in_map_iff in HI as (x & <- & Hx). apply in_map_iff. exists x. auto.
    + intros y Hy. apply in_map_iff in Hy as (x & <- & Hx). specialize (HM (x j) (in_map (fun x : vec => x j) _ _ Hx)). lra.
Qed.
Lemma multiply_bounds : forall u eta A m tss tr ts' (xs : list vec) j, 0 <= u -> 0 <= eta -> 0 <= A -> sized A m tss tr ->
  Forall2 (fun (x : vec) ts => forall j, (j < m)%nat -> within 0 (x j) (neuron ts j)) xs tss -> float_multiply (rounded u eta) m tss tr ts' ->
  (j < m)%nat -> within (iterated (3 * A) (product_error u eta A) (length tss - 1)) (fold_right Rmult 1 (map (fun x : vec => x j) xs)) (neuron ts' j).
Proof.
  intros u eta A m tss tr ts' xs j Hu He HA HS HF [_ HC] Hj. destruct (HS j Hj) as [S1 S2]. specialize (HC j Hj).
  rewrite <- (map_length (fun ts => neuron ts j) tss). pose proof (bounded_at m j xs tss Hj HF) as B.
  destruct (map (fun ts => neuron ts j) tss) as [|a l]; [destruct HC|]. destruct HC as [HC ->]. inversion B as [|x a' xs' l' Wx B']; subst. inversion S1; subst.
  cbn [length]. rewrite Nat.sub_succ, Nat.sub_0_r.
  replace (fold_right Rmult 1 (x :: xs')) with (fold_left Rmult xs' x).
  - apply (chain_within Rmult (fl_multiply (rounded u eta)) A (3 * A) (product_error u eta A) ltac:(lra) (product_error_pos u eta A Hu He HA)) with (k := O); auto.
    intros E x0 y0 a0 b0 o HE. intros. apply (multiply_step u eta A E x0 y0 a0 b0 o); auto.
  - clear. revert x. induction xs' as [|y xs IH]; intros x; cbn [fold_left]; [cbn; ring|]. rewrite IH. cbn [fold_right]. ring.
Qed.

(** ** order *)
Lemma fold_ordered : forall rnd, (forall x y, x <= y -> rnd x <= rnd y) -> forall l tr y, Forall (fun b => snd b <= fst b) l -> fl_fold (fl_maximum (fop rnd)) l tr y -> snd y <= fst y.
Proof.
  intros rnd Hr l tr y HF HC. destruct l as [|a l]; [destruct HC|]. destruct HC as [HC ->]. inversion HF; subst. clear HF. revert tr a H1 HC.
  induction l as [|b l IH]; intros tr a Ha HC.
  - destruct tr; [exact Ha|destruct HC].
  - destruct tr as [|c tr]; [destruct HC|]. destruct HC as [((d1, d2) & (D1 & D2) & (E1 & E2)) HC]. rewrite last_next. inversion H2; subst. apply IH; auto.
    unfold fop, fl_minus, fl_relu in *. cbn [fst snd] in *. rewrite E1, E2. apply Hr. assert (d2 <= d1) by (subst; apply Hr; lra). unfold Rmax. destruct (Rle_dec 0 d1), (Rle_dec 0 d2); lra.
Qed.
Lemma maximum_ordered : forall m tss tr ts', (forall ts j, In ts tss -> (j < m)%nat -> snd (neuron ts j) <= fst (neuron ts j)) -> float_maximum op32 m tss tr ts' \/ float_minimum op32 m tss tr ts' ->
  forall j, (j < m)%nat -> snd (neuron ts' j) <= fst (neuron ts' j).
Proof.
  intros m tss tr ts' HO [[_ HC]|[_ HC]] j Hj; specialize (HC j Hj); apply (fold_ordered rnd32 rnd32_mono) in HC; auto.
  - apply Forall_forall. intros b Hb. apply in_map_iff in Hb as (ts & <- & Hts). auto.
  - unfold fl_minus in HC. cbn [fst snd] in HC. lra.
  - apply Forall_forall. intros b Hb. apply in_map_iff in Hb as (ts & <- & Hts). specialize (HO ts j Hts Hj). unfold fl_minus. cbn [fst snd]. lra.
Qed.

Lemma double32 : forall x, rnd32 x = x -> rnd32 (x + x) = x + x.
Proof.
  intros x H. assert (F : generic_format radix2 (FLT_exp (-149) 24) x) by (rewrite <- H; apply generic_format_round; [apply FLT_exp_valid; reflexivity|apply valid_rnd_N]).
  apply FLT_format_generic in F; [|reflexivity]. destruct F as [[m e] E1 E2 E3]. cbn [Fnum Fexp] in *. apply round_generic; [apply valid_rnd_N|].
  apply generic_format_FLT. exists (Float radix2 m (e + 1)); cbn [Fnum Fexp]; [|exact E2|lia].
  rewrite E1. unfold F2R. cbn [Fnum Fexp]. rewrite bpow_plus. change (bpow radix2 1) with 2. ring.
Qed.
Lemma mccormick_low : forall m p q q' r q'' y b b', (forall x y, x <= y -> rnd32 x <= rnd32 y) -> b <= m p q -> b' <= m q' r -> fl_mccormick op32 m p q q' r q'' y -> rnd32 (rnd32 (b + b') - q'') <= y.
Proof. intros m p q q' r q'' y b b' Hr H1 H2 (s & S1 & S2). unfold op32, fop in *. subst. apply Hr. assert (rnd32 (b + b') <= rnd32 (m p q + m q' r)) by (apply Hr; lra). lra. Qed.
Lemma mccormick_high : forall m p q q' r q'' y b b', (forall x y, x <= y -> rnd32 x <= rnd32 y) -> m p q <= b -> m q' r <= b' -> fl_mccormick op32 m p q q' r q'' y -> y <= rnd32 (rnd32 (b + b') - q'').
Proof. intros m p q q' r q'' y b b' Hr H1 H2 (s & S1 & S2). unfold op32, fop in *. subst. apply Hr. assert (rnd32 (m p q + m q' r) <= rnd32 (b + b')) by (apply Hr; lra). lra. Qed.
Lemma multiply_step_ordered : forall a b c, fl_multiply op32 a b c -> snd c <= fst c.
Proof.
  intros (u0, l0) (u1, l1) (U, L) (uu & ul & lu & ll & U0 & U1 & P1 & P2 & P3 & P4 & C1 & C2 & C3 & C4). cbn [fst snd] in *. subst U.
  assert (I : forall x y, op32 x y -> rnd32 y = y) by (intros x y ->; apply rnd32_idem). apply I in P1, P2, P3, P4. clear I.
  assert (D : forall y, rnd32 y = y -> rnd32 (rnd32 (y + y) - y) = y) by (intros y Hy; rewrite (double32 y Hy); replace (y + y - y) with y by ring; exact Hy).
  apply Rmin_glb.
  - destruct (Rle_dec ll ul).
    + pose proof (mccormick_low _ _ _ _ _ _ _ ul ul rnd32_mono (Rmax_r _ _) (Rmax_l _ _) C1) as K1. pose proof (mccormick_high _ _ _ _ _ _ _ ll ll rnd32_mono (Rmin_l _ _) (Rmin_l _ _) C4) as K2. rewrite D in K1, K2 by assumption. lra.
    + pose proof (mccormick_low _ _ _ _ _ _ _ ul ll rnd32_mono (Rmax_r _ _) (Rmax_r _ _) C1) as K1. pose proof (mccormick_high _ _ _ _ _ _ _ ll ul rnd32_mono (Rmin_l _ _) (Rmin_r _ _) C4) as K2.
      rewrite (Rplus_comm ll ul) in K2. assert (rnd32 (rnd32 (ul + ll) - ll) <= rnd32 (rnd32 (ul + ll) - ul)) by (apply rnd32_mono; lra). lra.
  - destruct (Rle_dec ll lu).
    + pose proof (mccormick_low _ _ _ _ _ _ _ lu lu rnd32_mono (Rmax_r _ _) (Rmax_l _ _) C2) as K1. pose proof (mccormick_high _ _ _ _ _ _ _ ll ll rnd32_mono (Rmin_l _ _) (Rmin_l _ _) C4) as K2. rewrite D in K1, K2 by assumption. lra.
    + pose proof (mccormick_low _ _ _ _ _ _ _ lu ll rnd32_mono (Rmax_r _ _) (Rmax_r _ _) C2) as K1. pose proof (mccormick_high _ _ _ _ _ _ _ lu ll rnd32_mono (Rmin_r _ _) (Rmin_l _ _) C4) as K2.
      assert (rnd32 (rnd32 (lu + ll) - ll) <= rnd32 (rnd32 (lu + ll) - lu)) by (apply rnd32_mono; lra). lra.
Qed.
Lemma multiply_ordered : forall m tss tr ts', (2 <= length tss)%nat -> float_multiply op32 m tss tr ts' -> forall j, (j < m)%nat -> snd (neuron ts' j) <= fst (neuron ts' j).
Proof.
  intros m tss tr ts' HL [_ HC] j Hj. specialize (HC j Hj). destruct tss as [|t [|t' q]]; cbn [length] in HL; try lia. cbn [map] in HC. destruct HC as [HC ->].
  generalize dependent (neuron t j). generalize dependent (neuron t' j). generalize (tr j). clear tr HL. induction q as [|t1 q IH]; intros tr b a HC.
  - destruct tr as [|c [|? ?]]; cbn in HC; try tauto. exact (multiply_step_ordered _ _ _ (proj1 HC)).
  - destruct tr as [|c tr]; [destruct HC|]. destruct HC as [_ HC]. rewrite last_next. exact (IH tr (neuron t1 j) c HC).
Qed.

(** ** without rounding: the calls of the exact model *)
Lemma two : forall (l : list tensor), length l = 2%nat -> exists u c, l = [u; c].
Proof. intros [|u [|c [|? ?]]] H; try discriminate. eauto. Qed.
Section Exact.
Variables (ke : R) (n : nat).
Let sp := mk_spec false IBP Box n.
Lemma exact_maximum2 : forall a b c, length a = 2%nat -> length b = 2%nat -> maximum ke sp None a b = Ok c -> length c = 2%nat /\ forall j, fl_maximum exact (neuron a j) (neuron b j) (neuron c j).
Proof.
  intros a b c Ha Hb H. destruct (two a Ha) as (u0 & l0 & ->). destruct (two b Hb) as (u1 & l1 & ->). cbn in H.
  injection H as <-. split; [reflexivity|]. intros j. unfold fl_maximum, fl_sub, fl_add, fl_relu, fl_minus, exact, neuron. cbn [nth fst snd].
  exists (u1 0%nat j + - l0 0%nat j, l1 0%nat j + - u0 0%nat j). cbn [fst snd]. unfold Rrelu. rewrite ?(Rmax_comm _ 0). repeat split.
Qed.
Lemma exact_multiply2 : forall a b c, length a = 2%nat -> length b = 2%nat -> multiply sp a b = Ok c -> length c = 2%nat /\ forall j, fl_multiply exact (neuron a j) (neuron b j) (neuron c j).
Proof.
  intros a b c Ha Hb H. destruct (two a Ha) as (u0 & l0 & ->). destruct (two b Hb) as (u1 & l1 & ->). cbn in H.
  injection H as <-. split; [reflexivity|]. intros j. unfold fl_multiply, fl_mccormick, exact, neuron. cbn [nth fst snd].
  do 6 eexists. split; [reflexivity|]. split; [reflexivity|]. split; [reflexivity|]. split; [reflexivity|].
  split; [eexists; split; reflexivity|]. split; [eexists; split; reflexivity|]. split; [|eexists; split; reflexivity].
  rewrite (Rmult_comm (u1 0%nat j) (u0 0%nat j)), (Rmult_comm (u1 0%nat j) (l0 0%nat j)), (Rmult_comm (l1 0%nat j) (l0 0%nat j)). reflexivity.
Qed.
Lemma exact_fold : forall (f : list tensor -> list tensor -> result (list tensor)) (g : R * R -> R * R -> R * R -> Prop),
  (forall a b c, length a = 2%nat -> length b = 2%nat -> f a b = Ok c -> length c = 2%nat /\ forall j, g (neuron a j) (neuron b j) (neuron c j)) ->
  forall l a c, Forall (fun ts => length ts = 2%nat) l -> length a = 2%nat -> foldR f l a = Ok c ->
  length c = 2%nat /\ exists tr : nat -> list (R * R), forall j, fl_chain g (neuron a j) (map (fun ts => neuron ts j) l) (tr j) /\ neuron c j = last (tr j) (neuron a j).
Proof.
  intros f g Hf. induction l as [|b l IH]; intros a c HF Ha H.
  - cbn in H. injection H as <-. split; [exact Ha|]. exists (fun _ => []). intros j. split; [exact I|reflexivity].
  - cbn [foldR] in H. inversion HF; subst. destruct (f a b) as [o|] eqn:E; [|discriminate]. cbn [bind] in H. destruct (Hf a b o Ha H2 E) as [Lo Go].
    destruct (IH o c H3 Lo H) as (Lc & tr & HT). split; [exact Lc|]. exists (fun j => neuron o j :: tr j). intros j. destruct (HT j) as [T1 T2]. rewrite last_next. cbn [map fl_chain]. auto.
Qed.
Lemma split_two : forall (tss : list (list tensor)), Forall (fun ts => length ts = 2%nat) tss -> split_to_merge (nb_tensors IBP false) (concat tss) = tss.
Proof. intros tss HF. apply split_to_merge_concat; [cbn; lia|]. intros l Hl. exact (proj1 (Forall_forall _ _) HF l Hl). Qed.
Lemma exact_maximum : forall m tss ts', tss <> [] -> Forall (fun ts => length ts = 2%nat) tss -> decomon_maximum ke sp (concat tss) = Ok ts' -> exists tr, float_maximum exact m tss tr ts'.
Proof.
  intros m tss ts' Hne HF H. unfold decomon_maximum in H. cbn [sp sp_dc sp_mode] in H. rewrite split_two in H by exact HF.
  destruct tss as [|a [|b q]]; [now elim Hne| |].
  - cbn [concat] in H. rewrite app_nil_r in H. injection H as <-. exists (fun _ => []). inversion HF; subst. split; [assumption|]. intros j _. cbn. auto.
  - assert (H' : foldR (maximum ke sp None) (b :: q) a = Ok ts') by exact H. inversion HF; subst.
    destruct (exact_fold _ _ exact_maximum2 (b :: q) a ts' H3 H2 H') as (Lc & tr & HT). exists tr. split; [exact Lc|]. intros j _. exact (HT j).
Qed.
Lemma exact_multiply : forall m tss ts', tss <> [] -> Forall (fun ts => length ts = 2%nat) tss -> decomon_multiply sp (concat tss) = Ok ts' -> exists tr, float_multiply exact m tss tr ts'.
Proof.
  intros m tss ts' Hne HF H. unfold decomon_multiply in H. cbn [sp sp_dc sp_mode] in H. rewrite split_two in H by exact HF.
  destruct tss as [|a [|b q]]; [now elim Hne| |].
  - cbn [concat] in H. rewrite app_nil_r in H. injection H as <-. exists (fun _ => []). inversion HF; subst. split; [assumption|]. intros j _. cbn. auto.
  - assert (H' : foldR (multiply sp) (b :: q) a = Ok ts') by exact H. inversion HF; subst.
    destruct (exact_fold _ _ exact_multiply2 (b :: q) a ts' H3 H2 H') as (Lc & tr & HT). exists tr. split; [exact Lc|]. intros j _. exact (HT j).
Qed.
Lemma minus_two : forall a c, length a = 2%nat -> minus sp a = Ok c -> length c = 2%nat /\ forall j, neuron c j = fl_minus (neuron a j).
Proof. intros a c Ha H. destruct (two a Ha) as (u0 & l0 & ->). cbn in H. injection H as <-. split; [reflexivity|]. intros j. reflexivity. Qed.
Lemma minus_all : forall tss l, Forall (fun ts => length ts = 2%nat) tss -> mapR (minus sp) tss = Ok l ->
  Forall (fun ts => length ts = 2%nat) l /\ forall j, map (fun ts => neuron ts j) l = map (fun ts => fl_minus (neuron ts j)) tss.
Proof.
  induction tss as [|a tss IH]; intros l HF H.
  - cbn in H. injection H as <-. split; [constructor|reflexivity].
  - cbn [mapR] in H. inversion HF; subst. destruct (minus sp a) as [a'|] eqn:E; [|discriminate]. cbn [bind] in H. destruct (mapR (minus sp) tss) as [q|] eqn:Eq; [|discriminate]. cbn [bind] in H. injection H as <-.
    destruct (minus_two a a' H2 E) as [L1 N1]. destruct (IH q H3 eq_refl) as [L2 N2]. split; [constructor; auto|]. intros j. cbn [map]. now rewrite N1, N2.
Qed.
Lemma fl_minus_two : forall b, fl_minus (fl_minus b) = b.
Proof. intros [u l]. unfold fl_minus. cbn [fst snd]. now rewrite !Ropp_involutive. Qed.
Lemma exact_minimum : forall m tss ts', tss <> [] -> Forall (fun ts => length ts = 2%nat) tss -> decomon_minimum ke sp (concat tss) = Ok ts' -> exists tr, float_minimum exact m tss tr ts'.
Proof.
  intros m tss ts' Hne HF H. unfold decomon_minimum in H. cbn [sp sp_dc sp_mode] in H. rewrite split_two in H by exact HF. fold sp in H.
  destruct (mapR (minus sp) tss) as [l|] eqn:El; [|discriminate]. cbn [bind] in H. destruct (minus_all tss l HF El) as [L1 N1].
  destruct l as [|a [|b q]]; [discriminate| |].
  - destruct tss as [|t [|t' q]]; [now elim Hne| |specialize (N1 O); discriminate]. cbn [concat] in H. rewrite app_nil_r in H. injection H as <-. exists (fun _ => []). inversion HF; subst. split; [assumption|]. intros j _. cbn. auto.
  - destruct (maximum ke sp None a b) as [o|] eqn:Eo; [|discriminate]. cbn [bind] in H. destruct (foldR (maximum ke sp None) q o) as [o'|] eqn:Eo'; [|discriminate]. cbn [bind] in H.
    assert (H' : foldR (maximum ke sp None) (b :: q) a = Ok o') by (cbn [foldR]; rewrite Eo; exact Eo'). inversion L1; subst.
    destruct (exact_fold _ _ exact_maximum2 (b :: q) a o' H3 H2 H') as (Lc & tr & HT). destruct (minus_two o' ts' Lc H) as [L2 N2]. exists tr. split; [exact L2|]. intros j _.
    rewrite <- N1, N2, fl_minus_two. exact (HT j).
Qed.
End Exact.

(** ** binary32 *)
Lemma rnd32_at : forall x p k, (-125 <= p)%Z -> bpow radix2 (p - 1) <= x < bpow radix2 p -> Rabs (x * bpow radix2 (24 - p) - IZR k) < / 2 -> rnd32 x = IZR k * bpow radix2 (p - 24).
Proof.
  intros x p k Hp Hx Hk. assert (M : mag radix2 x = p :> Z) by (apply mag_unique_pos; exact Hx).
  unfold rnd32, round, scaled_mantissa, cexp. rewrite M. replace (FLT_exp (-149) 24 p) with (p - 24)%Z by (unfold FLT_exp; lia). unfold F2R. cbn [Fnum Fexp].
  replace (- (p - 24))%Z with (24 - p)%Z by lia. rewrite (Znearest_imp _ _ k Hk). reflexivity.
Qed.
Lemma rnd32_opp : forall x, rnd32 (- x) = - rnd32 x.
Proof. intros x. unfold rnd32. apply round_NE_opp. Qed.
Lemma rnd_big1 : rnd32 33554433 = 33554432.
Proof. rewrite (rnd32_at _ 26 8388608); [change (bpow radix2 (26 - 24)) with 4; lra|lia|change (bpow radix2 (26 - 1)) with 33554432; change (bpow radix2 26) with 67108864; lra|]. change (bpow radix2 (24 - 26)) with (/ 4). apply Rabs_def1; lra. Qed.
Lemma rnd_big3 : rnd32 33554435 = 33554436.
Proof. rewrite (rnd32_at _ 26 8388609); [change (bpow radix2 (26 - 24)) with 4; lra|lia|change (bpow radix2 (26 - 1)) with 33554432; change (bpow radix2 26) with 67108864; lra|]. change (bpow radix2 (24 - 26)) with (/ 4). apply Rabs_def1; lra. Qed.
Lemma rnd_big : rnd32 33554432 = 33554432. Proof. exact (rnd32_bpow 25 ltac:(lia)). Qed.
Lemma rnd_4 : rnd32 4 = 4. Proof. exact (rnd32_bpow 2 ltac:(lia)). Qed.
Lemma rnd_half : rnd32 (/ 2) = / 2. Proof. exact (rnd32_bpow (-1) ltac:(lia)). Qed.
Lemma rnd_3 : rnd32 3 = 3.
Proof. rewrite (rnd32_at _ 2 12582912); [change (bpow radix2 (2 - 24)) with (/ 4194304); lra|lia|change (bpow radix2 (2 - 1)) with 2; change (bpow radix2 2) with 4; lra|]. change (bpow radix2 (24 - 2)) with 4194304. apply Rabs_def1; lra. Qed.
Lemma rnd_below : rnd32 (/ 2 + - 33554432) = - 33554432.
Proof.
  replace (/ 2 + - 33554432) with (- (33554432 - / 2)) by lra. rewrite rnd32_opp. f_equal.
  rewrite (rnd32_at _ 25 16777216); [change (bpow radix2 (25 - 24)) with 2; lra|lia|change (bpow radix2 (25 - 1)) with 16777216; change (bpow radix2 25) with 33554432; lra|]. change (bpow radix2 (24 - 25)) with (/ 2). apply Rabs_def1; lra.
Qed.

Ltac cmp := unfold Rmax, Rmin; repeat (match goal with |- context [Rle_dec ?a ?b] => destruct (Rle_dec a b) end); try lra.
Ltac r32 := unfold fop, op32; symmetry.
(** two numbers: the bounds of their maximum do not contain it *)
Lemma maximum_refuted : exists tr ts' tr3 ts3,
  rnd32 (-33554432) = -33554432 /\ rnd32 1 = 1 /\ rnd32 3 = 3 /\
  float_maximum op32 1 [cst (-33554432) (-33554432); cst 1 1] tr ts' /\ fst (neuron ts' 0) = 0 /\ fst (neuron ts' 0) < Rmax (-33554432) 1 /\
  float_maximum op32 1 [cst (-33554432) (-33554432); cst 3 3] tr3 ts3 /\ snd (neuron ts3 0) = 4 /\ Rmax (-33554432) 3 < snd (neuron ts3 0).
Proof.
  exists (fun _ => [(0, 0)]), (cst 0 0), (fun _ => [(4, 4)]), (cst 4 4).
  assert (Z : rnd32 (-33554432) = -33554432) by (change (-33554432) with (- (33554432)); rewrite rnd32_opp, rnd_big; reflexivity).
  split; [exact Z|]. split; [exact rnd32_1|]. split; [exact rnd_3|].
  assert (G : forall x y z, rnd32 (x + 33554432) = y -> 0 <= y -> rnd32 (y + -33554432) = z -> fl_maximum op32 (-33554432, -33554432) (x, x) (z, z)).
  { intros x y z H1 H2 H3. exists (y, y). assert (X : op32 (x + - -33554432) y) by (r32; replace (x + - -33554432) with (x + 33554432) by lra; exact H1).
    assert (Y : op32 (Rmax 0 y + -33554432) z) by (r32; rewrite Rmax_right by exact H2; exact H3). unfold fl_sub, fl_add, fl_minus, fl_relu. cbn [fst snd]. auto. }
  split; [|split; [reflexivity|split; [change (fst (neuron (cst 0 0) 0)) with 0; cmp|split; [|split; [reflexivity|change (snd (neuron (cst 4 4) 0)) with 4; cmp]]]]].
  - split; [reflexivity|]. intros j _. split; [split; [|exact I]|reflexivity]. apply (G 1 33554432 0); [replace (1 + 33554432) with 33554433 by lra; exact rnd_big1|lra|].
    replace (33554432 + -33554432) with 0 by lra. exact rnd32_0.
  - split; [reflexivity|]. intros j _. split; [split; [|exact I]|reflexivity]. apply (G 3 33554436 4); [replace (3 + 33554432) with 33554435 by lra; exact rnd_big3|lra|].
    replace (33554436 + -33554432) with 4 by lra. exact rnd_4.
Qed.
(** the product of 1 and of x in [-2^25, 1/2] *)
Lemma multiply_refuted : exists tr ts' y,
  rnd32 (-33554432) = -33554432 /\ rnd32 (/ 2) = / 2 /\
  float_multiply op32 1 [cst 1 1; cst (/ 2) (-33554432)] tr ts' /\ within 0 (/ 2) (neuron (cst (/ 2) (-33554432)) 0) /\
  fl_product op32 1 [/ 2] y /\ y = 1 * / 2 /\ fst (neuron ts' 0) = 0 /\ fst (neuron ts' 0) < y.
Proof.
  exists (fun _ => [(0, -33554432)]), (cst 0 (-33554432)), (/ 2).
  assert (Z : rnd32 (-33554432) = -33554432) by (change (-33554432) with (- (33554432)); rewrite rnd32_opp, rnd_big; reflexivity).
  split; [exact Z|]. split; [exact rnd_half|].
  split; [|split; [unfold within, neuron, cst; cbn; lra|split; [exists (/ 2); split; [r32; rewrite Rmult_1_l; exact rnd_half|reflexivity]|split; [lra|split; [reflexivity|change (fst (neuron (cst 0 (-33554432)) 0)) with 0; lra]]]]].
  split; [reflexivity|]. intros j _. split; [split; [|exact I]|reflexivity].
  exists (/ 2), (-33554432), (/ 2), (-33554432), 0, (/ 2). cbn [map neuron cst nth fst snd]. rewrite !Rmult_1_l.
  split; [r32; exact rnd_half|]. split; [r32; exact Z|]. split; [r32; exact rnd_half|]. split; [r32; exact Z|].
  split. { exists (-33554432). split; r32; [|replace (-33554432 - -33554432) with 0 by lra; exact rnd32_0]. replace (Rmax (/ 2) (-33554432)) with (/ 2) by cmp. replace (Rmax (-33554432) (-33554432)) with (-33554432) by cmp. exact rnd_below. }
  split. { exists 1. split; r32; [replace (Rmax (/ 2) (/ 2)) with (/ 2) by cmp; replace (Rmax (/ 2) (-33554432)) with (/ 2) by cmp; replace (/ 2 + / 2) with 1 by lra; exact rnd32_1|]. replace (1 - / 2) with (/ 2) by lra. exact rnd_half. }
  split; [cmp|]. exists (-67108864). split; r32.
  - replace (Rmin (-33554432) (/ 2)) with (-33554432) by cmp. replace (Rmin (-33554432) (-33554432)) with (-33554432) by cmp. replace (-33554432 + -33554432) with (- (67108864)) by lra. rewrite rnd32_opp. change (-67108864) with (- (67108864)). f_equal. exact (rnd32_bpow 26 ltac:(lia)).
  - replace (-67108864 - -33554432) with (-33554432) by lra. exact Z.
Qed.

(** ** an arithmetic of relative error u and absolute error eta *)
Section Arith.
Variables (op : R -> R -> Prop) (u eta : R).
Hypothesis Hop : forall x y, op x y -> rounded u eta x y.
Lemma fl_add_impl : forall a b c, fl_add op a b c -> fl_add (rounded u eta) a b c.
Proof. intros a b c [H1 H2]. split; auto. Qed.
Lemma fl_maximum_impl : forall a b c, fl_maximum op a b c -> fl_maximum (rounded u eta) a b c.
Proof. intros a b c (d & H1 & H2). exists d. split; [apply fl_add_impl; exact H1|apply fl_add_impl; exact H2]. Qed.
Lemma fl_mcc_impl : forall m p q q' r q'' y, fl_mccormick op m p q q' r q'' y -> fl_mccormick (rounded u eta) m p q q' r q'' y.
Proof. intros m p q q' r q'' y (s & H1 & H2). exists s. auto. Qed.
Lemma fl_multiply_impl : forall a b c, fl_multiply op a b c -> fl_multiply (rounded u eta) a b c.
Proof.
  intros a b c (uu & ul & lu & ll & U0 & U1 & P1 & P2 & P3 & P4 & C1 & C2 & C3 & C4). exists uu, ul, lu, ll, U0, U1.
  split; [auto|]. split; [auto|]. split; [auto|]. split; [auto|]. split; [apply fl_mcc_impl, C1|]. split; [apply fl_mcc_impl, C2|]. split; [exact C3|apply fl_mcc_impl, C4].
Qed.
Lemma fl_fold_impl : forall f f' : R * R -> R * R -> R * R -> Prop, (forall a b c, f a b c -> f' a b c) -> forall l tr y, fl_fold f l tr y -> fl_fold f' l tr y.
Proof.
  intros f f' HI l tr y H. destruct l as [|a l]; [exact H|]. destruct H as [H ->]. split; [|reflexivity]. revert tr a H.
  induction l as [|b l IH]; intros [|c tr] a H; cbn in *; auto. destruct H. auto.
Qed.
Lemma op_maximum_bounds : forall A m tss tr ts' (xs : list vec) j v, 0 <= u -> 0 <= eta -> 0 <= A -> sized A m tss tr ->
  Forall2 (fun (x : vec) ts => forall j, (j < m)%nat -> within 0 (x j) (neuron ts j)) xs tss -> float_maximum op m tss tr ts' ->
  (j < m)%nat -> greatest v (map (fun x : vec => x j) xs) -> within (iterated 2 (maximum_error u eta A) (length tss - 1)) v (neuron ts' j).
Proof. intros A m tss tr ts' xs j v Hu He HA HS HF [H0 H] Hj HM. apply (maximum_bounds u eta A m tss tr ts' xs); auto. split; [exact H0|]. intros i Hi. apply (fl_fold_impl _ _ fl_maximum_impl), H, Hi. Qed.
Lemma op_minimum_bounds : forall A m tss tr ts' (xs : list vec) j v, 0 <= u -> 0 <= eta -> 0 <= A -> sized A m tss tr ->
  Forall2 (fun (x : vec) ts => forall j, (j < m)%nat -> within 0 (x j) (neuron ts j)) xs tss -> float_minimum op m tss tr ts' ->
  (j < m)%nat -> least v (map (fun x : vec => x j) xs) -> within (iterated 2 (maximum_error u eta A) (length tss - 1)) v (neuron ts' j).
Proof. intros A m tss tr ts' xs j v Hu He HA HS HF [H0 H] Hj HM. apply (minimum_bounds u eta A m tss tr ts' xs); auto. split; [exact H0|]. intros i Hi. apply (fl_fold_impl _ _ fl_maximum_impl), H, Hi. Qed.
Lemma op_multiply_bounds : forall A m tss tr ts' (xs : list vec) j, 0 <= u -> 0 <= eta -> 0 <= A -> sized A m tss tr ->
  Forall2 (fun (x : vec) ts => forall j, (j < m)%nat -> within 0 (x j) (neuron ts j)) xs tss -> float_multiply op m tss tr ts' ->
  (j < m)%nat -> within (iterated (3 * A) (product_error u eta A) (length tss - 1)) (fold_right Rmult 1 (map (fun x : vec => x j) xs)) (neuron ts' j).
Proof. intros A m tss tr ts' xs j Hu He HA HS HF [H0 H] Hj. apply (multiply_bounds u eta A m tss tr ts' xs); auto. split; [exact H0|]. intros i Hi. apply (fl_fold_impl _ _ fl_multiply_impl), H, Hi. Qed.
End Arith.

(** in binary32 *)
Lemma u32_pos : 0 <= u32. Proof. apply bpow_ge_0. Qed.
Lemma eta32_pos : 0 <= eta32. Proof. apply bpow_ge_0. Qed.
Lemma maximum32 : forall A m tss tr ts' (xs : list vec) j v, 0 <= A -> sized A m tss tr ->
  Forall2 (fun (x : vec) ts => forall j, (j < m)%nat -> within 0 (x j) (neuron ts j)) xs tss -> float_maximum op32 m tss tr ts' ->
  (j < m)%nat -> greatest v (map (fun x : vec => x j) xs) -> within (iterated 2 (maximum_error u32 eta32 A) (length tss - 1)) v (neuron ts' j).
Proof. intros A m tss tr ts' xs j v HA. apply (op_maximum_bounds op32 u32 eta32 op32_rounded); auto using u32_pos, eta32_pos. Qed.
Lemma multiply32 : forall A m tss tr ts' (xs : list vec) j, 0 <= A -> sized A m tss tr ->
  Forall2 (fun (x : vec) ts => forall j, (j < m)%nat -> within 0 (x j) (neuron ts j)) xs tss -> float_multiply op32 m tss tr ts' ->
  (j < m)%nat -> within (iterated (3 * A) (product_error u32 eta32 A) (length tss - 1)) (fold_right Rmult 1 (map (fun x : vec => x j) xs)) (neuron ts' j).
Proof. intros A m tss tr ts' xs j HA. apply (op_multiply_bounds op32 u32 eta32 op32_rounded); auto using u32_pos, eta32_pos. Qed.

(** three numbers of small size: the margin is below 1/1000 *)
Lemma rnd_2 : rnd32 2 = 2. Proof. exact (rnd32_bpow 1 ltac:(lia)). Qed.
Lemma rnd_7 : rnd32 7 = 7.
Proof. rewrite (rnd32_at _ 3 14680064); [change (bpow radix2 (3 - 24)) with (/ 2097152); lra|lia|change (bpow radix2 (3 - 1)) with 4; change (bpow radix2 3) with 8; lra|]. change (bpow radix2 (24 - 3)) with 2097152. apply Rabs_def1; lra. Qed.
Lemma rnd_m3 : rnd32 (-3) = -3.
Proof. change (-3) with (- (3)). rewrite rnd32_opp, rnd_3. reflexivity. Qed.
Lemma op_at : forall x y, rnd32 y = y -> x = y -> op32 x y.
Proof. intros x y H ->. symmetry. exact H. Qed.
Lemma maximum_example : exists tr ts',
  float_maximum op32 1 [cst 2 0; cst 1 (-1); cst 4 3] tr ts' /\ sized 7 1 [cst 2 0; cst 1 (-1); cst 4 3] tr /\ neuron ts' 0 = (7, 0) /\
  Forall2 (fun (x : vec) ts => forall j, (j < 1)%nat -> within 0 (x j) (neuron ts j)) [(fun _ => 1); (fun _ => 1); (fun _ => 4)] [cst 2 0; cst 1 (-1); cst 4 3] /\
  within (iterated 2 (maximum_error u32 eta32 7) 2) 4 (7, 0) /\ iterated 2 (maximum_error u32 eta32 7) 2 <= / 1000.
Proof.
  exists (fun _ => [(3, 0); (7, 0)]), (cst 7 0).
  assert (R : float_maximum op32 1 [cst 2 0; cst 1 (-1); cst 4 3] (fun _ => [(3, 0); (7, 0)]) (cst 7 0)).
  { split; [reflexivity|]. intros j _. cbn [map cst]. split; [|reflexivity]. split; [|split; [|exact I]].
    - exists (1, -3). unfold fl_sub, fl_add, fl_relu, fl_minus, neuron, cst. cbn [nth fst snd]. rewrite (Rmax_right 0 1), (Rmax_left 0 (-3)) by lra.
      split; split; (apply op_at; cbn [fst snd]; [first [exact rnd32_1|exact rnd_3|exact rnd32_0|exact rnd_m3]|lra]).
    - exists (4, 0). unfold fl_sub, fl_add, fl_relu, fl_minus, neuron, cst. cbn [nth fst snd]. rewrite (Rmax_right 0 4), (Rmax_left 0 0) by lra.
      split; split; (apply op_at; cbn [fst snd]; [first [exact rnd_4|exact rnd32_0|exact rnd_7]|lra]). }
  assert (S : sized 7 1 [cst 2 0; cst 1 (-1); cst 4 3] (fun _ => [(3, 0); (7, 0)])).
  { intros j _. unfold neuron, cst; cbn [map nth]. split; repeat (apply Forall_cons || apply Forall_nil); split; cbn [fst snd]; apply le_abs; lra. }
  assert (F : Forall2 (fun (x : vec) ts => forall j, (j < 1)%nat -> within 0 (x j) (neuron ts j)) [(fun _ => 1); (fun _ => 1); (fun _ => 4)] [cst 2 0; cst 1 (-1); cst 4 3]).
  { repeat (apply Forall2_cons || apply Forall2_nil); intros j _; unfold within, neuron, cst; cbn [nth fst snd]; lra. }
  split; [exact R|]. split; [exact S|]. split; [reflexivity|]. split; [exact F|]. split.
  - apply (maximum32 7 1 _ _ _ _ 0 4 ltac:(lra) S F R ltac:(lia)). split; [cbn; auto|]. intros y [<-|[<-|[<-|[]]]]; lra.
  - cbn [iterated]. unfold maximum_error. assert (A1 : u32 <= / 1048576) by (unfold u32; change (/ 1048576) with (bpow radix2 (-20)); apply bpow_le; lia).
    assert (A2 : eta32 <= / 1048576) by (unfold eta32; change (/ 1048576) with (bpow radix2 (-20)); apply bpow_le; lia). pose proof u32_pos. pose proof eta32_pos.
    assert (u32 * u32 <= / 1048576 * / 1048576) by (apply Rmult_le_compat; lra). assert (u32 * eta32 <= / 1048576 * / 1048576) by (apply Rmult_le_compat; lra). lra.
Qed.
(** the example of maximum_refuted, with the margin *)
Lemma maximum_margin_example : exists tr ts',
  float_maximum op32 1 [cst (-33554432) (-33554432); cst 1 1] tr ts' /\ within (maximum_error u32 eta32 33554432) 1 (neuron ts' 0) /\ ~ within 0 1 (neuron ts' 0).
Proof.
  exists (fun _ => [(0, 0)]), (cst 0 0).
  assert (R : float_maximum op32 1 [cst (-33554432) (-33554432); cst 1 1] (fun _ => [(0, 0)]) (cst 0 0)).
  { split; [reflexivity|]. intros j _. cbn [map cst]. split; [|reflexivity]. split; [|exact I]. exists (33554432, 33554432). unfold fl_sub, fl_add, fl_relu, fl_minus, neuron, cst. cbn [nth fst snd].
    rewrite Rmax_right by lra. assert (X : op32 (1 + - -33554432) 33554432) by (r32; replace (1 + - -33554432) with 33554433 by lra; exact rnd_big1).
    assert (Y : op32 (33554432 + -33554432) 0) by (apply op_at; [exact rnd32_0|lra]). auto. }
  split; [exact R|]. split.
  - replace (maximum_error u32 eta32 33554432) with (iterated 2 (maximum_error u32 eta32 33554432) 1) by (cbn; ring).
    apply (maximum32 33554432 1 [cst (-33554432) (-33554432); cst 1 1] (fun _ => [(0, 0)]) (cst 0 0) [(fun _ => -33554432); (fun _ => 1)] 0 1 ltac:(lra)); auto.
    + intros j _. unfold neuron, cst; cbn [map nth]. split; repeat (apply Forall_cons || apply Forall_nil); split; cbn [fst snd]; apply le_abs; lra.
    + repeat (apply Forall2_cons || apply Forall2_nil); intros j _; unfold within, neuron, cst; cbn [nth fst snd]; lra.
    + split; [cbn; auto|]. intros y [<-|[<-|[]]]; lra.
  - unfold within, neuron, cst. cbn [nth fst snd]. lra.
Qed.
