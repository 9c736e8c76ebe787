(** Interval mode in floating-point arithmetic, with BatchNormalization, Maximum, Minimum and Multiply: proofs. *)
From Coq Require Import Reals List Arith Bool ZArith Lia Lra Psatz Permutation.
From Flocq Require Import Core.
From Verif Require Import RLib Spec Spec_Layers Spec_Backward Spec_Convert Spec_Near Spec_Rounding Spec_Float Spec_FloatMerge Spec_FloatNet M_Core M_Utils M_MergeLayers M_Ops M_Layers M_Backward M_Crown M_Convert M_Network M_Rounding M_Float M_FloatMerge M_FloatNet.
From Verif Require Import P_Core P_Utils P_Axis P_Layers P_Graph P_Crown P_Convert P_Network P_NetworkSpec P_NetworkForward P_NetworkThm P_Near P_Rounding P_Lipschitz P_RoundingThm P_Float P_Float32 P_FloatThm P_FloatMerge.
From Verif Require Import Spec_Network.
Import ListNotations.
Local Open Scope R_scope.

(** ** maximum: two runs from near inputs *)
Definition near2 (e : R) (a b : R * R) : Prop := Rabs (fst a - fst b) <= e /\ Rabs (snd a - snd b) <= e.
Lemma maximum_near : forall u eta A E a a0 b c c0, 0 <= u -> 0 <= eta -> 0 <= A -> 0 <= E -> near2 E a a0 -> at_most A a -> at_most A b ->
  fl_maximum (rounded u eta) a b c -> fl_maximum exact a0 b c0 -> near2 (2 * E + maximum_error u eta A) c c0.
Proof.
  intros u eta A E (u0, l0) (v0, w0) (u1, l1) (U, L) (U', L') Hu He HA HE [N1 N2] Ha Hb ((d1, d2) & (S1 & S2) & A1 & A2) ((e1, e2) & (X1 & X2) & Y1 & Y2).
  unfold near2, at_most, fl_minus, fl_relu, exact in *. cbn [fst snd] in *. subst e1 e2 U' L'.
  destruct Ha as [Ha1 Ha2]. destruct Hb as [Hb1 Hb2]. apply abs_le in Ha1, Ha2, Hb1, Hb2, N1, N2.
  assert (T1 : Rabs (u1 + - l0) <= 2 * A) by (apply le_abs; lra). assert (T2 : Rabs (l1 + - u0) <= 2 * A) by (apply le_abs; lra).
  apply (rounded_at _ _ _ _ _ Hu T1) in S1. apply (rounded_at _ _ _ _ _ Hu T2) in S2.
  assert (P : 0 <= u * (2 * A)) by (apply Rmult_le_pos; lra).
  assert (T3 : Rabs (Rmax 0 d1 + u0) <= 3 * A + (u * (2 * A) + eta)) by (apply le_abs; unfold Rmax; destruct (Rle_dec 0 d1); lra).
  assert (T4 : Rabs (Rmax 0 d2 + l0) <= 3 * A + (u * (2 * A) + eta)) by (apply le_abs; unfold Rmax; destruct (Rle_dec 0 d2); lra).
  apply (rounded_at _ _ _ _ _ Hu T3) in A1. apply (rounded_at _ _ _ _ _ Hu T4) in A2.
  assert (Q : u * (2 * A) + eta + (u * (3 * A + (u * (2 * A) + eta)) + eta) <= maximum_error u eta A).
  { unfold maximum_error. assert (0 <= u * A) by (apply Rmult_le_pos; lra). assert (0 <= u * (u * A)) by (apply Rmult_le_pos; lra). lra. }
  split; apply le_abs; unfold Rmax in *.
  - destruct (Rle_dec 0 d1), (Rle_dec 0 (u1 + - w0)); lra.
  - destruct (Rle_dec 0 d2), (Rle_dec 0 (l1 + - v0)); lra.
Qed.
Lemma chain_near : forall u eta A l m a a0 tr tr0, 0 <= u -> 0 <= eta -> 0 <= A -> near2 (iterated 2 (maximum_error u eta A) m) a a0 -> at_most A a -> Forall (at_most A) l -> Forall (at_most A) tr ->
  fl_chain (fl_maximum (rounded u eta)) a l tr -> fl_chain (fl_maximum exact) a0 l tr0 -> near2 (iterated 2 (maximum_error u eta A) (m + length l)) (last tr a) (last tr0 a0).
Proof.
  intros u eta A. induction l as [|b l IH]; intros m a a0 [|c tr] [|c0 tr0] Hu He HA N Ha Hl Ht H H0; cbn [fl_chain] in *; try contradiction.
  - cbn [length last]. rewrite Nat.add_0_r. exact N.
  - destruct H as [H H']. destruct H0 as [H0 H0']. inversion Hl; subst. inversion Ht; subst. rewrite !last_next. cbn [length]. rewrite Nat.add_succ_r, <- Nat.add_succ_l.
    apply IH; auto. cbn [iterated]. apply (maximum_near u eta A _ a a0 b); auto. apply iterated_pos; [lra|]. apply maximum_error_pos; assumption.
Qed.
Lemma fold_near : forall u eta A l tr tr0 y y0, 0 <= u -> 0 <= eta -> 0 <= A -> Forall (at_most A) l -> Forall (at_most A) tr ->
  fl_fold (fl_maximum (rounded u eta)) l tr y -> fl_fold (fl_maximum exact) l tr0 y0 -> near2 (iterated 2 (maximum_error u eta A) (length l - 1)) y y0.
Proof.
  intros u eta A [|a l] tr tr0 y y0 Hu He HA Hl Ht H H0; [contradiction|]. destruct H as [H ->]. destruct H0 as [H0 ->]. inversion Hl; subst.
  replace (length (a :: l) - 1)%nat with (0 + length l)%nat by (cbn; lia). apply chain_near; auto. cbn [iterated]. split; rewrite Rminus_diag_eq, Rabs_R0 by reflexivity; lra.
Qed.

Lemma neuron_close : forall n m E ts ts', length ts = 2%nat -> length ts' = 2%nat -> (forall j, (j < m)%nat -> near2 E (neuron ts' j) (neuron ts j)) -> close IBP n m E ts ts'.
Proof.
  intros n m E ts ts' H H' HN. destruct (two _ H) as (u & l & ->). destruct (two _ H') as (u' & l' & ->). split; intros i j Hi Hj; replace i with O by lia; apply (HN j Hj).
Qed.
Lemma float_maximum_close : forall u eta A E ke n m tss tr ts' out, 0 <= u -> 0 <= eta -> 0 <= A -> tss <> [] -> Forall (fun ts => length ts = 2%nat) tss ->
  sized A m tss tr -> iterated 2 (maximum_error u eta A) (length tss - 1) <= E -> float_maximum (rounded u eta) m tss tr ts' ->
  decomon_maximum ke (mk_spec false IBP Box n) (concat tss) = Ok out -> close IBP n m E out ts'.
Proof.
  intros u eta A E ke n m tss tr ts' out Hu He HA Hne HF HS HE [L1 H1] HO. destruct (exact_maximum ke n m tss out Hne HF HO) as (tr0 & L0 & H0).
  apply neuron_close; auto. intros j Hj. destruct (HS j Hj) as [S1 S2]. pose proof (fold_near u eta A _ _ _ _ _ Hu He HA S1 S2 (H1 j Hj) (H0 j Hj)) as [Q1 Q2].
  rewrite map_length in *. split; lra.
Qed.
Lemma float_minimum_close : forall u eta A E ke n m tss tr ts' out, 0 <= u -> 0 <= eta -> 0 <= A -> tss <> [] -> Forall (fun ts => length ts = 2%nat) tss ->
  sized A m tss tr -> iterated 2 (maximum_error u eta A) (length tss - 1) <= E -> float_minimum (rounded u eta) m tss tr ts' ->
  decomon_minimum ke (mk_spec false IBP Box n) (concat tss) = Ok out -> close IBP n m E out ts'.
Proof.
  intros u eta A E ke n m tss tr ts' out Hu He HA Hne HF HS HE [L1 H1] HO. destruct (exact_minimum ke n m tss out Hne HF HO) as (tr0 & L0 & H0).
  apply neuron_close; auto. intros j Hj. destruct (HS j Hj) as [S1 S2].
  assert (S1' : Forall (at_most A) (map (fun ts => fl_minus (neuron ts j)) tss)).
  { rewrite <- (map_map (fun ts => neuron ts j) fl_minus). clear - S1. induction S1; cbn [map]; constructor; auto. apply minus_at_most. assumption. }
  pose proof (fold_near u eta A _ _ _ _ _ Hu He HA S1' S2 (H1 j Hj) (H0 j Hj)) as [Q1 Q2].
  rewrite map_length in *. unfold fl_minus in *. cbn [fst snd] in *. apply abs_le in Q1, Q2. split; apply le_abs; lra.
Qed.

(** ** normalisation *)
Lemma deviation_near : forall u eta V s t, 0 <= u <= / 100 -> 0 <= eta -> 0 < V -> eta <= u * V -> 2 * eta <= u * sqrt V -> rounded u eta V s -> rounded u eta (sqrt s) t ->
  0 < t /\ Rabs (sqrt V / t - 1) <= 5 * u.
Proof.
  intros u eta V s t Hu He HV H1 H2 R1 R2. pose proof (sqrt_lt_R0 V HV) as HT. set (T := sqrt V) in *. assert (ET : T * T = V) by (apply sqrt_sqrt; lra).
  apply (rounded_at u eta V) in R1; [|lra|rewrite Rabs_right; lra].
  assert (Q : u * V <= / 100 * V) by (apply Rmult_le_compat_r; lra).
  assert (Hs : 0 < s) by lra. pose proof (sqrt_lt_R0 s Hs) as HS. set (S := sqrt s) in *. assert (ES : S * S = s) by (apply sqrt_sqrt; lra).
  assert (D : - (2 * u * T) <= S - T <= 2 * u * T).
  { assert (u * T <= / 100 * T) by (apply Rmult_le_compat_r; lra). assert (0 <= u * T) by (apply Rmult_le_pos; lra). split.
    - destruct (Rle_dec (T - 2 * u * T) S) as [|N]; [lra|]. exfalso. assert (X : S * S < (T - 2 * u * T) * (T - 2 * u * T)) by (apply Rmult_le_0_lt_compat; lra).
      assert (Y : (T - 2 * u * T) * (T - 2 * u * T) = V - 2 * (2 * (u * V)) + 4 * (u * T) * (u * T)) by (rewrite <- ET; ring).
      assert (Z : (u * T) * (u * T) <= / 100 * (u * V)). { replace (/ 100 * (u * V)) with ((/ 100 * T) * (u * T)) by (rewrite <- ET; ring). apply Rmult_le_compat_r; lra. } lra.
    - destruct (Rle_dec S (T + 2 * u * T)) as [|N]; [lra|]. exfalso. assert (X : (T + 2 * u * T) * (T + 2 * u * T) < S * S) by (apply Rmult_le_0_lt_compat; lra).
      assert (Y : (T + 2 * u * T) * (T + 2 * u * T) = V + 2 * (2 * (u * V)) + 4 * ((u * T) * (u * T))) by (rewrite <- ET; ring).
      assert (Z : 0 <= (u * T) * (u * T)) by (apply Rmult_le_pos; lra). assert (0 <= u * V) by (apply Rmult_le_pos; lra). lra. }
  assert (HuT : u * T <= / 100 * T) by (apply Rmult_le_compat_r; lra). assert (HuT0 : 0 <= u * T) by (apply Rmult_le_pos; lra).
  apply (rounded_at u eta (T + 2 * u * T)) in R2; [|lra|rewrite Rabs_right; lra].
  assert (Z : u * (T + 2 * u * T) <= u * T + 2 * / 100 * (u * T)).
  { replace (u * (T + 2 * u * T)) with (u * T + 2 * u * (u * T)) by ring. assert (u * (u * T) <= / 100 * (u * T)) by (apply Rmult_le_compat_r; lra). lra. }
  assert (Dt : - (4 * u * T) <= t - T <= 4 * u * T) by lra. assert (Ht : 0 < t) by lra. split; [exact Ht|].
  apply le_abs. assert (E1 : T / t - 1 = (T - t) / t) by (field; lra). rewrite E1. split.
  - apply Rmult_le_reg_r with t; [exact Ht|]. unfold Rdiv. rewrite Rmult_assoc, Rinv_l, Rmult_1_r by lra.
    assert (5 * u * t >= 5 * u * ((1 - 4 * / 100) * T)) by (apply Rmult_ge_compat_l; lra). lra.
  - apply Rmult_le_reg_r with t; [exact Ht|]. unfold Rdiv. rewrite Rmult_assoc, Rinv_l, Rmult_1_r by lra.
    assert (5 * u * t >= 5 * u * ((1 - 4 * / 100) * T)) by (apply Rmult_ge_compat_l; lra). lra.
Qed.
Lemma quotient_near : forall u eta B T t D da z, 0 <= u -> 0 <= eta -> 0 <= B -> 0 < T -> 0 < t -> Rabs (T / t - 1) <= 5 * u -> Rabs D <= B -> rounded u eta D da -> rounded u eta (da / t) z ->
  let q := ((1 + 5 * u) * (u * B + eta) + 5 * u * B) / T in
  Rabs (z - D / T) <= q + u * (B / T + q) + eta /\ Rabs (D / T) <= B / T.
Proof.
  intros u eta B T t D da z Hu He HB HT Ht HW HD R1 R2 q.
  assert (I : 0 < / T) by (apply Rinv_0_lt_compat; exact HT).
  assert (X : Rabs (D / T) <= B / T). { unfold Rdiv. rewrite Rabs_mult, (Rabs_right (/ T)) by lra. apply Rmult_le_compat_r; lra. }
  split; [|exact X]. apply (rounded_at u eta B) in R1; [|exact Hu|exact HD]. apply le_abs in R1.
  set (w := T / t) in *. assert (E1 : da / t - D / T = ((da - D) * w + D * (w - 1)) * / T) by (unfold w; field; split; lra).
  assert (Y : Rabs (da / t - D / T) <= q).
  { rewrite E1, Rabs_mult, (Rabs_right (/ T)) by lra. unfold q, Rdiv. apply Rmult_le_compat_r; [lra|]. eapply Rle_trans; [apply Rabs_triang|]. rewrite !Rabs_mult.
    assert (Rabs w <= 1 + 5 * u) by (apply abs_le in HW; apply le_abs; split; lra).
    assert (Rabs (da - D) * Rabs w <= (u * B + eta) * (1 + 5 * u)) by (apply Rmult_le_compat; auto using Rabs_pos).
    assert (Rabs D * Rabs (w - 1) <= B * (5 * u)) by (apply Rmult_le_compat; auto using Rabs_pos). lra. }
  assert (Z : Rabs (da / t) <= B / T + q) by (apply abs_le in X, Y; apply le_abs; split; lra).
  apply (rounded_at u eta _ _ _ Hu Z) in R2. apply abs_le in Y. apply le_abs. split; lra.
Qed.
Lemma bn_near_exact : forall u eta B g be mean var eps a b y, 0 <= u <= / 100 -> 0 <= eta -> Rabs (a - mean) <= B -> Rabs (b - mean) <= B ->
  0 < var + eps -> eta <= u * (var + eps) -> 2 * eta <= u * sqrt (var + eps) -> fl_bn (rounded u eta) g be mean var eps a b y ->
  Rabs (y - (Rmax 0 g * ((a - mean) / sqrt (var + eps)) + Rmin 0 g * ((b - mean) / sqrt (var + eps)) + be)) <= bn_error u eta B (Rabs g) (sqrt (var + eps)) (Rabs be).
Proof.
  intros u eta B g be mean var eps a b y Hu He HA HB HV H1 H2 (da & db & s & t & za & zb & p & q & r & R1 & R2 & R3 & R4 & R5 & R6 & R7 & R8 & R9 & R10).
  destruct (deviation_near u eta _ s t Hu He HV H1 H2 R3 R4) as [Ht HW]. pose proof (sqrt_lt_R0 _ HV) as HT. set (T := sqrt (var + eps)) in *.
  assert (B0 : 0 <= B) by (pose proof (Rabs_pos (a - mean)); lra).
  destruct (quotient_near u eta B T t _ da za ltac:(lra) He B0 HT Ht HW HA R1 R5) as [Za Xa]. destruct (quotient_near u eta B T t _ db zb ltac:(lra) He B0 HT Ht HW HB R2 R6) as [Zb Xb].
  unfold bn_error. set (zz := ((1 + 5 * u) * (u * B + eta) + 5 * u * B) / T) in *. set (e := zz + u * (B / T + zz) + eta) in *.
  set (P := (a - mean) / T) in *. set (Q := (b - mean) / T) in *. set (c := B / T) in *. set (G := Rabs g).
  assert (HG : 0 <= G) by apply Rabs_pos. assert (He0 : 0 <= e) by (pose proof (Rabs_pos (za - P)); lra). assert (Hc : 0 <= c) by (pose proof (Rabs_pos P); lra).
  set (pe := G * e + u * (G * (c + e)) + eta). set (M := Rmax 0 g * P + Rmin 0 g * Q).
  assert (HGe : 0 <= u * (G * (c + e))) by (apply Rmult_le_pos; [lra|apply Rmult_le_pos; lra]). assert (0 <= G * e) by (apply Rmult_le_pos; lra).
  assert (K : forall h z Z pr, Rabs h = G -> Rabs (z - Z) <= e -> Rabs Z <= c -> rounded u eta (h * z) pr -> - pe <= pr - h * Z <= pe /\ - (G * c) <= h * Z <= G * c).
  { intros h z Z pr Hh N1 N2 R. assert (X : Rabs (h * z) <= G * (c + e)).
    { rewrite Rabs_mult, Hh. apply Rmult_le_compat_l; [exact HG|]. apply abs_le in N1, N2. apply le_abs. split; lra. }
    apply (rounded_at u eta) with (B := G * (c + e)) in R; [|lra|exact X]. assert (Y : Rabs (h * z - h * Z) <= G * e) by (replace (h * z - h * Z) with (h * (z - Z)) by ring; rewrite Rabs_mult, Hh; apply Rmult_le_compat_l; auto).
    apply abs_le in Y. split; [unfold pe; lra|]. apply abs_le. rewrite Rabs_mult, Hh. apply Rmult_le_compat_l; auto. }
  assert (K0 : forall h z pr, h = 0 -> rounded u eta (h * z) pr -> - eta <= pr <= eta).
  { intros h z pr -> R. apply (rounded_at u eta 0) in R; [|lra|rewrite Rmult_0_l, Rabs_R0; lra]. rewrite Rmult_0_l in R. lra. }
  assert (S1 : - (pe + eta) <= p + q - M <= pe + eta /\ - (G * c) <= M <= G * c).
  { unfold M. destruct (Rle_dec 0 g) as [Hg|Hg].
    - rewrite (Rmax_right 0 g), (Rmin_left 0 g) in * by lra. assert (EG : Rabs g = G) by reflexivity.
      destruct (K g za P p EG Za Xa R7). pose proof (K0 0 zb q eq_refl R8). lra.
    - rewrite (Rmax_left 0 g), (Rmin_right 0 g) in * by lra. assert (EG : Rabs g = G) by reflexivity.
      destruct (K g zb Q q EG Zb Xb R8). pose proof (K0 0 za p eq_refl R7). lra. }
  destruct S1 as [S1 S2]. set (rr := pe + eta + u * (G * c + pe + eta) + eta).
  apply (rounded_at u eta (G * c + pe + eta)) in R9; [|lra|apply le_abs; split; lra].
  assert (S3 : - rr <= r - M <= rr) by (unfold rr; lra).
  pose proof (abs_le be (Rabs be) ltac:(lra)) as Hbe.
  apply (rounded_at u eta (G * c + rr + Rabs be)) in R10; [|lra|apply le_abs; split; lra].
  apply le_abs. cbv zeta. fold c. fold pe. fold rr. split; lra.
Qed.

Lemma float_bn_close : forall u eta E n s axis gamma beta mean var eps ts ts' out, 0 <= u <= / 100 -> 0 <= eta -> float_bn (rounded u eta) s axis gamma beta mean var eps ts ts' ->
  (forall a uc lc j, b_axis s axis = Ok a -> ts = [uc; lc] -> (j < prodn s)%nat ->
     let c := bn_chan s a j in let V := var c + eps in
     0 < V /\ eta <= u * V /\ 2 * eta <= u * sqrt V /\
     bn_error u eta (Rmax (Rabs (uc 0%nat j - mean c)) (Rabs (lc 0%nat j - mean c))) (Rabs (opt_vec 1 gamma c)) (sqrt V) (Rabs (opt_vec 0 beta c)) <= E) ->
  decomon_bn (mk_spec false IBP Box n) s axis gamma beta mean var eps false ts = Ok out -> close IBP n (prodn s) E out ts'.
Proof.
  intros u eta E n s axis gamma beta mean var eps ts ts' out Hu He H HS HO. unfold float_bn in H. unfold decomon_bn in HO.
  destruct (b_axis s axis) as [a|] eqn:Ea; [|contradiction]. destruct ts as [|uc [|lc [|]]]; try contradiction. destruct ts' as [|uc' [|lc' [|]]]; try contradiction.
  cbn in HO. injection HO as <-. split; intros i j Hi Hj; replace i with O by lia; destruct (HS a uc lc j eq_refl eq_refl Hj) as (V1 & V2 & V3 & V4); destruct (H j Hj) as [H1 H2].
  - eapply Rle_trans; [|exact V4]. exact (bn_near_exact u eta _ _ _ _ _ _ _ _ _ Hu He (Rmax_l _ _) (Rmax_r _ _) V1 V2 V3 H1).
  - eapply Rle_trans; [|exact V4]. exact (bn_near_exact u eta _ _ _ _ _ _ _ _ _ Hu He (Rmax_r _ _) (Rmax_l _ _) V1 V2 V3 H2).
Qed.

(** ** networks *)
Lemma all_piecewise : forall L, float_layer_linear L -> nl_piecewise L.
Proof. intros L H. destruct L; try contradiction; cbn in *; auto. Qed.
Lemma all_lengths : forall op dot ke n opts net o z tr r, net_ok n net -> (forall i L ps, nth_error net i = Some (Some L, ps) -> float_layer_all L) ->
  float_run_all op dot ke n opts net o z tr r -> forall i, (i < length net)%nat -> length (r_nodes r i) = 2%nat.
Proof.
  intros op dot ke n opts net o z tr r Hnet Hfl (H1 & H2 & H3) i. induction (lt_wf i) as [i _ IH]. intros Hi. destruct (nth_error net i) as [[q ps]|] eqn:En; [|apply nth_error_None in En; lia].
  specialize (H2 i q ps En). destruct (Hnet i q ps En) as [Hp Hq]. destruct q as [L|].
  - destruct Hq as [_ Hq]. specialize (Hfl i L ps En).
    assert (G : float_layer L -> match lin_of L, merge_op op L with
      | Some F, _ => float_linear op dot F (concat (map (r_nodes r) ps)) (r_nodes r i)
      | None, Some M => float_merge M L (map (r_nodes r) ps) (r_nodes r i)
      | None, None => decomon_layer ke (mk_spec false IBP Box n) (opts i) L (concat (map (r_nodes r) ps)) = Ok (r_nodes r i) end -> length (r_nodes r i) = 2%nat).
    { clear Hfl H2. intros Hfl H2. destruct (lin_of L) as [F|] eqn:HF; [|destruct (merge_op op L) as [M|] eqn:HM].
      + unfold float_linear in H2. destruct (concat (map (r_nodes r) ps)) as [|? [|? [|]]]; try contradiction. destruct (r_nodes r i) as [|? [|? [|]]]; try contradiction. reflexivity.
      + unfold float_merge in H2. destruct (r_nodes r i) as [|? [|? [|]]]; try contradiction. reflexivity.
      + assert (HM' : merge_op (fun _ _ => True) L = None) by (destruct L; try discriminate HM; reflexivity).
        apply (ibp_layer_length _ _ _ _ _ _ _ Hfl HF HM' H2). destruct L; try contradiction; try discriminate HF; try discriminate HM; try (right; do 4 eexists; reflexivity); left;
          (destruct ps as [|p [|]]; try discriminate Hq; cbn [map concat]; rewrite app_nil_r; apply IH; [apply Hp; left; reflexivity|]; specialize (Hp p (or_introl eq_refl)); lia). }
    destruct L; try contradiction; try (exact (G Hfl H2)); clear G; cbn [float_call] in H2; try exact (proj1 H2).
    unfold float_bn in H2. destruct (b_axis _ _); [|contradiction]. destruct (concat (map (r_nodes r) ps)) as [|? [|? [|]]]; try contradiction. destruct (r_nodes r i) as [|? [|? [|]]]; try contradiction. reflexivity.
  - rewrite H2. clear - H1. cbn in H1. injection H1 as <-. reflexivity.
Qed.

Lemma all_linear : forall L, float_layer_linear L -> float_layer_all L.
Proof. intros L H. destruct L; try contradiction; cbn in *; auto. Qed.
Lemma all_rounded : forall u eta k N ke n opts net o z tr r A E,
  0 <= u <= / 100 -> 0 <= eta -> 0 <= A -> net_ok n net -> (forall i L ps, nth_error net i = Some (Some L, ps) -> float_layer_linear L) -> (o < length net)%nat ->
  merges_within (Nat.min k N) net -> float_run_all (rounded u eta) (any_order (rounded u eta) k N) ke n opts net o z tr r -> errors_within u eta k N A E net tr r ->
  0 <= E /\ rounded_run ke Box n IBP IBP opts net o z E r.
Proof.
  intros u eta k N ke n opts net o z tr r A E Hu He HA Hnet Hfl Ho Hmw Hr (Hs & HE & Hx). pose proof (float_error_pos u eta k N A ltac:(lra) He HA) as Hd. assert (HE0 : 0 <= E) by lra. split; [exact HE0|].
  pose proof (all_lengths _ _ _ _ _ _ _ _ _ _ Hnet (fun i L ps Q => all_linear L (Hfl i L ps Q)) Hr) as Len. destruct Hr as (H1 & H2 & H3).
  split; [|split].
  - intros its Q. rewrite Q in H1. injection H1 as ->. apply ibp_close_refl; [exact HE0|]. cbn in Q. injection Q as <-. reflexivity.
  - intros i q ps En. specialize (H2 i q ps En). destruct q as [L|]; [|exact H2]. intros out Q. specialize (Hfl i L ps En).
    assert (Hi : (i < length net)%nat) by (apply nth_error_Some; rewrite En; discriminate). destruct (Hnet i _ ps En) as [Hp [Hne Hq]].
    assert (Hne' : map (r_nodes r) ps <> []) by (destruct ps; [contradiction Hne; reflexivity|discriminate]).
    assert (HF2 : Forall (fun ts => length ts = 2%nat) (map (r_nodes r) ps)).
    { apply Forall_forall. intros ts Hts. apply in_map_iff in Hts. destruct Hts as (p & <- & Hin). apply Len. specialize (Hp p Hin). lia. }
    specialize (Hs i L ps En). specialize (Hx i L ps En).
    assert (G : float_layer L -> match lin_of L, merge_op (rounded u eta) L with
      | Some F, _ => float_linear (rounded u eta) (any_order (rounded u eta) k N) F (concat (map (r_nodes r) ps)) (r_nodes r i)
      | None, Some M => float_merge M L (map (r_nodes r) ps) (r_nodes r i)
      | None, None => decomon_layer ke (mk_spec false IBP Box n) (opts i) L (concat (map (r_nodes r) ps)) = Ok (r_nodes r i) end -> close IBP n (nl_out L) E out (r_nodes r i)).
    { clear Hfl H2 Hx. intros Hfl H2.
      assert (C : close IBP n (nl_out L) (float_error u eta k N A) out (r_nodes r i) -> close IBP n (nl_out L) E out (r_nodes r i)).
      { clear - HE. intros C. unfold close in *. destruct out as [|? [|? [|]]]; try contradiction. destruct (r_nodes r i) as [|? [|? [|]]]; try contradiction.
        destruct C as [C1 C2]. split; intros a b Ha Hb; [specialize (C1 a b Ha Hb)|specialize (C2 a b Ha Hb)]; lra. }
      destruct (lin_of L) as [F|] eqn:HF; [|destruct (merge_op (rounded u eta) L) as [M|] eqn:HM].
      + apply C. apply (float_linear_close u eta k N ke Box n (opts i) L F (concat (map (r_nodes r) ps))); auto. lra.
      + destruct (merge_any _ (fun _ _ => True) L M HM) as (M' & HM'). rewrite HM' in Hs. specialize (Hmw i L ps En ltac:(rewrite HM'; discriminate)).
        pose proof (Nat.le_min_l k N). pose proof (Nat.le_min_r k N).
        apply C. apply (float_merge_close u eta k N ke Box n (opts i) L M (map (r_nodes r) ps)); auto; rewrite ?map_length; try lia; try lra.
        * rewrite <- Hq, map_length. reflexivity.
        * intros ts Hts. exact (proj1 (Forall_forall _ _) HF2 ts Hts).
        * intros j Hj. rewrite map_map. exact (Hs j Hj).
      + rewrite Q in H2. injection H2 as ->. apply ibp_close_refl; [exact HE0|]. apply Len. exact Hi. }
    destruct L; try contradiction; try (exact (G Hfl H2)); clear G; cbn [float_call decomon_layer nl_out] in *.
    + apply (float_bn_close u eta E n _ _ _ _ _ _ _ _ _ _ Hu He H2 Hx Q).
    + destruct Hx as [X1 X2]. apply (float_maximum_close u eta A E ke n m (map (r_nodes r) ps) (tr i)); auto; rewrite ?map_length; auto. lra.
    + destruct Hx as [X1 X2]. apply (float_minimum_close u eta A E ke n m (map (r_nodes r) ps) (tr i)); auto; rewrite ?map_length; auto. lra.
  - intros out Q. rewrite Q in H3. injection H3 as ->. apply ibp_close_refl; [exact HE0|]. pose proof (Len o Ho) as Lo.
    destruct (r_nodes r o) as [|? [|? [|]]]; try discriminate. cbn in Q. injection Q as <-. reflexivity.
Qed.

Lemma all_bounds : forall u eta k N ke n opts net v o z tr r A E,
  0 <= u <= / 100 -> 0 <= eta -> 0 <= A -> (0 < n)%nat -> net_ok n net -> net_value net v -> layers_ok IBP opts net -> (o < length net)%nat ->
  (forall i L ps, nth_error net i = Some (Some L, ps) -> float_layer_linear L) ->
  merges_within (Nat.min k N) net -> float_run_all (rounded u eta) (any_order (rounded u eta) k N) ke n opts net o z tr r -> errors_within u eta k N A E net tr r ->
  exists U L, r_out r = [U; L] /\ forall y j, in_dom Box n z y -> (j < net_dim n net o)%nat ->
    L 0%nat j - (net_error net + 1) * E <= v o y j <= U 0%nat j + (net_error net + 1) * E.
Proof.
  intros u eta k N ke n opts net v o z tr r A E Hu He HA Hn Hnet Hval Hlay Ho Hfl Hmw Hr Hs.
  destruct (all_rounded u eta k N ke n opts net o z tr r A E Hu He HA Hnet Hfl Ho Hmw Hr Hs) as [HE HR].
  apply (rounded_ibp ke Box n z opts net v o E r); auto; try exact I.
  intros i L ps Q. apply all_piecewise. eapply Hfl. exact Q.
Qed.

Lemma fl_bn_impl : forall (op op' : R -> R -> Prop), (forall x y, op x y -> op' x y) -> forall g be m v e a b y, fl_bn op g be m v e a b y -> fl_bn op' g be m v e a b y.
Proof.
  intros op op' H g be m v e a b y (da & db & s & t & za & zb & p & q & r & R1 & R2 & R3 & R4 & R5 & R6 & R7 & R8 & R9 & R10).
  exists da, db, s, t, za, zb, p, q, r. repeat (split; [apply H; assumption|]). apply H. assumption.
Qed.
Lemma all_impl : forall (op : R -> R -> Prop) u eta k N ke n opts net o z tr r, (forall x y, op x y -> rounded u eta x y) ->
  float_run_all op (any_order op k N) ke n opts net o z tr r -> float_run_all (rounded u eta) (any_order (rounded u eta) k N) ke n opts net o z tr r.
Proof.
  intros op u eta k N ke n opts net o z tr r H (A & B & C). split; [exact A|split; [|exact C]]. intros i q ps En. specialize (B i q ps En). destruct q as [L|]; [|exact B].
  assert (G : match lin_of L, merge_op op L with
      | Some F, _ => float_linear op (any_order op k N) F (concat (map (r_nodes r) ps)) (r_nodes r i)
      | None, Some M => float_merge M L (map (r_nodes r) ps) (r_nodes r i)
      | None, None => decomon_layer ke (mk_spec false IBP Box n) (opts i) L (concat (map (r_nodes r) ps)) = Ok (r_nodes r i) end ->
    match lin_of L, merge_op (rounded u eta) L with
      | Some F, _ => float_linear (rounded u eta) (any_order (rounded u eta) k N) F (concat (map (r_nodes r) ps)) (r_nodes r i)
      | None, Some M => float_merge M L (map (r_nodes r) ps) (r_nodes r i)
      | None, None => decomon_layer ke (mk_spec false IBP Box n) (opts i) L (concat (map (r_nodes r) ps)) = Ok (r_nodes r i) end).
  { clear B. intros B. destruct (lin_of L) as [F|] eqn:HF.
    - unfold float_linear in *. destruct (concat (map (r_nodes r) ps)) as [|? [|? [|]]]; try contradiction. destruct (r_nodes r i) as [|? [|? [|]]]; try contradiction.
      intros j Hj. destruct (B j Hj) as [B1 B2]. split; (eapply neuron_impl; [exact H| |eassumption]; intros; eapply any_order_impl; [exact H|assumption]).
    - destruct (merge_op op L) as [M|] eqn:HM.
      + destruct (merge_impl op (rounded u eta) L M H HM) as (M' & -> & HM'). unfold float_merge in *. destruct (r_nodes r i) as [|? [|? [|]]]; try contradiction. intros j Hj. destruct (B j Hj). auto.
      + replace (merge_op (rounded u eta) L) with (@None (list R -> R -> Prop)) by (destruct L; try discriminate HM; reflexivity). exact B. }
  destruct L; try (exact (G B)); clear G; cbn [float_call] in *.
  - unfold float_bn in *. destruct (b_axis _ _); [|exact B]. destruct (concat (map (r_nodes r) ps)) as [|? [|? [|]]]; try contradiction. destruct (r_nodes r i) as [|? [|? [|]]]; try contradiction.
    intros j Hj. destruct (B j Hj) as [B1 B2]. split; eapply fl_bn_impl; eauto.
  - destruct B as [B1 B2]. split; [exact B1|]. intros j Hj. eapply fl_fold_impl; [|exact (B2 j Hj)]. apply fl_multiply_impl. exact H.
  - destruct B as [B1 B2]. split; [exact B1|]. intros j Hj. eapply fl_fold_impl; [|exact (B2 j Hj)]. apply fl_maximum_impl. exact H.
  - destruct B as [B1 B2]. split; [exact B1|]. intros j Hj. eapply fl_fold_impl; [|exact (B2 j Hj)]. apply fl_maximum_impl. exact H.
Qed.
Lemma all32_bounds : forall k N ke n opts net v o z tr r A E,
  0 <= A -> (0 < n)%nat -> net_ok n net -> net_value net v -> layers_ok IBP opts net -> (o < length net)%nat ->
  (forall i L ps, nth_error net i = Some (Some L, ps) -> float_layer_linear L) ->
  merges_within (Nat.min k N) net -> float_run_all op32 (any_order op32 k N) ke n opts net o z tr r -> errors_within u32 eta32 k N A E net tr r ->
  exists U L, r_out r = [U; L] /\ forall y j, in_dom Box n z y -> (j < net_dim n net o)%nat ->
    L 0%nat j - (net_error net + 1) * E <= v o y j <= U 0%nat j + (net_error net + 1) * E.
Proof.
  intros k N ke n opts net v o z tr r A E HA Hn Hnet Hval Hlay Ho Hfl Hmw Hr Hs.
  apply (all_bounds u32 eta32 k N ke n opts net v o z tr r A E); auto using eta32_pos.
  - split; [apply u32_pos|]. apply Rle_trans with (/ 1048576); [|lra]. unfold u32. change (/ 1048576) with (bpow radix2 (-20)). apply bpow_le. lia.
  - apply (all_impl op32); [exact op32_rounded|exact Hr].
Qed.

(** ** order of the bounds *)
Lemma bn_ordered : forall rnd, (forall x y, x <= y -> rnd x <= rnd y) -> forall g be m v e a b y y', b <= a -> 0 < rnd (sqrt (rnd (v + e))) ->
  fl_bn (fop rnd) g be m v e a b y -> fl_bn (fop rnd) g be m v e b a y' -> y' <= y.
Proof.
  intros rnd Hm g be m v e a b y y' Hab Ht (da & db & s & t & za & zb & p & q & r & R1 & R2 & R3 & R4 & R5 & R6 & R7 & R8 & R9 & R10)
    (da' & db' & s' & t' & za' & zb' & p' & q' & r' & S1 & S2 & S3 & S4 & S5 & S6 & S7 & S8 & S9 & S10). unfold fop in *. subst s s' t t'.
  set (t := rnd (sqrt (rnd (v + e)))) in *. assert (It : 0 < / t) by (apply Rinv_0_lt_compat; exact Ht).
  assert (D1 : da' <= da) by (subst da da'; apply Hm; lra). assert (D2 : db <= db') by (subst db db'; apply Hm; lra).
  assert (Z1 : za' <= za) by (subst za za'; apply Hm; unfold Rdiv; apply Rmult_le_compat_r; lra). assert (Z2 : zb <= zb') by (subst zb zb'; apply Hm; unfold Rdiv; apply Rmult_le_compat_r; lra).
  pose proof (Rmax_l 0 g) as G1. pose proof (Rmin_l 0 g) as G2.
  assert (P1 : p' <= p) by (subst p p'; apply Hm; apply Rmult_le_compat_l; lra). assert (P2 : q' <= q) by (subst q q'; apply Hm; apply Rmult_le_compat_neg_l; lra).
  assert (r' <= r) by (subst r r'; apply Hm; lra). subst y y'. apply Hm. lra.
Qed.
Lemma neuron_of : forall ts (u l : tensor) j, ts = [u; l] -> neuron ts j = (u 0%nat j, l 0%nat j).
Proof. intros ts u l j ->. reflexivity. Qed.
Lemma chan_lt : forall pre k post axis a j, bn_axis pre post axis -> b_axis (pre ++ k :: post) axis = Ok a -> (j < prodn (pre ++ k :: post))%nat -> (bn_chan (pre ++ k :: post) a j < k)%nat.
Proof.
  intros pre k post axis a j Hax E Hj.
  assert (Eax : b_axis (pre ++ k :: post) axis = Ok (length pre)) by (destruct Hax as [-> | ->]; [apply b_axis_pos | apply b_axis_neg]). rewrite E in Eax. injection Eax as ->.
  destruct (unravel_spec _ _ Hj) as [I0 E0]. apply Forall2_app_inv_l in I0. destruct I0 as (p & q & Ip & Iq & E'). inversion Iq as [|? c ? q' Hc Iq' E1 E2]; subst.
  rewrite <- E0, E'. rewrite bn_chan_at; auto.
Qed.

Lemma all32_ordered : forall T ke n opts net o z tr r,
  (forall d, Permutation (leaves (T d)) (seq 0 d)) ->
  0 < ke -> (0 < n)%nat -> net_ok n net -> layers_ok IBP opts net -> (o < length net)%nat ->
  (forall i L ps, nth_error net i = Some (Some L, ps) -> float_layer_all L) -> deviations_positive net ->
  (forall j, (j < n)%nat -> z 0%nat j <= z 1%nat j) ->
  float_run_all op32 (one_order op32 T) ke n opts net o z tr r ->
  exists U L, r_out r = [U; L] /\ forall j, (j < net_dim n net o)%nat -> L 0%nat j <= U 0%nat j.
Proof.
  intros T ke n opts net o z tr r HT Hke Hn Hnet Hlay Ho Hfl Hdev Hz (H1 & H2 & H3). pose proof rnd32_mono as Hm.
  assert (W : forall i, (i < length net)%nat -> between (net_dim n net i) (node_low (r_nodes r i)) (r_nodes r i)).
  { intros i. induction (lt_wf i) as [i _ IH]. intros Hi. destruct (nth_error net i) as [[q ps]|] eqn:En; [|apply nth_error_None in En; lia].
    specialize (H2 i q ps En). destruct (Hnet i q ps En) as [Hp Hq]. unfold net_dim. rewrite En. destruct q as [L|].
    - destruct Hq as [Hne Hq]. specialize (Hfl i L ps En). destruct (Hlay i L ps En) as [Hok Hft].
      assert (G : decomon_layer ke (mk_spec false IBP Box n) (opts i) L (concat (map (r_nodes r) ps)) = Ok (r_nodes r i) -> between (nl_out L) (node_low (r_nodes r i)) (r_nodes r i)).
      { intros E. assert (B := other_layer ke n (opts i) L ps (fun p => node_low (r_nodes r p)) (r_nodes r) (net_dim n net) (r_nodes r i)
          (layer_fn L (map (fun p => node_low (r_nodes r p)) ps)) Hke Hn Hok Hft Hq ltac:(intros p Q; apply IH; [apply Hp; exact Q|specialize (Hp p Q); lia])
          ltac:(apply (computes_fn IBP (lo_fast (opts i)) L); [exact Hok|]; rewrite map_length; exact (net_in_length n net i L ps Hnet En)) E).
        unfold between, node_low in *. destruct (r_nodes r i) as [|u [|l [|]]]; try contradiction. intros j Hj. specialize (B j Hj). lra. }
      assert (IH' : forall p, In p ps -> between (net_dim n net p) (node_low (r_nodes r p)) (r_nodes r p)) by (intros p Q; apply IH; [apply Hp; exact Q|specialize (Hp p Q); lia]).
      assert (G' : match lin_of L, merge_op op32 L with
        | Some F, _ => float_linear op32 (one_order op32 T) F (concat (map (r_nodes r) ps)) (r_nodes r i)
        | None, Some M => float_merge M L (map (r_nodes r) ps) (r_nodes r i)
        | None, None => decomon_layer ke (mk_spec false IBP Box n) (opts i) L (concat (map (r_nodes r) ps)) = Ok (r_nodes r i) end -> between (nl_out L) (node_low (r_nodes r i)) (r_nodes r i)).
      { clear H2. intros H2. destruct (lin_of L) as [F|] eqn:HF; [|destruct (merge_op op32 L) as [M|] eqn:HM; [|exact (G H2)]]; clear G.
        + assert (exists m, nl_in L = [m]) as (m & Em) by (destruct L; try discriminate HF; eexists; reflexivity). rewrite Em in Hq. destruct ps as [|p [|]]; try discriminate Hq. injection Hq as Hq.
          cbn [map concat] in H2. rewrite app_nil_r in H2. specialize (IH' p (or_introl eq_refl)). rewrite Hq in IH'. unfold float_linear in H2. destruct (r_nodes r p) as [|uc [|lc [|]]]; try contradiction.
          destruct (r_nodes r i) as [|uc' [|lc' [|]]]; try contradiction. rewrite <- (lin_one L F HF). cbn [between node_low] in *. intros j Hj. split; [lra|]. destruct (H2 j Hj) as [A B].
          eapply neuron_order; [exact Hm|apply HT| |exact A|exact B]. intros c Hc. pose proof (lin_between L F j c m (lc 0%nat) (lc 0%nat) (uc 0%nat) HF Hj Hc Em IH'). lra.
        + unfold float_merge in H2. destruct (r_nodes r i) as [|uc' [|lc' [|]]]; try contradiction. cbn [between node_low] in *. intros j Hj. split; [lra|]. destruct (H2 j Hj) as [A B].
          destruct (merge_ends_le _ L M ps (fun p => node_low (r_nodes r p)) (r_nodes r) (net_dim n net) j HM Hq Hj IH') as (_ & _ & Q). eapply merge_mono; [exact Hm|exact HM|exact Q|exact B|exact A]. }
      assert (P2 : forall m, nl_in L = repeat m (length ps) -> forall ts j, In ts (map (r_nodes r) ps) -> (j < m)%nat -> snd (neuron ts j) <= fst (neuron ts j)).
      { intros m Em ts j Hts Hj. apply in_map_iff in Hts. destruct Hts as (p & <- & Hin). specialize (IH' p Hin).
        assert (Ed : net_dim n net p = m) by (rewrite Em in Hq; assert (I0 : In (net_dim n net p) (repeat m (length ps))) by (rewrite <- Hq; apply in_map; exact Hin); apply repeat_spec in I0; exact I0).
        rewrite Ed in IH'. destruct (r_nodes r p) as [|u [|l [|]]]; try contradiction. specialize (IH' j Hj). cbn in *. lra. }
      assert (Fin : forall m, length (r_nodes r i) = 2%nat -> (forall j, (j < m)%nat -> snd (neuron (r_nodes r i) j) <= fst (neuron (r_nodes r i) j)) -> between m (node_low (r_nodes r i)) (r_nodes r i)).
      { intros m L2 O. destruct (two _ L2) as (u & l & Eul). rewrite Eul in *. intros j Hj. specialize (O j Hj). cbn in *. lra. }
      assert (Er : forall m k', nl_in L = repeat m k' -> nl_in L = repeat m (length ps)).
      { intros m k' E. rewrite E in *. f_equal. rewrite <- (map_length (net_dim n net) ps), Hq, repeat_length. reflexivity. }
      destruct L; try contradiction; try (exact (G' H2)); clear G G'; cbn [float_call nl_out] in *.
      + unfold float_bn in H2. destruct (b_axis _ _) as [a|] eqn:Ea; [|contradiction]. destruct ps as [|p [|]]; try discriminate Hq. cbn [map concat] in H2. rewrite app_nil_r in H2. injection Hq as Hq.
        specialize (IH' p (or_introl eq_refl)). cbn [nl_in] in Hq. rewrite Hq in IH'. destruct (r_nodes r p) as [|uc [|lc [|]]]; try contradiction. destruct (r_nodes r i) as [|uc' [|lc' [|]]]; try contradiction.
        intros j Hj. cbn [node_low]. split; [lra|]. destruct (H2 j Hj) as [A B]. specialize (IH' j Hj). cbn [node_low] in IH'.
        eapply (bn_ordered rnd32 Hm); [apply IH'| |exact A|exact B].
        eapply (Hdev i). exact En. eapply chan_lt; [apply Hok|exact Ea|exact Hj].
      + apply Fin; [apply H2|]. destruct ps as [|p [|p' ps]]; [contradiction Hne; reflexivity| |].
        * intros j Hj. destruct H2 as [_ H2]. specialize (H2 j Hj). cbn [map fl_fold] in H2. destruct H2 as [C E]. destruct (tr i j) as [|]; [|contradiction]. cbn [last] in E. rewrite E.
          apply (P2 m (Er m k eq_refl) (r_nodes r p) j); [left; reflexivity|exact Hj].
        * apply (multiply_ordered m (map (r_nodes r) (p :: p' :: ps)) (tr i)); [cbn; lia|exact H2].
      + apply Fin; [apply H2|]. apply (maximum_ordered m (map (r_nodes r) ps) (tr i)); [exact (P2 m (Er m k eq_refl))|left; exact H2].
      + apply Fin; [apply H2|]. apply (maximum_ordered m (map (r_nodes r) ps) (tr i)); [exact (P2 m (Er m k eq_refl))|right; exact H2].
    - rewrite H2. clear - H1 Hz. cbn in H1. injection H1 as <-. cbn [between node_low]. intros j Hj. cbn. split; [apply Rle_refl|exact (Hz j Hj)]. }
  specialize (W o Ho). destruct (r_nodes r o) as [|U [|L [|]]]; try contradiction. cbn in H3. injection H3 as <-. exists U, L. split; [reflexivity|].
  intros j Hj. specialize (W j Hj). cbn in W. lra.
Qed.

(** ** predictions of a network whose layers have error at most E' *)
Lemma all32_predictions : forall k N ke n opts net v o z tr r A E E' y a,
  0 <= A -> 0 <= E' -> (0 < n)%nat -> net_ok n net -> net_value net v -> layers_ok IBP opts net -> (o < length net)%nat ->
  (forall i L ps, nth_error net i = Some (Some L, ps) -> float_layer_linear L) ->
  merges_within (Nat.min k N) net -> float_run_all op32 (any_order op32 k N) ke n opts net o z tr r -> errors_within u32 eta32 k N A E net tr r ->
  in_dom Box n z y -> rounded_values net E' y a ->
  exists U L, r_out r = [U; L] /\ forall j, (j < net_dim n net o)%nat ->
    L 0%nat j - (net_error net + 1) * (E + E') <= a o j <= U 0%nat j + (net_error net + 1) * (E + E').
Proof.
  intros k N ke n opts net v o z tr r A F F' y a HA HA' Hn Hnet Hval Hlay Ho Hfl Hmw Hr Hs Hy Ha.
  assert (Hpw : forall i L ps, nth_error net i = Some (Some L, ps) -> nl_piecewise L) by (intros i L ps Q; apply all_piecewise; eapply Hfl; exact Q).
  assert (Hu : 0 <= u32 <= / 100) by (split; [apply u32_pos|]; apply Rle_trans with (/ 1048576); [|lra]; unfold u32; change (/ 1048576) with (bpow radix2 (-20)); apply bpow_le; lia).
  destruct (all_rounded u32 eta32 k N ke n opts net o z tr r A F Hu eta32_pos HA Hnet Hfl Ho Hmw (all_impl op32 _ _ _ _ _ _ _ _ _ _ _ _ op32_rounded Hr) Hs) as [HE HR].
  assert (G : forall e, 0 < e -> exists U L, r_out r = [U; L] /\ forall j, (j < net_dim n net o)%nat ->
    L 0%nat j - (net_error net + 1) * (e + F * reach IBP n 0 + F') <= a o j <= U 0%nat j + (net_error net + 1) * (e + F * reach IBP n 0 + F')).
  { intros e Hep. apply (rounded_network e Box n IBP z opts net v o F F' 0 r y a); auto; try exact I; try lra.
    all: first [apply (run_no_epsilon ke); [exact Hpw|exact HR]|intros Q; contradiction Q; reflexivity]. }
  destruct (G 1 ltac:(lra)) as (U & L & E & _). exists U, L. split; [exact E|]. intros j Hj. cbn [reach] in G.
  pose proof (net_error_pos net) as Kp. set (K := net_error net + 1) in *.
  assert (C : forall t, 0 < t -> L 0%nat j - K * (F + F') - t <= a o j <= U 0%nat j + K * (F + F') + t).
  { intros t Ht. destruct (G (t / K)) as (U' & L' & E' & B); [apply Rdiv_lt_0_compat; unfold K; lra|]. rewrite E in E'. injection E' as <- <-.
    specialize (B j Hj). replace (K * (t / K + F * 1 + F')) with (K * (F + F') + t) in B by (field; unfold K; lra). lra. }
  split; apply Rnot_lt_le; intros B.
  - specialize (C ((L 0%nat j - K * (F + F') - a o j) / 2) ltac:(lra)). lra.
  - specialize (C ((a o j - (U 0%nat j + K * (F + F'))) / 2) ltac:(lra)). lra.
Qed.

(** ** example: max(- x, x) on [0, 1], with - x computed by a normalisation *)
Definition abs_net : network := [(None, []); (Some (NBatchNorm [] 1 [] (-1) (Some (fun _ => -2)) None (fun _ => 0) (fun _ => 3) 1), [0%nat]); (Some (NMaximum 1 2), [1%nat; 0%nat])].
Definition abs_value (i : nat) (y : vec) : vec := match i with O => y | 1%nat => fun j => -2 * (y j - 0) / sqrt (3 + 1) + 0 | _ => fun j => Rmax (-2 * (y j - 0) / sqrt (3 + 1) + 0) (y j) end.
Definition abs_run : run := mk_run [(fun _ => unit_box 1%nat); (fun _ => unit_box 0%nat)]
  (fun i => match i with O => [(fun _ => unit_box 1%nat); (fun _ => unit_box 0%nat)] | 1%nat => [(fun _ _ => 0); (fun _ _ => -1)] | _ => [(fun _ _ => 2); (fun _ _ => -1)] end) [(fun _ _ => 2); (fun _ _ => -1)].
Definition abs_tr : nat -> nat -> list (R * R) := fun _ _ => [(2, -1)].
Lemma sqrt_4 : sqrt 4 = 2.
Proof. replace 4 with (2 * 2) by ring. apply sqrt_square. lra. Qed.
Lemma abs_ok : net_ok 1 abs_net /\ net_value abs_net abs_value /\ layers_ok IBP cancel_opts abs_net /\
  (forall i L ps, nth_error abs_net i = Some (Some L, ps) -> float_layer_linear L) /\ merges_within 0 abs_net /\ deviations_positive abs_net.
Proof.
  split; [|split; [|split; [|split; [|split]]]].
  - intros i o ps E. unfold abs_net in E. each_node E; (split; [intros p Hp; cbn in Hp; lia|]); try reflexivity; (split; [discriminate|reflexivity]).
  - intros y i o ps E. unfold abs_net in E. each_node E; cbn [abs_value]; [reflexivity| |].
    + intros p c q Hp Hq Hc. reflexivity.
    + intros j Hj. cbn. reflexivity.
  - intros i L ps E. unfold abs_net in E. each_node E; cbn -[IZR]; (split; [|exact I]); [|lia]. split; [intros; lra|right; reflexivity].
  - intros i L ps E. unfold abs_net in E. each_node E; exact I.
  - intros i L ps E HM. unfold abs_net in E. each_node E; contradiction HM; reflexivity.
  - intros i ps pre k post axis gamma beta mean var eps c E Hc. unfold abs_net in E. each_node E. replace (3 + 1) with 4 by ring. rewrite rnd_4, sqrt_4, rnd_2. lra.
Qed.
Lemma rnd_m1 : rnd32 (-1) = -1. Proof. exact rnd32_m1. Qed.
Lemma rnd_m2 : rnd32 (-2) = -2. Proof. change (-2) with (- (2)). rewrite rnd32_opp, rnd_2. reflexivity. Qed.
Lemma abs_is_run : forall ke dot, float_run_all op32 dot ke 1 cancel_opts abs_net 2 unit_box abs_tr abs_run.
Proof.
  intros ke dot. split; [reflexivity|split; [|reflexivity]]. intros i q ps E. unfold abs_net in E. each_node E; [reflexivity| |].
  - cbn [float_call float_bn map concat abs_run r_nodes app]. change (b_axis [1%nat] (-1)) with (Ok 0%nat). cbv iota beta. intros j Hj. cbn in Hj. replace j with O by lia. unfold unit_box. cbn [Nat.eqb opt_vec].
    rewrite ?(Rmax_left 0 (-2)), ?(Rmin_right 0 (-2)) by lra.
    assert (R4 : op32 (3 + 1) 4) by (apply op_at; [exact rnd_4|ring]). assert (R2 : op32 (sqrt 4) 2) by (apply op_at; [exact rnd_2|exact sqrt_4]).
    assert (Hh : rnd32 (/ 2) = / 2) by exact rnd_half. pose proof rnd32_0 as Z0. pose proof rnd32_1 as Z1. pose proof rnd_m1 as Zm.
    split; unfold fl_bn.
    + exists 1, 0, 4, 2, (/ 2), 0, 0, 0, 0. rewrite !(Rmax_left 0 (-2)), !(Rmin_right 0 (-2)) by lra. repeat (split; [first [exact R4|exact R2|apply op_at; [assumption|lra]]|]). apply op_at; [assumption|lra].
    + exists 0, 1, 4, 2, 0, (/ 2), 0, (-1), (-1). rewrite !(Rmax_left 0 (-2)), !(Rmin_right 0 (-2)) by lra. repeat (split; [first [exact R4|exact R2|apply op_at; [assumption|lra]]|]). apply op_at; [assumption|lra].
  - cbn [float_call map abs_run r_nodes]. split; [reflexivity|]. intros j Hj. replace j with O by lia. unfold neuron, abs_tr, unit_box. cbn [map nth fst snd Nat.eqb]. split; [|reflexivity]. split; [|exact I].
    exists (2, 0). unfold fl_sub, fl_add, fl_relu, fl_minus. cbn [fst snd]. rewrite (Rmax_right 0 2), (Rmax_left 0 0) by lra.
    split; split; (apply op_at; [first [exact rnd_2|exact rnd32_0|exact rnd_m1]|lra]).
Qed.
Lemma abs_errors : errors_within u32 eta32 0 0 2 (/ 1000) abs_net abs_tr abs_run.
Proof.
  assert (A1 : u32 <= / 1048576) by (unfold u32; change (/ 1048576) with (bpow radix2 (-20)); apply bpow_le; lia).
  assert (A2 : eta32 <= / 1048576) by (unfold eta32; change (/ 1048576) with (bpow radix2 (-20)); apply bpow_le; lia). pose proof u32_pos as P1. pose proof eta32_pos as P2.
  assert (A3 : eta32 <= u32) by (unfold eta32, u32; apply bpow_le; lia).
  split; [|split].
  - intros i L ps E. unfold abs_net in E. each_node E; exact I.
  - unfold float_error. cbn [Nat.add Nat.mul INR pow]. nra.
  - intros i L ps E. unfold abs_net in E. each_node E; cbn -[IZR Rplus Rmult sqrt bn_error maximum_error Rle].
    + intros a uc lc j Ha Hu Hj. replace (3 + 1) with 4 by ring. rewrite sqrt_4. cbn in Hu. injection Hu as <- <-. unfold unit_box. cbn [Nat.eqb].
      replace (1 - 0) with 1 by ring. replace (0 - 0) with 0 by ring. rewrite Rabs_R0, Rabs_R1, Rmax_left by lra. replace (Rabs (-2)) with 2 by (rewrite Rabs_left; lra).
      split; [lra|]. split; [lra|]. split; [lra|]. unfold bn_error. set (u := u32) in *. set (h := eta32) in *. cbv zeta.
      set (d := u * 1 + h). assert (0 <= d <= / 500000) by (unfold d; lra).
      set (z := ((1 + 5 * u) * d + 5 * u * 1) / 2). assert (0 <= z <= / 100000) by (unfold z; nra).
      set (e := z + u * (1 / 2 + z) + h). assert (0 <= e <= / 50000) by (unfold e; nra).
      set (p := 2 * e + u * (2 * (1 / 2 + e)) + h). assert (0 <= p <= / 20000) by (unfold p; nra).
      set (r := p + h + u * (2 * (1 / 2) + p + h) + h). assert (0 <= r <= / 10000) by (unfold r; nra). nra.
    + split.
      * intros j Hj. unfold abs_tr, neuron, unit_box. cbn [map nth Nat.eqb abs_run r_nodes]. split; repeat (apply Forall_cons || apply Forall_nil); split; cbn [fst snd]; apply le_abs; lra.
      * unfold maximum_error. nra.
Qed.
Lemma abs_example : forall ke, 0 < ke -> exists U L,
  float_run_all op32 (any_order op32 0 0) ke 1 cancel_opts abs_net 2 unit_box abs_tr abs_run /\ errors_within u32 eta32 0 0 2 (/ 1000) abs_net abs_tr abs_run /\ deviations_positive abs_net /\
  r_out abs_run = [U; L] /\ U 0%nat 0%nat = 2 /\ L 0%nat 0%nat = -1 /\
  (forall y, in_dom Box 1 unit_box y -> -1 - (net_error abs_net + 1) * / 1000 <= abs_value 2 y 0%nat <= 2 + (net_error abs_net + 1) * / 1000) /\
  (forall y, abs_value 2 y 0%nat = Rmax (- y 0%nat) (y 0%nat)).
Proof.
  intros ke Hke. destruct abs_ok as (H1 & H2 & H3 & H4 & H5 & H6). pose proof (abs_is_run ke (any_order op32 0 0)) as HR.
  destruct (all32_bounds 0 0 ke 1 cancel_opts abs_net abs_value 2 unit_box abs_tr abs_run 2 (/ 1000) ltac:(lra) ltac:(lia) H1 H2 H3 ltac:(cbn; lia) H4 H5 HR abs_errors) as (U & L & E & B).
  exists U, L. split; [exact HR|]. split; [exact abs_errors|]. split; [exact H6|]. split; [exact E|]. cbn in E. injection E as <- <-.
  split; [reflexivity|]. split; [reflexivity|]. split.
  - intros y Hy. exact (B y 0%nat Hy ltac:(cbn; lia)).
  - intros y. cbn [abs_value]. replace (3 + 1) with 4 by ring. rewrite sqrt_4. f_equal. field.
Qed.
