(** Proofs: derivatives (C07, C15), freezing of grid variables (C43), softmax put back (C41), reset_layer (C45), frac_pos_hull (C17). *)
From Coq Require Import String Reals List Arith Bool Lia Lra Permutation.
From Verif Require Import RLib Spec Spec_Layers Spec_State M_Core M_Utils M_MergeLayers M_Ops M_Layers M_Convert M_State P_SShape P_StateWeights P_StateTables.
Import ListNotations.
Local Open Scope R_scope.

(** ** Derivatives *)
Lemma relu_prime_der : forall x, x <> 0 -> derivable_pt_lim (fun t => Rmax t 0) x (relu_prime x).
Proof.
  intros x Hx eps He. assert (P : 0 < Rabs x) by (apply Rabs_pos_lt; exact Hx). exists (mkposreal _ P). intros h Hh Hb. cbn in Hb.
  destruct (Rlt_dec 0 x) as [H|H].
  - assert (E : relu_prime x = 1). { unfold relu_prime, Rclip, Rsgn. destruct (Rlt_dec 0 x); [|contradiction]. rewrite Rmax_left, Rmin_left by lra. reflexivity. }
    rewrite E. rewrite (Rabs_right x) in Hb by lra. assert (-x < h) by (revert Hb; unfold Rabs; destruct (Rcase_abs h); lra).
    rewrite !Rmax_left by lra. replace ((x + h - x) / h - 1) with 0 by (field; exact Hh). rewrite Rabs_R0. exact He.
  - assert (E : relu_prime x = 0). { unfold relu_prime, Rclip, Rsgn. destruct (Rlt_dec 0 x); [contradiction|]. destruct (Rlt_dec x 0); rewrite Rmax_right, Rmin_left by lra; reflexivity. }
    rewrite E. rewrite (Rabs_left x) in Hb by lra. assert (h < - x) by (revert Hb; unfold Rabs; destruct (Rcase_abs h); lra).
    rewrite !Rmax_right by lra. replace ((0 - 0) / h - 0) with 0 by (field; exact Hh). rewrite Rabs_R0. exact He.
Qed.
Lemma relu_prime_tangent : forall x y, Rmax x 0 + relu_prime x * (y - x) <= Rmax y 0.
Proof.
  intros x y. unfold relu_prime, Rclip, Rsgn. pose proof (Rmax_l y 0). pose proof (Rmax_r y 0). destruct (Rlt_dec 0 x).
  - rewrite (Rmax_left 1 0), Rmin_left, Rmax_left by lra. lra.
  - destruct (Rlt_dec x 0); [rewrite (Rmax_right (-1) 0), Rmin_left by lra|rewrite (Rmax_right 0 0), Rmin_left by lra]; rewrite Rmax_right by lra; lra.
Qed.
Lemma relu_prime_left : forall x, exists d, 0 < d /\ forall y, x - d <= y <= x -> Rmax y 0 = Rmax x 0 + relu_prime x * (y - x).
Proof.
  intros x. unfold relu_prime, Rclip, Rsgn. destruct (Rlt_dec 0 x).
  - exists x. split; [assumption|]. intros y Hy. rewrite (Rmax_left 1 0), Rmin_left, !Rmax_left by lra. ring.
  - exists 1. split; [lra|]. intros y Hy. destruct (Rlt_dec x 0); [rewrite (Rmax_right (-1) 0), Rmin_left by lra|rewrite (Rmax_right 0 0), Rmin_left by lra]; rewrite !Rmax_right by lra; ring.
Qed.
Lemma s_derivatives : forall x, derivable_pt_lim sigmoid x (sigmoid_prime x) /\ derivable_pt_lim tanh x (tanh_prime x) /\ derivable_pt_lim softsign x (softsign_prime x).
Proof. intros x. split; [apply (ss_der _ _ sigmoid_s)|split; [apply (ss_der _ _ tanh_s)|apply (ss_der _ _ softsign_s)]]. Qed.

(** ** Grid variables: any sequence of freeze_grid (true) and unfreeze_grid (false) *)
Lemma last_shift : forall (l : list bool) a b, last l a = last (a :: l) b.
Proof. induction l as [|x l IH]; intros a b; [reflexivity|]. transitivity (last l x); [symmetry; apply IH|]. change (last (a :: x :: l) b) with (last (x :: l) b). apply IH. Qed.
Lemma grid_restores : forall os m, not_ibp m = true ->
  Permutation (ba_tw (grid_run os (bact_init_grid false m))) (if last os false then [] else [GridNeg; GridPos]).
Proof.
  intros os m M.
  set (good := fun (f : bool) (s : bact) => ba_grid s = [GridPos; GridNeg] /\ ba_frozen_grid s = f /\ Permutation (ba_tw s) (if f then [] else [GridNeg; GridPos])).
  assert (G : forall l f s, good f s -> good (last l f) (grid_run l s)).
  { induction l as [|b l IH]; intros f s H; [exact H|]. cbn [grid_run fold_left]. replace (last (b :: l) f) with (last l b) by apply last_shift.
    apply IH. destruct H as (H1 & H2 & H3). destruct b; unfold freeze_grid, unfreeze_grid; rewrite H1, H2; destruct f; cbn; unfold good; cbn.
    - repeat split; auto.
    - repeat split. pose proof (Permutation_length H3) as L0. destruct (ba_tw s) as [|a [|c [|]]]; try discriminate L0. constructor.
    - repeat split; auto. apply Permutation_sym, Permutation_nil in H3. rewrite H3. apply perm_swap.
    - repeat split; auto. }
  specialize (G os false (bact_init_grid false m)). apply G. unfold good, bact_init_grid. rewrite M. cbn. repeat split; auto.
Qed.
Lemma grid_finetune_wrong : forall m, not_ibp m = true ->
  let l := bact_init_grid true m in
  In GridPos (ba_tw (freeze_grid l)) /\ In AlphaL (ba_tw l) /\ ~ In AlphaL (ba_tw (freeze_grid l)) /\ ~ In AlphaL (ba_tw (unfreeze_grid (freeze_grid l))) /\
  ~ NoDup (ba_tw (unfreeze_grid (freeze_grid l))).
Proof.
  intros m M. destruct m; try discriminate M; cbn; (repeat split; try (intuition discriminate); intros H; inversion H as [|? ? A B]; subst; cbn in A; tauto).
Qed.

(** ** softmax_to_linear, then linear_to_softmax *)
Lemma softmax_back : forall h r, (r < h_next h)%nat ->
  (lo_class (h_obj h r) = CSoftmax \/ lo_act (h_obj h r) = AName "softmax") ->
  let '(h', q) := softmax_to_linear h r in
  (forall s, (s < h_next h)%nat -> h_obj (linear_to_softmax h' q) s = h_obj h s) /\ lo_act (h_obj (linear_to_softmax h' q) q) = AName "softmax" /\
  (lo_class (h_obj h r) <> CSoftmax -> q = r).
Proof.
  intros h r Hr H. unfold softmax_to_linear. destruct (h_obj h r) as [nm cl ac] eqn:E. cbn [lo_class lo_act lo_name] in *.
  assert (K : forall (f : nat -> lobj) k v j, upd f k v j = if Nat.eqb j k then v else f j) by reflexivity.
  destruct cl; cbn [alloc].
  all: try (destruct H as [H|H]; [discriminate H|]; subst ac; cbn [String.eqb Ascii.eqb Bool.eqb];
    (split; [|split]); [intros s Hs|reflexivity + idtac|reflexivity];
    unfold linear_to_softmax, set_obj; cbn [h_obj lo_name lo_class]; rewrite ?K, ?Nat.eqb_refl; cbn [lo_name lo_class lo_act];
    try (destruct (Nat.eqb s r) eqn:Q; [apply Nat.eqb_eq in Q; subst s; rewrite E; reflexivity|reflexivity]); try reflexivity; intros _; reflexivity).
  unfold linear_to_softmax, set_obj. cbn [h_obj h_next]. split; [|split].
  - intros s Hs. rewrite !K. destruct (Nat.eqb s (h_next h)) eqn:Q; [apply Nat.eqb_eq in Q; lia|]. reflexivity.
  - rewrite !K, !Nat.eqb_refl. reflexivity.
  - intros C. contradiction C. reflexivity.
Qed.
Lemma softmax_forced : forall h r, lo_act (h_obj h r) = AName "linear" -> lo_class (h_obj h r) <> CSoftmax ->
  softmax_to_linear h r = (h, r) /\ lo_act (h_obj (linear_to_softmax h r) r) = AName "softmax".
Proof.
  intros h r H C. split.
  - unfold softmax_to_linear. rewrite H. destruct (lo_class (h_obj h r)); try reflexivity. contradiction C. reflexivity.
  - unfold linear_to_softmax, set_obj. cbn [h_obj]. unfold upd. rewrite Nat.eqb_refl. reflexivity.
Qed.

(** ** DecomonLayer.reset_layer *)
Lemma decomon_reset : forall st new orig names, (names <> [] -> wl_built orig = true /\ wl_built new = true) -> NoDup (wl_weights new) ->
  (forall n, In n names -> has_weight orig n /\ has_weight new n) ->
  (forall n, In n names -> tv_shape (st (ov new n)) = tv_shape (st (ov orig n))) ->
  exists st', decomon_reset_layer st new orig names = Ok st' /\
    (forall v n, last_name new v names = Some n -> st' v = st (ov orig n)) /\
    (forall v, (forall n, In n names -> wl_attr new n <> Some v) -> st' v = st v).
Proof.
  intros st new orig names Hb Hnd Hw Hs. destruct names as [|n0 names].
  - exists st. split; [reflexivity|]. split; [intros v n E; discriminate E|reflexivity].
  - destruct (Hb ltac:(discriminate)) as [B1 B2]. exact (reset_ok st new orig (n0 :: names) B1 B2 Hnd Hw Hs).
Qed.

Lemma frac_hull_raises : forall sp ts l, frac_pos_hull sp ts <> Ok l.
Proof. intros sp ts l. unfold frac_pos_hull. destruct (get_fullinputs sp true true ts); discriminate. Qed.
