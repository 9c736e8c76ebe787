(** Counter-examples, errors and examples for C19-C27. *)
From Coq Require Import Reals Lra Lia Psatz List Arith Bool ZArith Sorting.Permutation.
From Verif Require Import RLib Spec Spec_Layers M_Core M_Utils M_MergeLayers M_Ops M_Layers M_Pool.
From Verif Require Import P_Core P_Utils P_MergeLayers P_UtilsThm P_Axis P_Ops P_OpsThm P_Layers P_Move P_Exact P_Pool P_Hull P_DC.
Import ListNotations.
Local Open Scope R_scope.

Local Notation sp1 := (mk_spec false AFFINE Box 1).
Definition pick (k : nat) : tensor := fun _ j => if Nat.eqb j k then 1 else 0.
Definition pick_ts (k : nat) : list tensor := [idbox 0 1; pick k; zt; pick k; zt].
Definition pick_f (k : nat) (z : vec) : vec := fun j => if Nat.eqb j k then z 0%nat else 0.
Definition unit_box : vec -> Prop := fun z => 0 <= z 0%nat <= 1.
Lemma pick_valid : forall m k, op_sp sp1 unit_box m (pick_f k) (pick_ts k).
Proof.
  intros m k. split; [reflexivity|]. cbn. split.
  - intros z Hz i Hi. replace i with 0%nat by lia. cbn. auto.
  - intros z j Hz Hj. unfold aff, dot, pick, zt, pick_f. cbn. destruct (Nat.eqb j k); lra.
Qed.

(** ** C22 *)
Lemma flatten_cf_refuted : exists f ts out z,
  op_sp sp1 unit_box 4 f ts /\ decomon_flatten sp1 true 2 2 ts = Ok out /\ unit_box z /\
  aff 1 (nth 1 out empty_tensor) (nth 2 out empty_tensor 0%nat) z 1 < f z (flatten_idx true 2 2 1).
Proof.
  exists (pick_f 2), (pick_ts 2). eexists. exists (fun _ => 1). split; [apply pick_valid|]. split; [reflexivity|]. split.
  - unfold unit_box; lra.
  - unfold aff, dot, pick_f. cbn. unfold gather, pick, zt. cbn. lra.
Qed.
Lemma dropout_errors : forall ts, decomon_dropout true ts = Err NotImplementedError.
Proof. reflexivity. Qed.
Lemma dropout_id : forall ts, decomon_dropout false ts = Ok ts.
Proof. reflexivity. Qed.
Lemma bn_training_errors : forall sp s axis gamma beta mean var eps ts, decomon_bn sp s axis gamma beta mean var eps true ts = Err NotImplementedError.
Proof. reflexivity. Qed.

(** ** C23 *)
Lemma two_lt : forall q, (q < 2)%nat -> q = 0%nat \/ q = 1%nat.
Proof. lia. Qed.
Lemma in_shape1 : forall k q, in_shape [k] q -> exists c, q = [c] /\ (c < k)%nat.
Proof. intros k q H. inversion H; subst. inversion H4; subst. eexists; split; eauto. Qed.

Lemma concat_axis_refuted : exists g out z,
  op_sp sp1 unit_box 4 (pick_f 2) (pick_ts 2) /\ op_sp sp1 unit_box 4 (pick_f 4) (pick_ts 4) /\
  concatenated [] [2%nat] [2; 2]%nat [pick_f 2; pick_f 4] g /\
  decomon_concatenate sp1 (cat_shapes [] [2%nat] [2; 2]%nat) (neg_axis [2%nat]) (concat [pick_ts 2; pick_ts 4]) = Ok out /\
  unit_box z /\
  aff 1 (nth 1 out empty_tensor) (nth 2 out empty_tensor 0%nat) z 2 < g z 2%nat.
Proof.
  exists (pick_f 2). eexists. exists (fun _ => 1). split; [apply pick_valid|]. split; [apply pick_valid|]. split; [|split; [reflexivity|split]].
  - intros z t p c q f Ht Hp Hq Hc. destruct p; [|inversion Hp]. destruct (in_shape1 _ _ Hq) as (q0 & -> & Hq0).
    destruct t as [|[|t]]; [| |destruct t; discriminate]; injection Ht as <-; cbn in Hc;
      destruct (two_lt _ Hc) as [-> | ->], (two_lt _ Hq0) as [-> | ->]; reflexivity.
  - unfold unit_box; lra.
  - unfold aff, dot, pick_f. cbn. unfold pick, zt, cat_t. cbn. lra.
Qed.

(** the blocks are ((f00,f01),(f10,f11)) and (1,0): the dot product along the last axis is (f00,f10) *)
Definition dot_ts1 : list tensor := [idbox 0 1; zt; pick 0; zt; pick 0].
Lemma dot_axis_refuted : exists g out z,
  op_sp sp1 unit_box 4 (pick_f 2) (pick_ts 2) /\ op_sp sp1 unit_box 2 (fun _ => pick 0 0%nat) dot_ts1 /\
  dotted [2%nat] [] [] [] 2 (pick_f 2) (fun _ => pick 0 0%nat) g /\
  decomon_dot sp1 [2; 2]%nat [2]%nat (pos_axis [2%nat]) (-1) (pick_ts 2 ++ dot_ts1) = Ok out /\
  unit_box z /\
  aff 1 (nth 1 out empty_tensor) (nth 2 out empty_tensor 0%nat) z 1 < g z 1%nat.
Proof.
  exists (pick_f 1). eexists. exists (fun _ => 1). split; [apply pick_valid|]. split; [|split; [|split; [|split]]].
  - split; [reflexivity|]. cbn. split.
    + intros z Hz i Hi. replace i with 0%nat by lia. cbn. auto.
    + intros z j Hz Hj. unfold aff, dot, zt. cbn. lra.
  - intros z p0 q0 p1 q1 Hp0 Hq0 Hp1 Hq1. destruct (in_shape1 _ _ Hp0) as (a & -> & Ha).
    destruct q0; [|inversion Hq0]. destruct p1; [|inversion Hp1]. destruct q1; [|inversion Hq1].
    destruct (two_lt _ Ha) as [-> | ->]; cbn; unfold pick, pick_f; cbn; lra.
  - reflexivity.
  - unfold unit_box; lra.
  - cbv -[Rmax Rmin Rplus Rmult Rminus Ropp IZR Rlt].
    repeat (match goal with |- context [Rmax ?a ?b] => first [rewrite (Rmax_left a b) by lra | rewrite (Rmax_right a b) by lra] | |- context [Rmin ?a ?b] => first [rewrite (Rmin_left a b) by lra | rewrite (Rmin_right a b) by lra] end). lra.
Qed.

Lemma dot_arity : forall sp s0 s1 a0 a1 ts, sp_dc sp = false ->
  (forall x y, split_to_merge (nb_tensors (sp_mode sp) false) ts <> [x; y]) ->
  (forall x, split_to_merge (nb_tensors (sp_mode sp) false) ts <> [x]) ->
  decomon_dot sp s0 s1 a0 a1 ts = Err NotImplementedError.
Proof.
  intros sp s0 s1 a0 a1 ts Hdc H2 H1. unfold decomon_dot. rewrite Hdc.
  destruct (split_to_merge (nb_tensors (sp_mode sp) false) ts) as [|x [|y [|w l]]]; auto.
  - destruct (H1 x eq_refl).
  - destruct (H2 x y eq_refl).
Qed.
Lemma dot_dc : forall sp s0 s1 a0 a1 ts, sp_dc sp = true -> decomon_dot sp s0 s1 a0 a1 ts = Err NotImplementedError.
Proof. intros. unfold decomon_dot. rewrite H. reflexivity. Qed.

(** ** examples *)
Lemma id_valid : forall dc, dc = false -> valid Box AFFINE dc unit_box 1 (1 * 1) (fun z => z) (id_affine 0 1).
Proof. intros. apply id_affine_valid; auto. Qed.

Lemma ex_dense : valid Box AFFINE false unit_box 1 (1 * 1) (fun z => z) (id_affine 0 1) /\
  exists out, decomon_dense sp1 1 2 (fun _ j => if Nat.eqb j 0 then 1 else -1) (Some (fun j => INR j)) false None (id_affine 0 1) = Ok out /\
    valid Box AFFINE false unit_box 1 (1 * 2) (fun z j => if Nat.eqb j 0 then z 0%nat else 1 - z 0%nat) out /\
    exact_weights AFFINE 1 (1 * 2) out.
Proof.
  split; [apply id_valid; auto|].
  destruct (dense_sound sp1 1 1 2 (fun _ j => if Nat.eqb j 0 then 1 else -1) (Some (fun j => INR j)) unit_box (fun z => z) (id_affine 0 1)) as (o & E & V); auto.
  - exact I.
  - apply id_valid; auto.
  - exists o. split; [exact E|]. split.
    + apply (op_sp_ext sp1 unit_box (1 * 2) (fun z => keras_dense 1 2 (fun _ j => if Nat.eqb j 0 then 1 else -1) (fun j => INR j) z)); [|exact V]. intros z j Hz Hj. unfold keras_dense. destruct (two_lt j Hj) as [-> | ->]; cbn; lra.
    + eapply (dense_exact sp1 1 1 2); [| |exact E]; [lia|]. cbn. auto.
Qed.

Definition ex_geo : conv_geo := mk_geo true (mk_win 2 2 1 1 true) (mk_win 2 2 1 1 true) 1 2.
Lemma ex_conv : valid Box AFFINE false unit_box 1 (im_size (cg_in ex_geo)) (pick_f 0) (pick_ts 0) /\
  im_size (cg_out ex_geo) = 8%nat /\
  exists out, decomon_conv2d sp1 ex_geo (fun ky kx c o => INR o - INR ky) None false (pick_ts 0) = Ok out.
Proof.
  split; [apply pick_valid|]. split; [reflexivity|].
  destruct (conv_sound sp1 ex_geo (fun ky kx c o => INR o - INR ky) None unit_box (pick_f 0) (pick_ts 0)) as (o & E & _).
  - cbn; lia.
  - exact I.
  - apply pick_valid.
  - exists o. exact E.
Qed.

Lemma ex_bn : valid Box AFFINE false unit_box 1 2 (pick_f 0) (pick_ts 0) /\ bn_axis [] [] (-1) /\
  exists out, decomon_bn sp1 [2]%nat (-1) (Some (fun c => 1 - 2 * INR c)) None (fun _ => 1) (fun _ => 3) 1 false (pick_ts 0) = Ok out.
Proof.
  split; [apply pick_valid|]. split; [right; reflexivity|]. eexists. reflexivity.
Qed.

Lemma ex_concat : exists out,
  valid Box AFFINE false unit_box 1 2 (pick_f 0) (pick_ts 0) /\ valid Box AFFINE false unit_box 1 1 (pick_f 1) (pick_ts 1) /\
  concatenated [] [] [2; 1]%nat [pick_f 0; pick_f 1] (pick_f 0) /\
  decomon_concatenate sp1 (cat_shapes [] [] [2; 1]%nat) (-1) (concat [pick_ts 0; pick_ts 1]) = Ok out.
Proof.
  eexists. split; [apply pick_valid|]. split; [apply pick_valid|]. split; [|reflexivity].
  intros z t p c q f Ht Hp Hq Hc. destruct p; [|inversion Hp]. destruct q; [|inversion Hq].
  destruct t as [|[|t]]; [| |destruct t; discriminate]; injection Ht as <-; cbn in Hc.
  - destruct (two_lt _ Hc) as [-> | ->]; reflexivity.
  - replace c with 0%nat by lia. reflexivity.
Qed.

Lemma ex_dot : exists out,
  valid Box AFFINE false unit_box 1 4 (pick_f 2) (pick_ts 2) /\ valid Box AFFINE false unit_box 1 2 (fun _ => pick 0 0%nat) dot_ts1 /\
  dotted [2%nat] [] [] [] 2 (pick_f 2) (fun _ => pick 0 0%nat) (pick_f 1) /\
  decomon_dot sp1 [2; 2]%nat [2]%nat (-1) (-1) (pick_ts 2 ++ dot_ts1) = Ok out.
Proof.
  destruct dot_axis_refuted as (g & out & z & V0 & V1 & _). eexists. split; [exact V0|]. split; [exact V1|]. split; [|reflexivity].
  intros z' p0 q0 p1 q1 Hp0 Hq0 Hp1 Hq1. destruct (in_shape1 _ _ Hp0) as (a & -> & Ha).
  destruct q0; [|inversion Hq0]. destruct p1; [|inversion Hp1]. destruct q1; [|inversion Hq1].
  destruct (two_lt _ Ha) as [-> | ->]; cbn; unfold pick, pick_f; cbn; lra.
Qed.

Definition pool_geo : conv_geo := mk_geo true (mk_win 1 1 1 1 false) (mk_win 2 2 1 1 false) 1 1.
Lemma ex_pool : pool_ok pool_geo /\
  valid Box AFFINE false (fun z => -1 <= z 0%nat <= 3) 1 (im_size (cg_in pool_geo)) (fun z j => if Nat.eqb j 0 then z 0%nat else - z 0%nat) pm_ts /\
  (forall fl, pool_init 1 2 = Ok fl -> pool_gaps (1/10) sp1 pool_geo fl pm_ts).
Proof.
  split; [|split].
  - repeat split; cbn; auto; lia.
  - exact pm_valid.
  - intros fl Efl. cbv -[IZR] in Efl. injection Efl as <-.
    intros r Er. cbn in Er. injection Er as <-. intros _ r ab aw Er Hab Haw. cbn in Er. injection Er as <-. cbn in Hab. injection Hab as <-. cbn in Haw. injection Haw as <-.
    cbn [ax_len nth Nat.sub seq max_loop_gaps pool_shape app]. split; [|intros; exact I].
    intros d Ed. unfold subtract in Ed. cbn [extract slice_full sp_mode f_x f_uc f_lc f_wu f_bu f_wl f_bl get_ibp get_affine when app no_dc sp_dom sp_n] in Ed.
    change (no_dc sp1) with sp1 in Ed |- *. rewrite minus_affine in Ed. cbn [bind] in Ed. rewrite add_affine in Ed by exact I. injection Ed as <-.
    intros _ r Er j Hj. erewrite full_affine in Er; [|reflexivity|reflexivity]. injection Er as <-.
    assert (j = 0)%nat by (cbn in Hj; lia). subst j.
    cbv -[Rmax Rmin Rplus Rmult Rminus Ropp IZR Rlt Rle gap_free Rdiv Rinv]. unfold gap_free. rcases.
Qed.

Lemma ex_dc : let sp := mk_spec true IBP Box 1 in
  valid Box IBP false unit_box 1 1 (fun z => z) [fun _ _ => 1; fun _ _ => 0] /\
  dc_ok unit_box 1 (fun z => z) (fun z _ _ => z 0%nat ^ 2) (fun z _ _ => z 0%nat - z 0%nat ^ 2) /\
  forall z : vec, exists out, minus sp [fun _ _ => 1; fun _ _ => 0; fun _ _ => z 0%nat ^ 2; fun _ _ => z 0%nat - z 0%nat ^ 2] = Ok out.
Proof.
  cbv zeta. split; [|split].
  - split; [reflexivity|]. intros z j Hz Hj. replace j with 0%nat by lia. destruct Hz. lra.
  - intros j Hj. replace j with 0%nat by lia. split; [|split].
    + intros z _. ring.
    + intros x y t Hx Hy Ht _. unfold comb. pose proof (Rmult_le_pos _ _ (Rmult_le_pos t (1 - t) ltac:(lra) ltac:(lra)) (pow2_ge_0 (x 0%nat - y 0%nat))). nra.
    + intros x y t Hx Hy Ht _. unfold comb. pose proof (Rmult_le_pos _ _ (Rmult_le_pos t (1 - t) ltac:(lra) ltac:(lra)) (pow2_ge_0 (x 0%nat - y 0%nat))). nra.
  - intros z. eexists. reflexivity.
Qed.

Lemma ex_constraint :
  allowed 1 1 ClipAlpha (train 1 [NonNeg; ClipAlpha] (fun _ _ => 7) [fun _ _ => -10; fun _ _ => 3]) /\
  train 1 [NonNeg; ClipAlpha] (fun _ _ => 7) [fun _ _ => -10; fun _ _ => 3] 0%nat 0%nat = 1.
Proof.
  split.
  - apply train_allowed; [cbn; auto|left; discriminate].
  - cbn. unfold Rclip. rcases.
Qed.

(** ** set_back_bounds and the order of the constraints *)
Lemma set_back_bounds_spec : forall linear built has_shape back,
  set_back_bounds linear built has_shape back = Ok back <->
  (back = true -> linear = true /\ (built = true -> has_shape = true)).
Proof.
  intros [] [] [] []; cbn; split; intros H; try reflexivity; try discriminate; try tauto; try (intros; split; congruence);
    destruct (H eq_refl) as [? K]; try discriminate; specialize (K eq_refl); discriminate.
Qed.
Lemma set_back_bounds_error : forall linear built has_shape back,
  ~ (back = true -> linear = true /\ (built = true -> has_shape = true)) ->
  set_back_bounds linear built has_shape back = Err ValueError.
Proof. intros [] [] [] [] H; cbn; try reflexivity; exfalso; apply H; intros; try discriminate; split; intros; congruence. Qed.
Lemma grid_of : forall k (w w' : mat) i q, (i < k)%nat -> (forall j, Rclip (w j q) 0 1 = Rclip (w' j q) 0 1) ->
  apply_constraint k ClipAlphaGrid w i q = apply_constraint k ClipAlphaGrid w' i q.
Proof. intros k w w' i q Hi H. cbn. rewrite (H i). rewrite (rsum_ext k (fun i' => Rclip (w i' q) 0 1) (fun i' => Rclip (w' i' q) 0 1)); [reflexivity|]. intros j _. apply H. Qed.
Lemma grid_ge0 : forall k w i q, (i < k)%nat -> 0 <= apply_constraint k ClipAlphaGrid w i q <= 1.
Proof.
  intros k w i q Hi.
  exact (grid_entries k (S q) _ (grid_allowed k (S q) w) i q Hi (Nat.lt_succ_diag_r q)).
Qed.
Lemma constraint_swap : forall k c0 c1 w i q, (i < k)%nat ->
  apply_constraint k c1 (apply_constraint k c0 w) i q = apply_constraint k c0 (apply_constraint k c1 w) i q.
Proof.
  intros k c0 c1 w i q Hi.
  assert (G : forall c, c <> ClipAlphaGrid ->
    apply_constraint k ClipAlphaGrid (apply_constraint k c w) i q = apply_constraint k c (apply_constraint k ClipAlphaGrid w) i q).
  { intros c Hc. pose proof (grid_ge0 k w i q Hi) as [B0 B1]. destruct c; try (exfalso; apply Hc; reflexivity).
    - transitivity 0.
      + cbn. assert (E : Rclip (Rmin (w i q) 0) 0 1 = 0) by (unfold Rclip; rcases).
        rewrite E. unfold Rdiv. apply Rmult_0_l.
      + change (0 = Rmin (apply_constraint k ClipAlphaGrid w i q) 0). rcases.
    - transitivity (apply_constraint k ClipAlphaGrid w i q).
      + apply grid_of; [exact Hi|]. intros j. cbn. unfold Rclip; rcases.
      + change (apply_constraint k ClipAlphaGrid w i q = Rmax (apply_constraint k ClipAlphaGrid w i q) 0). rcases.
    - transitivity (apply_constraint k ClipAlphaGrid w i q).
      + apply grid_of; [exact Hi|]. intros j. cbn. unfold Rclip; rcases.
      + change (apply_constraint k ClipAlphaGrid w i q = Rclip (apply_constraint k ClipAlphaGrid w i q) 0 1).
        symmetry. apply Rclip_id. split; assumption. }
  destruct c0, c1; try reflexivity; try (apply G; discriminate); try (symmetry; apply G; discriminate);
    cbn; unfold Rclip; rcases.
Qed.
Lemma constraints_commute : forall k c0 c1 w i q, (i < k)%nat ->
  apply_multiple k (multiple_constraint (Some c0) c1) w i q = apply_constraint k c1 (apply_constraint k c0 w) i q /\
  apply_multiple k (multiple_constraint (Some c0) c1) w i q = apply_multiple k (multiple_constraint (Some c1) c0) w i q /\
  apply_multiple k (multiple_constraint None c1) w i q = apply_constraint k c1 w i q.
Proof. intros. split; [reflexivity|]. split; [|reflexivity]. apply (constraint_swap k c0 c1 w i q); assumption. Qed.
