(** Statements of C11-C18 assembled from the lemmas, counter-examples and examples. *)
From Coq Require Import Reals Lra Lia Psatz List Arith Bool ZArith Sorting.Sorted Sorting.Permutation.
From Verif Require Import RLib Spec M_Core M_Utils M_MergeLayers M_Ops P_Core P_Utils P_MergeLayers P_UtilsThm P_Axis P_Ops P_Sort P_Act P_SShape.
Import ListNotations.
Local Open Scope R_scope.

(** ** interval mode needs no width condition *)
Lemma max_ibp : forall ke sp S pre k post axis ft f g ts,
  0 < ke -> (0 < sp_n sp)%nat -> sp_mode sp = IBP -> (0 < k)%nat ->
  axis_ok (sp_mode sp) pre post axis -> along_axis rmax pre k post f g ->
  ft_ok (prodn (pre ++ k :: post)) ft ->
  op_sp sp S (prodn (pre ++ k :: post)) f ts ->
  exists out, op_max ke sp (pre ++ k :: post) axis ft ts = Ok out /\ op_sp sp S (prodn (pre ++ post)) g out.
Proof.
  intros. eapply max_sound; eauto. rewrite H1. exact I. intros K. contradiction.
Qed.
Lemma min_ibp : forall ke sp S pre k post axis ft f g ts,
  0 < ke -> (0 < sp_n sp)%nat -> sp_mode sp = IBP -> sp_dc sp = false -> (0 < k)%nat ->
  axis_ok (sp_mode sp) pre post axis -> along_axis rmin pre k post f g ->
  ft_ok (prodn (pre ++ k :: post)) ft ->
  op_sp sp S (prodn (pre ++ k :: post)) f ts ->
  exists out, op_min ke sp (pre ++ k :: post) axis ft ts = Ok out /\ op_sp sp S (prodn (pre ++ post)) g out.
Proof.
  intros. eapply min_sound; eauto. rewrite H1. exact I.
  unfold op_min_gaps. intros. intros K. exfalso. apply K. cbn. auto.
Qed.
Lemma sort_ibp : forall ke sp S pre k post axis (f g : vec -> vec) ts,
  0 < ke -> (0 < sp_n sp)%nat -> sp_mode sp = IBP -> sp_dc sp = false -> (0 < k)%nat ->
  axis_ok (sp_mode sp) pre post axis ->
  (forall z p q, in_shape pre p -> in_shape post q ->
     StronglySorted Rle (line g pre k post z p q) /\ Permutation (line g pre k post z p q) (line f pre k post z p q)) ->
  op_sp sp S (prodn (pre ++ k :: post)) f ts ->
  exists out, op_sort ke sp (pre ++ k :: post) axis ts = Ok out /\ op_sp sp S (prodn (pre ++ k :: post)) g out.
Proof.
  intros. eapply sort_sound; eauto. rewrite H1. exact I. intros K. contradiction.
Qed.

(** ** C11 *)
Lemma ex_multiply :
  op_sp sp1 (fun z => -2 <= z 0%nat <= 3) 1 (fun z => z) (id_affine (-2) 3) /\
  exists out, multiply sp1 (id_affine (-2) 3) (id_affine (-2) 3) = Ok out.
Proof.
  split; [apply id_affine_valid; auto|].
  destruct (multiply_sound sp1 (fun z => -2 <= z 0%nat <= 3) 1 (fun z => z) (fun z => z) (id_affine (-2) 3) (id_affine (-2) 3)) as (o & Eo & _); auto.
  - exact I.
  - apply id_affine_valid; auto.
  - apply id_affine_valid; auto.
  - exists o. auto.
Qed.

(** ** C12 *)
Definition pick1 : tensor := fun _ j => if Nat.eqb j 1 then 1 else 0.
Definition zt : tensor := fun _ _ => 0.

Lemma sum_negative_axis_refuted :
  exists f g ts out z, along_axis rsum [] 2 [2]%nat f g /\
    op_sp sp1 (fun z => 0 <= z 0%nat <= 1) 4 f ts /\ op_sum sp1 [2; 2]%nat (neg_axis [2%nat]) ts = Ok out /\
    0 <= z 0%nat <= 1 /\
    aff 1 (nth 1 out empty_tensor) (nth 2 out empty_tensor 0%nat) z 1 < g z 1%nat.
Proof.
  exists (fun z j => if Nat.eqb j 1 then z 0%nat else 0), (fun z j => if Nat.eqb j 1 then z 0%nat else 0).
  exists [idbox 0 1; pick1; zt; pick1; zt].
  eexists. exists (fun _ => 1). split; [|split; [|split; [reflexivity|split]]].
  - intros z p q Hp Hq. destruct p; [|inversion Hp]. destruct q as [|q [|]]; try (inversion Hq; fail).
    2:{ inversion Hq; subst. inversion H4. }
    assert (q < 2)%nat by (inversion Hq; auto). destruct q as [|[|]]; [| |lia]; cbn; lra.
  - split; [reflexivity|]. cbn. split.
    + intros z Hz i Hi. replace i with 0%nat by lia. cbn. auto.
    + intros z j Hz Hj. unfold aff, dot, pick1, zt. cbn. destruct (Nat.eqb j 1); lra.
  - lra.
  - unfold aff, dot. cbn. unfold red_axis, slice. cbn. unfold pick1, zt. cbn. lra.
Qed.

Definition pm : tensor := fun _ j => if Nat.eqb j 0 then 1 else -1.
Definition pm_ts : list tensor := [idbox (-1) 3; pm; zt; pm; zt].
Lemma pm_valid : op_sp sp1 (fun z => -1 <= z 0%nat <= 3) 2 (fun z j => if Nat.eqb j 0 then z 0%nat else - z 0%nat) pm_ts.
Proof.
  split; [reflexivity|]. cbn. split.
  - intros z Hz i Hi. replace i with 0%nat by lia. cbn. auto.
  - intros z j Hz Hj. unfold aff, dot, pm, zt. cbn. destruct (Nat.eqb j 0); lra.
Qed.

Lemma ex_max :
  op_sp sp1 (fun z => -1 <= z 0%nat <= 3) 2 (fun z j => if Nat.eqb j 0 then z 0%nat else - z 0%nat) pm_ts /\
  along_axis rmax [] 2 [] (fun z j => if Nat.eqb j 0 then z 0%nat else - z 0%nat) (fun z j => Rabs (z 0%nat)) /\
  axis_ok AFFINE [] [] (-1) /\
  op_max_gaps (1/10) sp1 [2]%nat (-1) None pm_ts 1.
Proof.
  split; [exact pm_valid|]. split; [|split].
  - intros z p q Hp Hq. destruct p; [|inversion Hp]. destruct q; [|inversion Hq]. cbn.
    unfold rmax, Rmax, Rabs. cbn. unfold Rmax. destruct (Rle_dec _ _), (Rcase_abs _); lra.
  - right. split; auto.
  - intros _ r ab aw Er Hab Haw. cbn in Er. injection Er as <-. cbn in Hab. injection Hab as <-. cbn in Haw. injection Haw as <-.
    cbn [ax_len nth Nat.sub seq max_loop_gaps]. split; [|auto].
    intros d Ed. unfold subtract in Ed. cbn [extract slice_full sp_mode f_x f_uc f_lc f_wu f_bu f_wl f_bl get_ibp get_affine when app no_dc sp_dom sp_n] in Ed.
    change (no_dc sp1) with sp1 in Ed |- *. rewrite minus_affine in Ed. cbn [bind] in Ed. rewrite add_affine in Ed by exact I. injection Ed as <-.
    intros _ r Er j Hj. erewrite full_affine in Er; [|reflexivity|reflexivity]. injection Er as <-.
    cbn [f_uc f_lc]. unfold vt, get_upper_box, get_lower_box, tadd, topp, slice. cbn. assert (j = 0)%nat by lia. subst j.
    cbn. unfold pm. cbn. unfold gap_free, zt. rcases.
Qed.

(** ** C13 *)
Lemma ex_sort :
  op_sp (mk_spec false IBP Box 1) (fun z => -1 <= z 0%nat <= 3) 2 (fun z j => if Nat.eqb j 0 then z 0%nat else - z 0%nat)
    [fun _ j => if Nat.eqb j 0 then 3 else 1; fun _ j => if Nat.eqb j 0 then -1 else -3] /\
  forall z p q, in_shape [] p -> in_shape [] q ->
    StronglySorted Rle (line (fun z j => if Nat.eqb j 0 then - Rabs (z 0%nat) else Rabs (z 0%nat)) [] 2 [] z p q) /\
    Permutation (line (fun z j => if Nat.eqb j 0 then - Rabs (z 0%nat) else Rabs (z 0%nat)) [] 2 [] z p q)
      (line (fun z j => if Nat.eqb j 0 then z 0%nat else - z 0%nat) [] 2 [] z p q).
Proof.
  split.
  - split; [reflexivity|]. intros z j Hz Hj. cbn. destruct (Nat.eqb j 0); lra.
  - intros z p q Hp Hq. destruct p; [|inversion Hp]. destruct q; [|inversion Hq]. unfold line. cbn.
    pose proof (Rabs_pos (z 0%nat)). split.
    + apply SSorted_cons; [apply SSorted_cons; [apply SSorted_nil|apply Forall_nil]|]. apply Forall_cons; [lra|apply Forall_nil].
    + unfold Rabs. destruct (Rcase_abs _).
      * rewrite Ropp_involutive. apply Permutation_refl.
      * apply perm_swap.
Qed.

(** ** C14 *)
Lemma ex_exp_log : intervals (wide (1/10)) sp1 1 (id_affine 1 2) /\
  (forall r, get_fullinputs sp1 true true (id_affine 1 2) = Ok r ->
     forall j, (j < 1)%nat -> log_dom (1/10) AFFINE (f_uc r 0%nat j) (f_lc r 0%nat j)) /\
  op_sp sp1 (fun z => 1 <= z 0%nat <= 2) 1 (fun z => z) (id_affine 1 2).
Proof.
  split; [|split].
  - intros _ r Er j Hj. rewrite id_full in Er. injection Er as <-. cbn. unfold vt, wide. lra.
  - intros r Er j Hj. rewrite id_full in Er. injection Er as <-. cbn. unfold vt, log_dom. lra.
  - apply id_affine_valid; auto.
Qed.

(** ** C15 *)
Lemma ex_s_shape : forall F F', s_shape F F' ->
  intervals (both_sides F F' (1/10)) sp1 1 (id_affine 1 2) /\ intervals (both_sides F F' (1/10)) sp1 1 (id_affine (-2) (-1)).
Proof.
  intros F F' H. split; intros _ r Er j Hj; rewrite id_full in Er; injection Er as <-; cbn; unfold vt;
  apply (one_sided F F' H); unfold wide; lra.
Qed.

(** same-sign intervals, in all modes *)
Lemma s_shape_one_sided : forall F F', s_shape F F' -> forall ke sp S m f ts,
  0 < ke -> (0 < sp_n sp)%nat -> dom_ok (sp_dom sp) (sp_mode sp) -> sp_dc sp = false ->
  op_sp sp S m f ts ->
  intervals (fun u l => wide ke u l /\ (u < 0 \/ 0 < l)) sp m ts ->
  (exists z, S z) ->
  exists out, op_s_shape ke sp F F' ts = Ok out /\ op_sp sp S m (fun z j => F (f z j)) out.
Proof.
  intros F F' HS ke sp S m f ts Hke Hn Hd Hdc H Hi [z0 Hz0]. apply s_shape_sound; auto.
  intros Hm r Er j Hj. specialize (Hi Hm r Er j Hj) as [Hw Hs]. apply one_sided; auto.
  destruct (get_full_sound sp true true S m f ts Hn Hd H) as (r' & E' & C & _).
  rewrite Er in E'. injection E' as <-. rewrite orb_true_r in C. specialize (C eq_refl z0 j Hz0 Hj). lra.
Qed.

(** ** C17 *)
Lemma softmax_refuted : forall ke, exists ts out z,
  op_sp (mk_spec false IBP Box 1) (fun z => True) 2 (fun z j => if Nat.eqb j 0 then 0 else ln 2) ts /\
  softmax ke (mk_spec false IBP Box 1) [2]%nat ts = Ok out /\
  nth 0 out empty_tensor 0%nat 1%nat <
    exp ((fun j => if Nat.eqb j 0 then 0 else ln 2) 1%nat) /
    rsum 2 (fun c => exp ((fun (z : vec) j => if Nat.eqb j 0 then 0 else ln 2) z c)).
Proof.
  intros ke. exists [(fun _ j => if Nat.eqb j 0 then 0 else ln 2); (fun _ j => if Nat.eqb j 0 then 0 else ln 2)].
  assert (V : op_sp (mk_spec false IBP Box 1) (fun z => True) (prodn ([] ++ [2%nat])) (fun z j => if Nat.eqb j 0 then 0 else ln 2)
    [(fun _ j => if Nat.eqb j 0 then 0 else ln 2); (fun _ j => if Nat.eqb j 0 then 0 else ln 2)]).
  { split; [reflexivity|]. intros z j Hz Hj. cbn. destruct (Nat.eqb j 0); lra. }
  eexists. exists (fun _ => 0). split; [exact V|]. split; [reflexivity|].
  cbn. unfold ew, red_axis, slice. cbn. unfold vt. cbn.
  rewrite Ropp_0, exp_0, exp_Ropp, exp_ln by lra.
  replace (1 / (0 + 1 + / 2)) with (2/3) by lra.
  replace (/ 2 * (2 / 3)) with (1/3) by lra. replace (2 / 3 * / 2) with (1/3) by lra.
  rewrite ?(Rmax_left (1/3) (1/3)), ?(Rmin_left (1/3) (1/3)) by lra.
  replace (1/3 + 1/3 - 1/3) with (1/3) by lra.
  rewrite ?(Rmax_left (1/3) (1/3)), ?(Rmin_left (1/3) (1/3)), ?(Rmin_left (1/3) 1), ?(Rmax_left (1/3) 0) by lra. lra.
Qed.

(** ** C18 *)
Lemma abs_refuted : forall ke, exists ts u' l' z,
  op_sp (mk_spec false IBP Box 1) (fun z => -2 <= z 0%nat <= -1) 1 (fun z => z) ts /\
  op_abs ke (mk_spec false IBP Box 1) ts = Ok [u'; l'] /\ -2 <= z 0%nat <= -1 /\ u' 0%nat 0%nat < Rabs (z 0%nat).
Proof.
  intros ke. destruct (abs_ibp ke Box 1 (fun _ _ => -1) (fun _ _ => -2)) as (u' & l' & E & Eu & _).
  exists [(fun _ _ => -1); (fun _ _ => -2)], u', l', (fun _ => -1). split; [|split; [exact E|split; [lra|]]].
  - split; [reflexivity|]. intros z j Hz Hj. replace j with 0%nat by lia. cbn. lra.
  - rewrite Eu, Rabs_left; lra.
Qed.

(** ** C15: the three activations *)
Definition s_activations : list ((R -> R) * (R -> R)) :=
  [(fun x => / (1 + exp (- x)), sigmoid_prime); (tanh, tanh_prime); (fun x => x / (1 + Rabs x), softsign_prime)].
Lemma s_activations_ok : forall F F', In (F, F') s_activations -> s_shape F F'.
Proof.
  intros F F' [E|[E|[E|[]]]]; injection E as <- <-; [exact sigmoid_s|exact tanh_s|exact softsign_s].
Qed.

Lemma act_ibp : forall F F', In (F, F') s_activations -> forall ke sp S m f ts,
  (0 < sp_n sp)%nat -> sp_mode sp = IBP -> sp_dc sp = false -> op_sp sp S m f ts ->
  exists out, op_s_shape ke sp F F' ts = Ok out /\ op_sp sp S m (fun z j => F (f z j)) out.
Proof. intros. apply s_shape_ibp; auto. apply s_activations_ok; auto. Qed.

Lemma act_one_sided : forall F F', In (F, F') s_activations -> forall ke sp S m f ts,
  0 < ke -> (0 < sp_n sp)%nat -> dom_ok (sp_dom sp) (sp_mode sp) -> sp_dc sp = false ->
  op_sp sp S m f ts ->
  intervals (fun u l => wide ke u l /\ (u < 0 \/ 0 < l)) sp m ts -> (exists z, S z) ->
  exists out, op_s_shape ke sp F F' ts = Ok out /\ op_sp sp S m (fun z j => F (f z j)) out.
Proof. intros. apply s_shape_one_sided; auto. apply s_activations_ok; auto. Qed.

Lemma act_chord : forall F F', In (F, F') s_activations -> forall ke sp S m f ts,
  0 < ke -> (0 < sp_n sp)%nat -> dom_ok (sp_dom sp) (sp_mode sp) -> sp_dc sp = false ->
  op_sp sp S m f ts -> intervals (both_sides F F' ke) sp m ts ->
  exists out, op_s_shape ke sp F F' ts = Ok out /\ op_sp sp S m (fun z j => F (f z j)) out.
Proof. intros. apply s_shape_sound; auto. apply s_activations_ok; auto. Qed.

Lemma act_crossing_refuted : forall F F', In (F, F') s_activations -> forall ke a b, 0 < ke -> ke <= - a -> ke <= b ->
  op_sp sp1 (fun z => a <= z 0%nat <= b) 1 (fun z => z) (id_affine a b) /\
  (upper_fails (op_s_shape ke sp1 F F') F a b \/ lower_fails (op_s_shape ke sp1 F F') F a b).
Proof.
  intros. split; [apply id_affine_valid; auto|]. apply s_shape_crossing_refuted; auto. apply s_activations_ok; auto.
Qed.

Lemma ex_id_ibp : op_sp (mk_spec false IBP Box 1) (fun z => -1 <= z 0%nat <= 3) 1 (fun z => z) (id_ibp (-1) 3).
Proof. split; [reflexivity|]. intros z j Hz Hj. replace j with 0%nat by lia. cbn. lra. Qed.
