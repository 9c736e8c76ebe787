(** Examples and refutations for C46-C54, and the functions on sequences of Dense and relu layers. *)
From Coq Require Import Reals Lra Lia List Arith Bool ZArith.
From Verif Require Import RLib Spec Spec_State M_Core M_State M_Wrapper Spec_Wrapper P_Core P_BackwardMore P_StateDomain P_Wrapper P_WrapperRefine P_WrapperAdv P_WrapperAdvBox P_WrapperLabels P_WrapperBox P_WrapperNoise P_WrapperTune.
Import ListNotations.
Local Open Scope R_scope.

(** ** Sequences of Dense and relu layers *)

Lemma reset_same : forall D mode n ops, same_type D D = true -> set_domain (new_model D mode n ops) D = Ok (new_model D mode n ops).
Proof. intros D mode n ops T. unfold set_domain. cbn [new_model dm_domain]. rewrite T. unfold new_model. cbn [dm_mode dm_n dm_input dm_layers]. rewrite map_map. reflexivity. Qed.

Theorem seq_sound_on : forall ke mode n k ops p, 0 < ke -> (0 < n)%nat -> ops_dim n ops k -> input_gaps ke (new_model Box mode n ops) (ztensor p) ->
  sound_on (seq_model ke Box mode n k ops) (ops_fn ops) p.
Proof.
  intros ke mode n k ops p Hke Hn Hd G. destruct (set_domain_box ke [] mode n ops (new_model Box mode n ops) k (ztensor p) Hke Hn Hd eq_refl G) as (out & E & V).
  exists mode, out, false. split; [destruct mode; reflexivity|]. split.
  - cbn [seq_model wm_predict wm_domain]. rewrite reset_same by reflexivity. exact E.
  - unfold wm_k. cbn [seq_model wm_out wm_n prodn]. rewrite Nat.mul_1_r. exact V.
Qed.

Lemma ibp_gaps : forall ke D n ops z, input_gaps ke (new_model D IBP n ops) z.
Proof. intros ke D n ops z its _. cbn [new_model dm_mode dm_n dm_layers]. change (map (fun o => mk_dlayer o D D) ops) with (map (lay D D) ops). apply run_gaps_ibp. Qed.

(** C49 from end to end, in ibp mode *)
Theorem seq_range_box : forall ke n k ops xmin xmax bs ns, 0 < ke -> ops_dim n ops k -> boxes_ok n xmin xmax -> consistent n xmin xmax -> small ns ->
  exists u l, get_range_box (Keras (seq_model ke Box IBP n k ops)) xmin xmax bs ns = Ok (u, l) /\ alen u = alen xmin /\ alen l = alen xmin /\
    forall b z j, (b < alen xmin)%nat -> in_sample n (the_box xmin xmax b) z -> (j < k)%nat -> cell l b j <= ops_fn ops z j <= cell u b j.
Proof.
  intros ke n k ops xmin xmax bs ns Hke Hd BO C NS.
  destruct (range_box_sound (Keras (seq_model ke Box IBP n k ops)) (ops_fn ops) xmin xmax bs ns eq_refl eq_refl BO C NS) as (u & l & E & _ & _ & LU & LL & H).
  { intros b _. apply seq_sound_on; [exact Hke|apply BO|exact Hd|apply ibp_gaps]. }
  exists u, l. split; [exact E|]. split; [exact LU|]. split; [exact LL|]. intros b z j Hb Hz Hj. apply H; [exact Hb|exact Hz|]. unfold wm_k. cbn. rewrite Nat.mul_1_r. exact Hj.
Qed.

(** C46 from end to end, in ibp mode *)
Theorem seq_adv_box : forall ke n k ops xmin xmax src tgt bs ns, let a := Keras (seq_model ke Box IBP n k ops) in
  0 < ke -> ops_dim n ops k -> adv_args a xmin xmax src tgt -> small ns ->
  exists r, get_adv_box a xmin xmax (LArr src) (option_map LArr tgt) bs ns = Ok r /\ length r = alen xmin /\
    forall b z, (b < alen xmin)%nat -> in_sample n (the_box xmin xmax b) z -> nth b r 0 < 0 -> no_attack k (pair_of src tgt b) (ops_fn ops) z.
Proof.
  intros ke n k ops xmin xmax src tgt bs ns a Hke Hd A NS.
  destruct (adv_box_sound a (ops_fn ops) xmin xmax src tgt bs ns A eq_refl NS) as (r & E & L & H).
  { intros b _. apply seq_sound_on; [exact Hke|apply A|exact Hd|apply ibp_gaps]. }
  exists r. split; [exact E|]. split; [exact L|]. intros b z Hb Hz Hr. destruct (H b z Hb Hz) as [_ X]. specialize (X Hr). unfold wm_k in X. cbn in X. rewrite Nat.mul_1_r in X. exact X.
Qed.

(** C52, C53 from end to end: a ball not larger than the one of the clone *)
Theorem seq_sound_around : forall ke eps0 eps p n k ops c, 0 < ke -> (0 < n)%nat -> ops_dim n ops k -> norm_ok (Ball eps0 p) -> eps <= eps0 ->
  let m := with_domain (Decomon (seq_model ke (Ball eps0 p) IBP n k ops)) (Ball eps p) in sound_around m (ops_fn ops) (in_ball n p eps (lvec c)) c.
Proof.
  intros ke eps0 eps p n k ops c Hke Hn Hd NO Hle m.
  assert (SD : exists d, set_domain (new_model (Ball eps0 p) IBP n ops) (Ball eps p) = Ok d /\ dm_domain d = Ball eps p) by (eexists; split; reflexivity).
  destruct SD as (d & SD & DD).
  assert (SDS : set_domains [Ball eps p] (new_model (Ball eps0 p) IBP n ops) = Ok d) by (unfold set_domains; cbn [M_MergeLayers.foldR]; rewrite SD; reflexivity).
  destruct (set_domain_ibp ke [Ball eps p] eps0 p eps n ops d k (xtensor c) Hke Hn Hd NO SDS DD Hle) as (out & E & V).
  exists IBP, out, false. split; [reflexivity|]. split.
  - unfold m. cbn [with_domain wm_predict wm_domain seq_model]. rewrite SD. exact E.
  - unfold m, wm_k. cbn [with_domain wm_out wm_n wm_domain seq_model prodn]. rewrite Nat.mul_1_r. rewrite DD in V. exact V.
Qed.

(** ** Concrete models *)

(** (z, c) *)
Definition two (c : R) : list dop := [DDense 1 2 (fun _ j => if (j =? 0)%nat then 1 else 0) (Some (fun j => if (j =? 0)%nat then 0 else c))].
Definition M2 (mode : fmode) (c : R) : wmodel := seq_model (1 / 10) Box mode 1 2 (two c).
Definition one : list dop := [DDense 1 1 (fun _ _ => 1) None].
Definition M1 (mode : fmode) : wmodel := seq_model (1 / 10) Box mode 1 1 one.

Lemma two_dim : forall c, ops_dim 1 (two c) 2. Proof. intro c. cbn. auto. Qed.
Lemma two_gaps : forall ke D mode c z, input_gaps ke (new_model D mode 1 (two c)) z. Proof. intros ke D mode c z its _. cbn [new_model dm_mode dm_n dm_layers two map run_gaps dl_op]. intros ts' _. exact I. Qed.
Lemma one_gaps : forall ke D mode z, input_gaps ke (new_model D mode 1 one) z. Proof. intros ke D mode z its _. cbn [new_model dm_mode dm_n dm_layers one map run_gaps dl_op]. intros ts' _. exact I. Qed.
Lemma two_fn : forall c z, ops_fn (two c) z 0%nat = z 0%nat /\ ops_fn (two c) z 1%nat = c.
Proof. intros c z. cbv -[Rmax Rmin Rplus Rmult Rminus Ropp IZR Rlt Rle Rdiv Rinv]. split; lra. Qed.
Lemma one_fn : forall z, ops_fn one z 0%nat = z 0%nat.
Proof. intros z. cbv -[Rmax Rmin Rplus Rmult Rminus Ropp IZR Rlt Rle Rdiv Rinv]. lra. Qed.
Lemma M2_sound : forall mode c p, sound_on (M2 mode c) (ops_fn (two c)) p.
Proof. intros mode c p. apply seq_sound_on; [lra|lia|apply two_dim|apply two_gaps]. Qed.
Lemma M1_sound : forall mode p, sound_on (M1 mode) (ops_fn one) p.
Proof. intros mode p. apply seq_sound_on; [lra|lia|cbn; auto|apply one_gaps]. Qed.

(** the boxes [lo, hi], one for each sample; axes of length one *)
Definition boxes (t : list nat) (l : list R) : arr R := mk_arr t (map (fun v => [v]) l).
Definition lab (l : list (list Z)) : arr Z := mk_arr [2%nat] l.

Ltac crunch := cbv -[Rmax Rmin Rplus Rmult Rminus Ropp IZR Rlt Rle Rdiv Rinv Rlt_dec Rle_dec Rabs sqrt];
  repeat match goal with |- context [Rlt_dec ?a ?b] => destruct (Rlt_dec a b); try (exfalso; lra) | |- context [Rle_dec ?a ?b] => destruct (Rle_dec a b); try (exfalso; lra) end.

Lemma unit_ok : forall t, boxes_ok 1 (boxes t [0]) (boxes t [1]) /\ consistent 1 (boxes t [0]) (boxes t [1]).
Proof.
  intro t. split; [repeat split; try (cbn; lia); repeat constructor|]. intros [|b] [|i] Hb Hi; cbn in *; try lia; lra.
Qed.
Lemma unit_in : forall t v, 0 <= v <= 1 -> in_sample 1 (the_box (boxes t [0]) (boxes t [1]) 0) (fun _ => v).
Proof. intros t v H [|i] Hi; [cbn; lra|lia]. Qed.

(** C49: two outputs and sub-boxes *)
Lemma range_sub_refuted : exists u l z, let m := M2 IBP (-10) in
  (forall p, sound_on m (ops_fn (two (-10))) p) /\ get_range_box (Keras m) (boxes [1%nat] [0]) (boxes [1%nat] [1]) (-1) 2 = Ok (u, l) /\
  in_sample 1 (the_box (boxes [1%nat] [0]) (boxes [1%nat] [1]) 0) z /\ cell u 0 0 < ops_fn (two (-10)) z 0%nat.
Proof.
  eexists _, _, (fun _ => 1). split; [intro p; apply M2_sound|]. split; [crunch; reflexivity|]. split; [apply unit_in; lra|].
  rewrite (proj1 (two_fn _ _)). cbv -[Rmax Rmin Rplus Rmult Rminus Ropp IZR Rlt Rle Rdiv Rinv]. rminmax; lra.
Qed.

(** C49: inputs with several axes and sub-boxes *)
Lemma range_axes_refuted : exists u l z, 
  (forall p, sound_on (M1 IBP) (ops_fn one) p) /\ get_range_box (Keras (M1 IBP)) (boxes [1%nat; 1%nat] [0]) (boxes [1%nat; 1%nat] [1]) (-1) 2 = Ok (u, l) /\
  in_sample 1 (the_box (boxes [1%nat; 1%nat] [0]) (boxes [1%nat; 1%nat] [1]) 0) z /\ cell u 0 0 < ops_fn one z 0%nat.
Proof.
  eexists _, _, (fun _ => 1). split; [intro p; apply M1_sound|]. split; [crunch; reflexivity|]. split; [apply unit_in; lra|].
  rewrite one_fn. cbv -[Rmax Rmin Rplus Rmult Rminus Ropp IZR Rlt Rle Rdiv Rinv]. rminmax; lra.
Qed.

(** C50: inputs with several axes *)
Lemma refine_axes_refuted : exists a c z, let lo := boxes [1%nat; 1%nat] [0] in let hi := boxes [1%nat; 1%nat] [1] in
  boxes_ok 1 lo hi /\ consistent 1 lo hi /\ refine_boxes lo hi 2 = Ok (a, c) /\ a_tail a = [2; 1; 1]%nat /\
  in_sample 1 (the_box lo hi 0) z /\ forall i, (i < 2)%nat -> ~ in_sample 1 (sub_box 1 a c 0 i) z.
Proof.
  eexists _, _, (fun _ => 1). split; [apply unit_ok|]. split; [apply unit_ok|]. split; [reflexivity|]. split; [reflexivity|]. split; [apply unit_in; lra|].
  intros [|[|i]] Hi X; [| |lia]; specialize (X 0%nat ltac:(lia)); revert X; cbv -[Rmax Rmin Rplus Rmult Rminus Ropp IZR Rlt Rle Rdiv Rinv]; lra.
Qed.

(** C46: inputs with several axes and sub-boxes *)
Lemma adv_axes_refuted : exists r z, let m := M2 IBP (1/2) in let lo := boxes [1%nat; 1%nat] [0] in let hi := boxes [1%nat; 1%nat] [1] in let src := lab [[0; 1]]%Z in
  adv_args (Keras m) lo hi src None /\ (forall p, sound_on m (ops_fn (two (1/2))) p) /\ get_adv_box (Keras m) lo hi (LArr src) None (-1) 2 = Ok r /\ nth 0 r 0 < 0 /\
  in_sample 1 (the_box lo hi 0) z /\ pair_of src None 0 0 1 /\ ops_fn (two (1/2)) z 1%nat < ops_fn (two (1/2)) z 0%nat.
Proof.
  eexists _, (fun _ => 1). split.
  { split; [reflexivity|]. split; [cbn; lia|]. split; [apply unit_ok|]. split; [apply unit_ok|]. split; [|exact I]. split; [reflexivity|]. split; [repeat constructor|].
    intros [|b] [|[|j]] Hb Hj; cbn in *; try lia; auto. }
  split; [intro p; apply M2_sound|]. split; [crunch; reflexivity|]. split; [cbv -[Rmax Rmin Rplus Rmult Rminus Ropp IZR Rlt Rle Rdiv Rinv]; rminmax; lra|].
  split; [apply unit_in; lra|]. split; [split; reflexivity|]. rewrite (proj1 (two_fn _ _)), (proj2 (two_fn _ _)). lra.
Qed.

(** C47: two samples and two classes: class 0 certified, class 1 predicted everywhere *)
Lemma int_label_refuted : exists r, let m := M2 IBP 2 in let lo := boxes [1%nat] [0; 0] in let hi := boxes [1%nat] [1; 1] in
  boxes_ok 1 lo hi /\ consistent 1 lo hi /\ (forall p, sound_on m (ops_fn (two 2)) p) /\ get_adv_box (Keras m) lo hi (LInt 0) None (-1) 1 = Ok r /\
  forall b z, (b < 2)%nat -> in_sample 1 (the_box lo hi b) z -> nth b r 0 < 0 /\ ops_fn (two 2) z 0%nat < ops_fn (two 2) z 1%nat.
Proof.
  eexists. split; [repeat split; try (cbn; lia); repeat constructor|]. split; [intros [|[|b]] [|i] Hb Hi; cbn in *; try lia; lra|].
  split; [intro p; apply M2_sound|]. split; [crunch; reflexivity|].
  intros b z Hb Z. assert (z 0%nat <= 1) by (specialize (Z 0%nat ltac:(lia)); destruct b as [|[|b]]; [| |lia]; cbn in Z; lra). split.
  - destruct b as [|[|b]]; [| |lia]; cbv -[Rmax Rmin Rplus Rmult Rminus Ropp IZR Rlt Rle Rdiv Rinv]; rminmax; lra.
  - rewrite (proj1 (two_fn _ _)), (proj2 (two_fn _ _)). lra.
Qed.

(** C48: correct but loose bounds of (z, 1/2) on [0, 1] *)
Definition loose (mode : fmode) : wmodel :=
  let u : tensor := fun _ j => if (j =? 0)%nat then 1 else 1/2 in let l : tensor := fun _ j => if (j =? 0)%nat then 0 else 1/2 in
  mk_wmodel Box (match mode with AFFINE => false | _ => true end) (match mode with IBP => false | _ => true end) false 1 [2%nat]
    (fun _ x _ => Ok (match mode with IBP => [u; l] | AFFINE => [x; zero_t; u; zero_t; l] | HYBRID => [x; u; zero_t; u; l; zero_t; l] end)).
Lemma loose_sound : forall mode t, check_ok (loose mode) (ops_fn (two (1/2))) (the_box (boxes t [0]) (boxes t [1]) 0).
Proof.
  intros mode t. eexists mode, _. split; [destruct mode; reflexivity|]. split; [reflexivity|].
  assert (X : forall z j, in_sample 1 (the_box (boxes t [0]) (boxes t [1]) 0) z -> (j < 2)%nat -> 0 <= z 0%nat <= 1).
  { intros z j Z _. specialize (Z 0%nat ltac:(lia)). cbn in Z. lra. }
  split; [|destruct mode; cbn; auto; intros [|i] Hi; cbn; auto; lia].
  split; [destruct mode; reflexivity|].
  assert (Y : forall z j, in_sample 1 (the_box (boxes t [0]) (boxes t [1]) 0) z -> (j < 2)%nat -> (if (j =? 0)%nat then 0 else 1/2) <= ops_fn (two (1/2)) z j <= (if (j =? 0)%nat then 1 else 1/2)).
  { intros z [|[|j]] Z Hj; [| |lia]; specialize (X z 0%nat Z ltac:(lia)); cbn [Nat.eqb]; [rewrite (proj1 (two_fn _ _))|rewrite (proj2 (two_fn _ _))]; lra. }
  assert (ID : forall z, in_sample 1 (the_box (boxes t [0]) (boxes t [1]) 0) z -> in_dom Box 1 (ztensor (the_box (boxes t [0]) (boxes t [1]) 0)) z) by (intros z Z; exact Z).
  assert (CO : const_ok (in_sample 1 (the_box (boxes t [0]) (boxes t [1]) 0)) 2 (ops_fn (two (1/2))) (fun j => if (j =? 0)%nat then 1 else 1/2) (fun j => if (j =? 0)%nat then 0 else 1/2)).
  { intros z j Z Hj. specialize (Y z j Z Hj). lra. }
  assert (AO : affine_ok (in_sample 1 (the_box (boxes t [0]) (boxes t [1]) 0)) 1 2 (ops_fn (two (1/2))) zero_t (fun j => if (j =? 0)%nat then 1 else 1/2) zero_t (fun j => if (j =? 0)%nat then 0 else 1/2)).
  { intros z j Z Hj. specialize (Y z j Z Hj). cbv [aff dot rsum zero_t]. lra. }
  destruct mode; [exact CO|split; [exact ID|exact AO]|split; [exact ID|split; [exact CO|exact AO]]].
Qed.
Lemma check_refuted : forall mode, exists r z, let m := loose mode in let lo := boxes [1%nat] [0] in let hi := boxes [1%nat] [1] in let src := lab [[0; 1]]%Z in
  adv_args (Keras m) lo hi src None /\ check_ok m (ops_fn (two (1/2))) (the_box lo hi 0) /\ check_adv_box (Keras m) lo hi (LArr src) None (-1) = Ok r /\ nth 0 r 0 < 0 /\
  in_sample 1 (the_box lo hi 0) z /\ pair_of src None 0 0 1 /\ ops_fn (two (1/2)) z 1%nat < ops_fn (two (1/2)) z 0%nat.
Proof.
  intro mode. eexists _, (fun _ => 1). split.
  { split; [reflexivity|]. split; [cbn; lia|]. split; [apply unit_ok|]. split; [apply unit_ok|]. split; [|exact I]. split; [reflexivity|]. split; [repeat constructor|].
    intros [|b] [|[|j]] Hb Hj; cbn in *; try lia; auto. }
  split; [apply loose_sound|]. split; [destruct mode; crunch; reflexivity|]. split; [destruct mode; cbv -[Rmax Rmin Rplus Rmult Rminus Ropp IZR Rlt Rle Rdiv Rinv]; rminmax; lra|].
  split; [apply unit_in; lra|]. split; [split; reflexivity|]. rewrite (proj1 (two_fn _ _)), (proj2 (two_fn _ _)). lra.
Qed.

(** C52, C53: a ball larger than the one of the clone, in ibp mode *)
Definition B2 : wmodel := seq_model (1 / 10) (Ball 1 Pinf) IBP 1 2 (two (3/2)).
Lemma noise_stale_refuted : exists u l z, get_range_noise (Decomon B2) (boxes [1%nat] [0]) 2 Pinf (-1) = Ok (u, l) /\
  in_ball 1 Pinf 2 (lvec (point (boxes [1%nat] [0]) 0)) z /\ cell u 0 0 < ops_fn (two (3/2)) z 0%nat.
Proof.
  eexists _, _, (fun _ => 2). split; [unfold get_range_noise; rewrite noise_model_ok by (reflexivity || lra); crunch; reflexivity|]. split.
  - intros [|i] Hi; [|lia]. cbn. rewrite Rabs_right; lra.
  - rewrite (proj1 (two_fn _ _)). cbv -[Rmax Rmin Rplus Rmult Rminus Ropp IZR Rlt Rle Rdiv Rinv]. rminmax; lra.
Qed.
Lemma adv_noise_stale_refuted : exists r z, let src := lab [[0; 1]]%Z in get_adv_noise (Decomon B2) (boxes [1%nat] [0]) (LArr src) 2 Pinf None (-1) = Ok r /\ nth 0 r 0 < 0 /\
  in_ball 1 Pinf 2 (lvec (point (boxes [1%nat] [0]) 0)) z /\ pair_of src None 0 0 1 /\ ops_fn (two (3/2)) z 1%nat < ops_fn (two (3/2)) z 0%nat.
Proof.
  eexists _, (fun _ => 2). split; [unfold get_adv_noise; rewrite noise_model_ok by (reflexivity || lra); crunch; reflexivity|]. split; [cbv -[Rmax Rmin Rplus Rmult Rminus Ropp IZR Rlt Rle Rdiv Rinv]; rminmax; lra|]. split.
  - intros [|i] Hi; [|lia]. cbn. rewrite Rabs_right; lra.
  - split; [split; reflexivity|]. rewrite (proj1 (two_fn _ _)), (proj2 (two_fn _ _)). lra.
Qed.

(** C52: a negative radius keeps the domain of the model but not its radius *)
Definition B1 : wmodel := seq_model (1 / 10) (Ball 1 Pinf) AFFINE 1 1 one.
Lemma noise_negative_refuted : exists u l z, wm_domain B1 = Ball 1 Pinf /\ get_range_noise (Decomon B1) (boxes [1%nat] [0]) (-1) Pinf (-1) = Ok (u, l) /\
  in_ball 1 Pinf 1 (lvec (point (boxes [1%nat] [0]) 0)) z /\ cell u 0 0 < ops_fn one z 0%nat < cell l 0 0.
Proof.
  eexists _, _, (fun _ => 0). split; [reflexivity|]. split; [unfold get_range_noise; cbn [noise_model]; destruct (Rle_dec 0 (-1)) as [X|X]; [exfalso; lra|clear X]; crunch; reflexivity|]. split.
  - intros [|i] Hi; [|lia]. cbn. rewrite Rabs_right; lra.
  - rewrite one_fn. cbv -[Rmax Rmin Rplus Rmult Rminus Ropp IZR Rlt Rle Rdiv Rinv Rabs]. rewrite (Rmax_right 0 1), (Rmin_left 0 1) by lra. rewrite !Rabs_right by lra. lra.
Qed.

(** C54: bounds [-1, 1] of zero, [-2, 2] with the coefficients reached by the training *)
Definition zbox (r : R) : wmodel := mk_wmodel Box true false false 1 [1%nat] (fun _ _ _ => Ok [(fun _ _ => r); (fun _ _ => - r)]).
Definition T2 (r : R) : tuner bool := mk_tuner (fun b : bool => zbox (if b then r else 1)) (fun _ _ _ => true) (fun _ => false).
Lemma zbox_sound : forall r p, 0 <= r -> sound_on (zbox r) (fun _ _ => 0) p.
Proof. intros r p H. eexists IBP, _, false. split; [reflexivity|]. split; [reflexivity|]. split; [reflexivity|]. intros z j _ _. cbn. lra. Qed.
Lemma T2_on : forall r P, 0 <= r -> tuner_on (T2 r) false (fun _ _ => 0) P.
Proof. intros r P H. split; [|reflexivity]. intros q m. repeat split. intros p _. apply zbox_sound. destruct q; lra. Qed.
Lemma lower_tuning_refuted : exists r p r0, tuner_ok (T2 2) false (fun _ _ => 0) (boxes [1%nat] [0]) (boxes [1%nat] [1]) /\
  box_tuning true (T2 2) false (boxes [1%nat] [0]) (boxes [1%nat] [1]) (-1) 1 = Ok (r, p) /\
  api_lower_box (Decomon (tu_ev (T2 2) false)) (boxes [1%nat] [0]) (boxes [1%nat] [1]) (-1) 1 = Ok r0 /\ cell r 0 0 < cell r0 0 0.
Proof.
  eexists _, _, _. split; [apply T2_on; lra|]. split; [crunch; reflexivity|]. split; [crunch; reflexivity|].
  cbv -[Rmax Rmin Rplus Rmult Rminus Ropp IZR Rlt Rle Rdiv Rinv]. rminmax; lra.
Qed.
(** better coefficients are lost *)
Lemma lower_tuning_lost_refuted : exists r p l, box_tuning true (T2 0) false (boxes [1%nat] [0]) (boxes [1%nat] [1]) (-1) 1 = Ok (r, p) /\
  api_lower_box (Decomon (tu_ev (T2 0) true)) (boxes [1%nat] [0]) (boxes [1%nat] [1]) (-1) 1 = Ok l /\ cell r 0 0 < cell l 0 0.
Proof.
  eexists _, _, _. split; [crunch; reflexivity|]. split; [crunch; reflexivity|]. cbv -[Rmax Rmin Rplus Rmult Rminus Ropp IZR Rlt Rle Rdiv Rinv]. rminmax; lra.
Qed.

(** ** Hypotheses met *)
Lemma ex_adv : let m := M2 HYBRID 2 in let lo := boxes [1%nat] [0; 1/2] in let hi := boxes [1%nat] [1; 3] in let src := lab [[0; 1]; [0; 1]]%Z in
  adv_args (Keras m) lo hi src None /\ wm_bb m = false /\ (forall p, sound_on m (ops_fn (two 2)) p) /\ a_tail lo = [wm_n m] /\
  (forall b, (b < 2)%nat -> pair_of src None b 0 1).
Proof.
  split; [|split; [reflexivity|split; [intro p; apply M2_sound|split; [reflexivity|intros [|[|b]] Hb; [split; reflexivity|split; reflexivity|lia]]]]].
  split; [reflexivity|]. split; [cbn; lia|]. split; [repeat split; try (cbn; lia); repeat constructor|].
  split; [intros [|[|b]] [|i] Hb Hi; cbn in *; try lia; lra|]. split; [|exact I]. split; [reflexivity|]. split; [repeat constructor|].
  intros [|[|b]] [|[|j]] Hb Hj; cbn in *; try lia; auto.
Qed.
(** a certificate *)
Lemma ex_certificate : exists r, get_adv_box (Keras (M2 IBP 2)) (boxes [1%nat] [0]) (boxes [1%nat] [1]) (LArr (lab [[0; 1]]%Z)) None (-1) 1 = Ok r /\ nth 0 r 0 = -1.
Proof. eexists. split; [crunch; reflexivity|]. cbv -[Rmax Rmin Rplus Rmult Rminus Ropp IZR Rlt Rle Rdiv Rinv]. rminmax; lra. Qed.
Lemma ex_range_sub : exists u l, get_range_box (Keras (M1 IBP)) (boxes [1%nat] [0]) (boxes [1%nat] [1]) (-1) 2 = Ok (u, l) /\ cell u 0 0 = 1 /\ cell l 0 0 = 0.
Proof. eexists _, _. split; [crunch; reflexivity|]. cbv -[Rmax Rmin Rplus Rmult Rminus Ropp IZR Rlt Rle Rdiv Rinv]. split; rminmax; lra. Qed.
Lemma ex_refine : let lo := mk_arr [2%nat] [[0; 0]] in let hi := mk_arr [2%nat] [[4; 1]] in boxes_ok 2 lo hi /\ consistent 2 lo hi /\ a_tail lo = [2%nat].
Proof. split; [repeat split; try (cbn; lia); repeat constructor|]. split; [|reflexivity]. intros [|b] [|[|i]] Hb Hi; cbn in *; try lia; lra. Qed.
Lemma ex_noise : let x := boxes [1%nat] [0] in takes_domain (Decomon B2) (Ball 1 Pinf) /\ points_ok 1 x /\ known_norm Pinf /\
  sound_around (with_domain (Decomon B2) (Ball 1 Pinf)) (ops_fn (two (3/2))) (in_ball 1 Pinf 1 (lvec (point x 0))) (point x 0) /\
  noise_args B2 x (lab [[0; 1]]%Z) None 1 Pinf.
Proof.
  assert (S : sound_around (with_domain (Decomon B2) (Ball 1 Pinf)) (ops_fn (two (3/2))) (in_ball 1 Pinf 1 (lvec (point (boxes [1%nat] [0]) 0))) (point (boxes [1%nat] [0]) 0)).
  { apply seq_sound_around; [lra|lia|apply two_dim|exact I|lra]. }
  split; [reflexivity|]. split; [repeat split; try (cbn; lia); repeat constructor|]. split; [right; right; reflexivity|]. split; [exact S|].
  split; [lra|]. split; [reflexivity|]. split; [cbn; lia|]. split; [repeat split; try (cbn; lia); repeat constructor|]. split.
  { split; [reflexivity|]. split; [repeat constructor|]. intros [|b] [|[|j]] Hb Hj; cbn in *; try lia; auto. }
  split; [exact I|]. intros [|b] Hb; [|cbn in Hb; lia]. destruct S as (mode & ts & dc & A & B & V). exists mode, ts. split; [exact A|]. split; [exact B|]. exists dc. apply V.
Qed.
Lemma ex_noise_certificate : exists r, get_adv_noise (Decomon B2) (boxes [1%nat] [0]) (LArr (lab [[0; 1]]%Z)) 1 Pinf None (-1) = Ok r /\ nth 0 r 0 < 0.
Proof. eexists. split; [unfold get_adv_noise; rewrite noise_model_ok by (reflexivity || lra); crunch; reflexivity|]. cbv -[Rmax Rmin Rplus Rmult Rminus Ropp IZR Rlt Rle Rdiv Rinv]. rminmax; lra. Qed.
Lemma ex_tuning : tuner_ok (T2 2) false (fun _ _ => 0) (boxes [1%nat] [0]) (boxes [1%nat] [1]) /\ tuner_sub_ok (T2 2) false (fun _ _ => 0) (boxes [1%nat] [0]) (boxes [1%nat] [1]).
Proof. split; apply T2_on; lra. Qed.
(** back bounds *)
Definition bmodel : wmodel := mk_wmodel Box true false true 1 [2%nat]
  (fun _ _ C => match C with Some C => let v : tensor := fun _ j => rsum 2 (fun i => INR i * C i j) in Ok [v; v] | None => Err ValueError end).
Lemma ex_back : let f : vec -> vec := fun _ j => INR j in let src := lab [[0; 1]]%Z in
  adv_args (Keras bmodel) (boxes [1%nat] [0]) (boxes [1%nat] [1]) src None /\ one_hot 2 (nth 0 (a_rows src) []) 1 /\
  sound_back bmodel f (the_box (boxes [1%nat] [0]) (boxes [1%nat] [1]) 0) (back_matrix (nth 0 (a_rows src) [])).
Proof.
  split; [|split].
  - split; [reflexivity|]. split; [cbn; lia|]. split; [apply unit_ok|]. split; [apply unit_ok|]. split; [|exact I]. split; [reflexivity|]. split; [repeat constructor|].
    intros [|b] [|[|j]] Hb Hj; cbn in *; try lia; auto.
  - split; [lia|]. split; [reflexivity|]. intros [|[|j]] Hj; [reflexivity|reflexivity|lia].
  - eexists IBP, _, false. split; [reflexivity|]. split; [reflexivity|]. split; [reflexivity|]. intros z j _ _. cbn. lra.
Qed.
