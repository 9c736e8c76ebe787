(** Statements of C07-C10 assembled from the lemmas, counter-examples and examples. *)
From Coq Require Import Reals Lra Lia Psatz List Arith Bool.
From Verif Require Import RLib Spec M_Core M_Utils M_MergeLayers P_Core P_Utils P_MergeLayers.
Import ListNotations.
Local Open Scope R_scope.

Definition coef_ok (ft : option R) : Prop := match ft with Some g => 0 <= g <= 1 | None => True end.

Lemma relu_hull : forall ke sl ft u l z, 0 < ke -> l <= z <= u -> gap_free ke u l -> coef_ok ft ->
  exists h, get_linear_hull_relu ke sl false ft u l = Ok h /\
    h_wl h * z + h_bl h <= Rmax z 0 <= h_wu h * z + h_bu h.
Proof.
  intros. eexists. split; [reflexivity|]. split.
  - apply hull_relu_lower; auto.
  - apply hull_relu_upper; auto.
Qed.

Lemma relu_hull_slack : forall ke sl ft u l z, 0 < ke -> l <= z <= u -> coef_ok ft ->
  exists h, get_linear_hull_relu ke sl false ft u l = Ok h /\
    h_wl h * z + h_bl h <= Rmax z 0 <= h_wu h * z + h_bu h + ke.
Proof.
  intros. eexists. split; [reflexivity|]. split.
  - apply hull_relu_lower; auto.
  - apply hull_relu_upper_slack; auto.
Qed.

(** the lines are exact outside the crossing case *)
Lemma relu_hull_exact : forall ke sl ft u l, l <= u -> u <= 0 \/ 0 <= l ->
  exists h, get_linear_hull_relu ke sl false ft u l = Ok h /\
    forall z, l <= z <= u -> h_wl h * z + h_bl h = Rmax z 0 /\ h_wu h * z + h_bu h = Rmax z 0.
Proof.
  intros ke sl ft u l Hlu H. eexists. split; [reflexivity|]. intros z Hz.
  destruct (Rle_dec 0 l) as [Hl|Hl].
  - rewrite hull_relu_linear by auto. cbn. split; rcases.
  - rewrite hull_relu_dead by lra. cbn. split; rcases.
Qed.

(** the upper line is the chord: it meets relu at both ends *)
Lemma relu_hull_chord : forall ke sl ft u l, 0 < ke -> l < 0 -> 0 < u -> ke <= u - l -> coef_ok ft ->
  exists h, get_linear_hull_relu ke sl false ft u l = Ok h /\
    h_wu h * l + h_bu h = 0 /\ h_wu h * u + h_bu h = u.
Proof.
  intros ke sl ft u l Hke Hl Hu Hg Hft. eexists. split; [reflexivity|].
  destruct (hull_relu_cross ke sl ft u l) as (A & B & _); auto.
  rewrite A, B, Rmax_right by lra. split; field; lra.
Qed.

Lemma relu_hull_refuted : forall ke sl ft, 0 < ke -> coef_ok ft ->
  exists u l z h, l <= z <= u /\ get_linear_hull_relu ke sl false ft u l = Ok h /\
    h_wu h * z + h_bu h < Rmax z 0.
Proof.
  intros ke sl ft Hke Hft. exists (ke/4), (-(ke/4)), (ke/4).
  eexists. split; [lra|]. split; [reflexivity|].
  apply hull_relu_gap_unsound; auto; lra.
Qed.

Lemma relu_hull_grid : forall ke sl ft u l, get_linear_hull_relu ke sl true ft u l = Err NotImplementedError.
Proof. reflexivity. Qed.

Lemma ex_relu_hull : gap_free (1/10) 3 (-1) /\
  exists h, get_linear_hull_relu (1/10) V_SLOPE false None 3 (-1) = Ok h /\
    h_wu h = 3/4 /\ h_bu h = 3/4 /\ h_wl h = 1 /\ h_bl h = 0.
Proof.
  split; [unfold gap_free; lra|]. eexists. split; [reflexivity|].
  destruct (hull_relu_cross (1/10) V_SLOPE None 3 (-1)) as (A & B & _ & D); try lra; auto.
  rewrite A, B, D. rewrite Rmax_right by lra.
  assert (E : h_wl (hull_relu (1/10) V_SLOPE None 3 (-1)) = 1).
  { unfold hull_relu. cbn. rewrite index_linear_0, index_dead_0 by lra.
    rewrite Rsgn_pos by lra. unfold Rclip. rcases. }
  rewrite E. repeat split; lra.
Qed.

(** ** forward relu *)

Lemma relu_ibp : forall ke sp sl ft S m f ts,
  0 < ke -> (0 < sp_n sp)%nat -> sp_mode sp = IBP -> ft_ok m ft ->
  op_sp sp S m f ts ->
  exists out, relu_ ke sp sl ft ts = Ok out /\ op_sp sp S m (fun z j => Rmax (f z j) 0) out.
Proof.
  intros. apply relu_sound; auto.
  - rewrite H1. exact I.
  - apply gaps_ok_ibp; auto.
Qed.

Lemma relu_slack : forall ke sp sl ft S m f ts,
  0 < ke -> (0 < sp_n sp)%nat -> dom_ok (sp_dom sp) (sp_mode sp) -> ft_ok m ft ->
  op_sp sp S m f ts ->
  exists out, relu_ ke sp sl ft ts = Ok out /\
    op_sp sp S m (fun z j => Rmax (f z j) 0) (loosen (sp_mode sp) ke out).
Proof.
  intros ke sp sl ft S m f ts Hke Hn Hd Hft H.
  destruct (get_full_sound sp true true S m f ts Hn Hd H) as (r & E & C & A).
  unfold relu_. rewrite E. cbn [bind]. eexists. split; [reflexivity|].
  rewrite orb_true_r in C. specialize (C eq_refl).
  set (hl := fun j => hull_relu ke sl (option_map (fun v : vec => v j) ft) (f_uc r 0%nat j) (f_lc r 0%nat j)).
  assert (G : get_affine (sp_mode sp) = true -> affine_ok S (sp_n sp) m (fun z j => Rmax (f z j) 0)
      (fun i j => h_wu (hl j) * f_wu r i j) (fun j => h_wu (hl j) * f_bu r 0%nat j + (h_bu (hl j) + ke))
      (fun i j => h_wl (hl j) * f_wl r i j) (fun j => h_wl (hl j) * f_bl r 0%nat j + h_bl (hl j))).
  { intros Ha. destruct (A Ha) as [X B].
    apply (hull_affine_sound S (sp_n sp) m f _ (f_wu r) (f_bu r 0%nat) (f_wl r) (f_bl r 0%nat)
       (fun j => mk_hull (h_wu (hl j)) (h_bu (hl j) + ke) (h_wl (hl j)) (h_bl (hl j)))); auto.
    intros z j Hz Hj. cbn [h_wu h_bu h_wl h_bl]. specialize (C z j Hz Hj). pose proof (ft_ok_at m ft j Hft Hj) as F.
    destruct (hull_relu_weights ke sl (option_map (fun v : vec => v j) ft) (f_uc r 0%nat j) (f_lc r 0%nat j) Hke ltac:(lra) F) as [W1 W2].
    pose proof (hull_relu_lower ke sl _ _ _ (f z j) Hke C F).
    pose proof (hull_relu_upper_slack ke sl _ _ _ (f z j) Hke C F).
    cbv zeta in *. unfold hl, Rrelu in *. lra. }
  assert (K : const_ok S m (fun z j => Rmax (f z j) 0) (fun j => Rrelu (f_uc r 0%nat j)) (fun j => Rrelu (f_lc r 0%nat j))).
  { intros z j Hz Hj. specialize (C z j Hz Hj). split; apply Rrelu_le; lra. }
  assert (G' : get_affine (sp_mode sp) = true -> affine_ok S (sp_n sp) m (fun z j => Rmax (f z j) 0)
      (fun i j => h_wu (hl j) * f_wu r i j) (fun j => h_wu (hl j) * f_bu r 0%nat j + h_bu (hl j) + ke)
      (fun i j => h_wl (hl j) * f_wl r i j) (fun j => h_wl (hl j) * f_bl r 0%nat j + h_bl (hl j))).
  { intros Ha z j Hz Hj. specialize (G Ha z j Hz Hj). unfold aff in *. lra. }
  unfold op_sp, valid. destruct (sp_mode sp) eqn:Em.
  - split; [|unfold relu_full; rewrite Em; destruct (sp_dc sp); cbn; exact K].
    unfold relu_full; rewrite Em; destruct (sp_dc sp); reflexivity.
  - split; [unfold relu_full; rewrite Em; destruct (sp_dc sp); reflexivity|].
    unfold relu_full; rewrite Em; destruct (sp_dc sp); cbn; (split; [apply (A eq_refl)|exact (G' eq_refl)]).
  - split; [unfold relu_full; rewrite Em; destruct (sp_dc sp); reflexivity|].
    unfold relu_full; rewrite Em; destruct (sp_dc sp); cbn; (split; [apply (A eq_refl)|split; [exact K | exact (G' eq_refl)]]).
Qed.

(** identity bounds on a one-dimensional box *)
Definition idbox (a b : R) : tensor := fun c _ => match c with O => a | _ => b end.
Definition id_affine (a b : R) : list tensor :=
  [idbox a b; fun _ _ => 1; fun _ _ => 0; fun _ _ => 1; fun _ _ => 0].

Lemma id_affine_valid : forall a b dc, dc = false ->
  valid Box AFFINE dc (fun z => a <= z 0%nat <= b) 1 1 (fun z => z) (id_affine a b).
Proof.
  intros a b dc ->. split; [reflexivity|]. cbn. split.
  - intros z Hz i Hi. replace i with 0%nat by lia. cbn. auto.
  - intros z j Hz Hj. replace j with 0%nat by lia. unfold aff, dot. cbn. lra.
Qed.

Lemma relu_refuted : forall ke sl, 0 < ke ->
  exists sp S f ts out z, sp_mode sp = AFFINE /\ norm_ok (sp_dom sp) /\ (0 < sp_n sp)%nat /\
    op_sp sp S 1 f ts /\ relu_ ke sp sl None ts = Ok out /\ S z /\
    aff (sp_n sp) (nth 1 out empty_tensor) (nth 2 out empty_tensor 0%nat) z 0%nat < Rmax (f z 0%nat) 0.
Proof.
  intros ke sl Hke.
  exists (mk_spec false AFFINE Box 1), (fun z => -(ke/4) <= z 0%nat <= ke/4), (fun z => z), (id_affine (-(ke/4)) (ke/4)).
  eexists. exists (fun _ => ke/4). cbn [sp_mode sp_dom sp_n norm_ok].
  split; [reflexivity|]. split; [exact I|]. split; [lia|]. split; [apply id_affine_valid; auto|].
  split; [reflexivity|]. split; [lra|].
  unfold aff, dot. cbn -[hull_relu Rrelu].
  unfold vt. cbn -[hull_relu Rrelu].
  rewrite !(Rmax_left 1 0), !(Rmin_right 1 0) by lra.
  replace (0 + (1 * (ke / 4) + 0 * - (ke / 4)) + 0) with (ke/4) by lra.
  replace (0 + (1 * - (ke / 4) + 0 * (ke / 4)) + 0) with (-(ke/4)) by lra.
  pose proof (hull_relu_gap_unsound ke sl None (ke/4) (-(ke/4)) Hke ltac:(lra) ltac:(lra) ltac:(lra) I) as G.
  cbv zeta in G. unfold Rrelu in G. lra.
Qed.

Lemma ex_relu : op_sp (mk_spec false AFFINE Box 1) (fun z => -1 <= z 0%nat <= 3) 1 (fun z => z) (id_affine (-1) 3) /\
  gaps_ok (1/10) (mk_spec false AFFINE Box 1) 1 (id_affine (-1) 3).
Proof.
  split; [apply id_affine_valid; auto|]. intros _ r Hr j Hj.
  cbn in Hr. injection Hr as <-. cbn. unfold vt. rewrite !(Rmax_left 1 0), !(Rmin_right 1 0) by lra. unfold gap_free. lra.
Qed.

(** ** explicit results in affine mode *)

Definition tadd (a b : tensor) : tensor := fun i j => a i j + b i j.
Definition topp (a : tensor) : tensor := fun i j => - a i j.

Lemma full_affine : forall D n (x wu bu wl bl : tensor) ua la,
  get_upper D n false x wu (bu 0%nat) no_kw = Ok ua -> get_lower D n false x wl (bl 0%nat) no_kw = Ok la ->
  get_fullinputs (mk_spec false AFFINE D n) true true [x; wu; bu; wl; bl] =
  Ok (mk_full x (vt ua) wu bu (vt la) wl bl empty_tensor empty_tensor).
Proof.
  intros D n x wu bu wl bl ua la Hu Hl. unfold get_fullinputs, complete.
  cbn [unpack sp_mode sp_dc sp_dom sp_n bind mode_eqb andb orb f_x f_wu f_bu f_wl f_bl f_h f_g].
  rewrite Hu, Hl. reflexivity.
Qed.

Lemma add_affine : forall D n (x0 wu0 bu0 wl0 bl0 x1 wu1 bu1 wl1 bl1 : tensor), norm_ok D ->
  add (mk_spec false AFFINE D n) [x0; wu0; bu0; wl0; bl0] [x1; wu1; bu1; wl1; bl1] =
  Ok [x0; tadd wu0 wu1; tadd bu0 bu1; tadd wl0 wl1; tadd bl0 bl1].
Proof.
  intros. unfold add.
  destruct (get_upper_ok D n x0 wu0 (bu0 0%nat) H) as [u0 E0]. destruct (get_lower_ok D n x0 wl0 (bl0 0%nat) H) as [l0 F0].
  destruct (get_upper_ok D n x1 wu1 (bu1 0%nat) H) as [u1 E1]. destruct (get_lower_ok D n x1 wl1 (bl1 0%nat) H) as [l1 F1].
  rewrite (full_affine D n x0 wu0 bu0 wl0 bl0 u0 l0 E0 F0), (full_affine D n x1 wu1 bu1 wl1 bl1 u1 l1 E1 F1). reflexivity.
Qed.

Lemma minus_affine : forall D n (x wu bu wl bl : tensor),
  minus (mk_spec false AFFINE D n) [x; wu; bu; wl; bl] = Ok [x; topp wl; topp bl; topp wu; topp bu].
Proof. reflexivity. Qed.

Lemma relu_affine : forall ke sl ft D n (x wu bu wl bl : tensor) ua la,
  get_upper D n false x wu (bu 0%nat) no_kw = Ok ua -> get_lower D n false x wl (bl 0%nat) no_kw = Ok la ->
  let hl j := hull_relu ke sl (option_map (fun v : vec => v j) ft) (ua j) (la j) in
  relu_ ke (mk_spec false AFFINE D n) sl ft [x; wu; bu; wl; bl] =
  Ok [x; (fun i j => h_wu (hl j) * wu i j); (fun i j => h_wu (hl j) * bu i j + h_bu (hl j));
         (fun i j => h_wl (hl j) * wl i j); (fun i j => h_wl (hl j) * bl i j + h_bl (hl j))].
Proof.
  intros ke sl ft D n x wu bu wl bl ua la Hu Hl hl. unfold relu_.
  rewrite (full_affine D n x wu bu wl bl ua la Hu Hl). reflexivity.
Qed.

(** ** maximum: the same failure, through relu_ *)
Lemma maximum_refuted : forall ke, 0 < ke ->
  exists sp S f0 f1 in0 in1 out z, sp_mode sp = AFFINE /\ norm_ok (sp_dom sp) /\ (0 < sp_n sp)%nat /\
    op_sp sp S 1 f0 in0 /\ op_sp sp S 1 f1 in1 /\ maximum ke sp None in0 in1 = Ok out /\ S z /\
    aff (sp_n sp) (nth 1 out empty_tensor) (nth 2 out empty_tensor 0%nat) z 0%nat < Rmax (f0 z 0%nat) (f1 z 0%nat).
Proof.
  intros ke Hke.
  exists (mk_spec false AFFINE Box 1), (fun z => -(ke/4) <= z 0%nat <= ke/4), (fun _ _ => 0), (fun z => z).
  exists [idbox (-(ke/4)) (ke/4); fun _ _ => 0; fun _ _ => 0; fun _ _ => 0; fun _ _ => 0], (id_affine (-(ke/4)) (ke/4)).
  eexists. exists (fun _ => ke/4). cbn [sp_mode sp_dom sp_n norm_ok].
  split; [reflexivity|]. split; [exact I|]. split; [lia|]. split.
  { split; [reflexivity|]. cbn. split.
    - intros z Hz i Hi. replace i with 0%nat by lia. cbn. auto.
    - intros z j Hz Hj. unfold aff, dot. cbn. lra. }
  split; [apply id_affine_valid; auto|].
  split.
  { unfold maximum, subtract, id_affine. rewrite minus_affine. cbn [bind].
    rewrite add_affine by exact I. cbn [bind].
    erewrite relu_affine by reflexivity. cbn [bind]. rewrite add_affine by exact I. reflexivity. }
  split; [lra|].
  unfold aff, dot. cbn [nth rsum]. unfold tadd, topp, get_upper_box, get_lower_box. cbn [rsum option_map idbox].
  replace (1 + - 0) with 1 by lra.
  rewrite !(Rmax_left 1 0), !(Rmin_right 1 0) by lra.
  replace (0 + (1 * (ke / 4) + 0 * - (ke / 4)) + (0 + - 0)) with (ke/4) by lra.
  replace (0 + (1 * - (ke / 4) + 0 * (ke / 4)) + (0 + - 0)) with (-(ke/4)) by lra.
  pose proof (hull_relu_gap_unsound ke V_SLOPE None (ke/4) (-(ke/4)) Hke ltac:(lra) ltac:(lra) ltac:(lra) I) as G.
  cbv zeta in G. unfold Rrelu in G. rewrite Rmax_comm.
  set (a := h_wu (hull_relu ke V_SLOPE None (ke / 4) (- (ke / 4)))) in *.
  set (b := h_bu (hull_relu ke V_SLOPE None (ke / 4) (- (ke / 4)))) in *. lra.
Qed.

Definition id_ibp (a b : R) : list tensor := [fun _ _ => b; fun _ _ => a].
Lemma ex_merge_layers :
  Forall2 (op_sp (mk_spec false IBP Box 1) (fun z => -1 <= z 0%nat <= 3) 1)
    [fun z => z; fun z j => 2 * z j; fun z j => - z j] [id_ibp (-1) 3; id_ibp (-2) 6; id_ibp (-3) 1] /\
  (exists o, decomon_add (mk_spec false IBP Box 1) (concat [id_ibp (-1) 3; id_ibp (-2) 6; id_ibp (-3) 1]) = Ok o /\
     nth 0 o empty_tensor 0%nat 0%nat = 10) /\
  (exists o, decomon_maximum 1 (mk_spec false IBP Box 1) (concat [id_ibp (-1) 3; id_ibp (-2) 6; id_ibp (-3) 1]) = Ok o).
Proof.
  split; [|split].
  - repeat (apply Forall2_cons; [split; [reflexivity|]; intros z j Hz Hj; replace j with 0%nat by lia; cbn; lra|]).
    apply Forall2_nil.
  - eexists. split; [reflexivity|]. cbn. lra.
  - eexists. reflexivity.
Qed.
