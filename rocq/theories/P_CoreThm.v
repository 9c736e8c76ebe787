(** Statements of Properties_Core in lemma form, refutations and examples. *)
From Coq Require Import Reals Lra Lia Psatz List Arith Bool ZArith.
From Verif Require Import RLib Spec M_Core P_Core P_Merge.
Import ListNotations.
Local Open Scope R_scope.

Lemma box_extrema : forall n x w b k,
  (forall i, (i < n)%nat -> x 0%nat i <= x 1%nat i) ->
  exists ru rl, get_upper Box n false x w b k = Ok ru /\ get_lower Box n false x w b k = Ok rl /\
    forall j, is_max (in_box n (x 0%nat) (x 1%nat)) (fun z => aff n w b z j) (ru j) /\
              is_min (in_box n (x 0%nat) (x 1%nat)) (fun z => aff n w b z j) (rl j).
Proof.
  intros n x w b k H. eexists _, _. split; [reflexivity|]. split; [reflexivity|].
  intro j. split; [apply get_upper_box_max | apply get_lower_box_min]; auto.
Qed.

Lemma ball_extrema : forall n eps p x w b,
  (0 < n)%nat -> 0 <= eps -> norm_ok (Ball eps p) ->
  exists ru rl, get_upper (Ball eps p) n false x w b no_kw = Ok ru /\
                get_lower (Ball eps p) n false x w b no_kw = Ok rl /\
    forall j, is_max (in_ball n p eps (x 0%nat)) (fun z => aff n w b z j) (ru j) /\
              is_min (in_ball n p eps (x 0%nat)) (fun z => aff n w b z j) (rl j).
Proof.
  intros n eps p x w b Hn He Hp.
  destruct (get_upper_ok (Ball eps p) n x w b Hp) as [ru Eu].
  destruct (get_lower_ok (Ball eps p) n x w b Hp) as [rl El].
  exists ru, rl. repeat split; auto.
  - apply (get_upper_max (Ball eps p) n x w b ru j Hn He Eu).
  - apply (get_upper_max (Ball eps p) n x w b ru j Hn He Eu).
  - apply (get_lower_min (Ball eps p) n x w b rl j Hn He El).
  - apply (get_lower_min (Ball eps p) n x w b rl j Hn He El).
Qed.

Lemma ball_unsupported : forall n eps p x w b,
  ~ norm_ok (Ball eps p) ->
  get_upper (Ball eps p) n false x w b no_kw = Err NotImplementedError /\
  get_lower (Ball eps p) n false x w b no_kw = Err NotImplementedError.
Proof.
  intros n eps p x w b H. destruct p as [[|[|[|k]]]|]; simpl in H; try tauto; split; reflexivity.
Qed.

Lemma ball_check_p_spec : forall num den,
  (exists k, (0 < k)%nat /\ num = (Z.of_nat k * Zpos den)%Z /\ ball_check_p (PFinite num den) = Ok (Pnum k)) \/
  ((forall k, (0 < k)%nat -> num <> (Z.of_nat k * Zpos den)%Z) /\ ball_check_p (PFinite num den) = Err ValueError).
Proof.
  intros num den. unfold ball_check_p.
  destruct (Z.eqb_spec (num mod Zpos den) 0) as [E|E]; simpl.
  - destruct (Z.ltb_spec 0 num) as [L|L]; simpl.
    + left. exists (Z.to_nat (num / Zpos den)).
      assert (num = Zpos den * (num / Zpos den))%Z by (apply Z.div_exact; [lia | auto]).
      assert (0 < num / Zpos den)%Z by nia.
      split; [lia|]. split; auto. rewrite Z2Nat.id by lia. lia.
    + right. split; auto. intros k Hk Hnum. nia.
  - right. split; auto. intros k Hk Hnum. apply E. rewrite Hnum. apply Z.mod_mul. lia.
Qed.

Lemma ft_upper_refuted : exists n x_0 eps p w b k r z,
  (0 < n)%nat /\ norm_ok (Ball eps p) /\ in_ball n p eps x_0 z /\
  (forall a i j, k_ft_upper k = Some a -> 0 <= a i j <= 1) /\
  (forall u i, k_upper k = Some u -> z i <= u i) /\ (forall l i, k_lower k = Some l -> l i <= z i) /\
  get_upper_ball n false x_0 eps p w b k = Ok r /\ r 0%nat < aff n w b z 0%nat.
Proof.
  exists 1%nat, (fun _ => 0), 1, (Pnum 1), (fun _ _ => 1), (fun _ => 0),
    (mk_bkw (Some (fun _ _ => 1)) None (Some (fun _ => 1)) (Some (fun _ => -1))).
  eexists. exists (fun _ => 1).
  split; [lia|]. split; [exact I|]. split.
  { simpl. split; [lra|]. rcases. }
  split; [intros a i j E; injection E as <-; lra|].
  split; [intros u i E; injection E as <-; lra|].
  split; [intros l i E; injection E as <-; lra|].
  split; [reflexivity|].
  cbn. unfold aff, dot. cbn. unfold rmax. cbn. rcases.
Qed.

(** the single-bound branch of the upper version is wrong as well *)
Lemma ft_upper_single_refuted : exists n x_0 eps p w b k r z,
  (0 < n)%nat /\ norm_ok (Ball eps p) /\ in_ball n p eps x_0 z /\
  (forall a i j, k_ft_upper k = Some a -> 0 <= a i j <= 1) /\
  k_lower k = None /\
  (forall u i, k_upper k = Some u -> z i <= u i) /\
  get_upper_ball n false x_0 eps p w b k = Ok r /\ r 0%nat < aff n w b z 0%nat.
Proof.
  exists 1%nat, (fun _ => 0), 1, (Pnum 2), (fun _ _ => 1), (fun _ => 0),
    (mk_bkw (Some (fun _ _ => 1)) None (Some (fun _ => 1)) None).
  eexists. exists (fun _ => 1).
  split; [lia|]. split; [exact I|]. split.
  { simpl. split; [lra|]. rcases. }
  split; [intros a i j E; injection E as <-; lra|].
  split; [reflexivity|].
  split; [intros u i E; injection E as <-; lra|].
  split; [reflexivity|].
  cbn. unfold aff, dot. cbn.
  replace (0 + (Rmin 0 1 * 1 + Rmax 0 1) * ((Rmin 0 1 * 1 + Rmax 0 1) * 1)) with 1 by rcases.
  rewrite sqrt_1. rcases.
Qed.

(** a lower corner without an upper corner, or corners without coefficients, is a KeyError *)
Lemma ft_lower_keyerror : forall n x_0 eps k0 w b k,
  is_some (k_lower k) = true -> (k_upper k = None \/ k_ft_lower k = None) ->
  get_lower_ball n false x_0 eps (Pnum k0) w b k = Err KeyError.
Proof.
  intros n x_0 eps k0 w b [fu fl ku kl] H1 H2. cbn in *. destruct kl; [|discriminate].
  unfold kw_nonempty. cbn. rewrite !orb_true_r. unfold get_lower_ball_finetune. cbn.
  rewrite orb_true_r. destruct H2 as [->| ->]; auto. destruct fl; auto.
Qed.

(** ** C05 in terms of Spec *)

Lemma complete_valid : forall sp ca ti S m f ts,
  (0 < sp_n sp)%nat -> dom_ok (sp_dom sp) (sp_mode sp) ->
  valid (sp_dom sp) (sp_mode sp) (sp_dc sp) S (sp_n sp) m f ts ->
  exists r, get_fullinputs sp ca ti ts = Ok r /\
    ((sp_mode sp <> AFFINE \/ ca = true) -> const_ok S m f (f_uc r 0%nat) (f_lc r 0%nat)) /\
    (sp_mode sp <> IBP -> (forall z, S z -> in_dom (sp_dom sp) (sp_n sp) (f_x r) z) /\
       affine_ok S (sp_n sp) m f (f_wu r) (f_bu r 0%nat) (f_wl r) (f_bl r 0%nat)).
Proof.
  intros sp ca ti S m f ts Hn Hd Hv.
  destruct (get_full_sound sp ca ti S m f ts Hn Hd Hv) as (r & E & H1 & H2).
  exists r. split; auto. split.
  - intros Hc. apply H1. destruct Hc as [Hc| ->]; [|apply orb_true_r].
    destruct (sp_mode sp); auto; congruence.
  - intros Hm. apply H2. destruct (sp_mode sp); auto; congruence.
Qed.

Lemma complete_tightest : forall dc D n ca x u wu bu l wl bl rest r j,
  (0 < n)%nat -> dom_nonempty D n x ->
  get_fullinputs (mk_spec dc HYBRID D n) ca true (x :: u :: wu :: bu :: l :: wl :: bl :: rest) = Ok r ->
  (exists M, is_max (in_dom D n x) (fun z => aff n wu (bu 0%nat) z j) M /\ f_uc r 0%nat j = Rmin (u 0%nat j) M) /\
  (exists M, is_min (in_dom D n x) (fun z => aff n wl (bl 0%nat) z j) M /\ f_lc r 0%nat j = Rmax (l 0%nat j) M).
Proof.
  intros dc D n ca x u wu bu l wl bl rest r j Hn He H.
  unfold get_fullinputs in H.
  assert (E : exists h g, unpack empty_tensor HYBRID dc (x :: u :: wu :: bu :: l :: wl :: bl :: rest)
     = Ok (mk_full x u wu bu l wl bl h g) \/ unpack empty_tensor HYBRID dc (x :: u :: wu :: bu :: l :: wl :: bl :: rest) = Err ValueError).
  { destruct dc; [destruct rest as [|h [|g rest]]|]; cbn;
      first [exists empty_tensor, empty_tensor; right; reflexivity | do 2 eexists; left; reflexivity]. }
  destruct E as (h & g & [E|E]); cbn [sp_mode sp_dc] in H; rewrite E in H; cbn [bind] in H; [|discriminate].
  unfold complete in H. cbn [sp_mode sp_dom sp_n mode_eqb f_x f_wu f_bu f_wl f_bl] in H.
  rewrite andb_false_r in H. cbn [orb andb] in H.
  destruct (get_upper D n false x wu (bu 0%nat) no_kw) as [ua|] eqn:Eu; cbn [bind] in H; [|discriminate].
  destruct (get_lower D n false x wl (bl 0%nat) no_kw) as [la|] eqn:El; cbn [bind] in H; [|discriminate].
  injection H as <-. cbn. split.
  - exists (ua j). split; [|reflexivity]. apply (get_upper_max D n x wu (bu 0%nat) ua j Hn He Eu).
  - exists (la j). split; [|reflexivity]. apply (get_lower_min D n x wl (bl 0%nat) la j Hn He El).
Qed.

Lemma complete_untight : forall sp ts,
  sp_mode sp <> AFFINE ->
  get_fullinputs sp true false ts = unpack empty_tensor (sp_mode sp) (sp_dc sp) ts.
Proof.
  intros [dc mode D n] ts H. unfold get_fullinputs, complete. cbn in *.
  destruct (unpack empty_tensor mode dc ts); cbn; auto.
  destruct mode; cbn; auto; congruence.
Qed.

(** ** C06 refutation *)
Lemma merge_affine_refuted : exists sp ts R S f,
  sp_mode sp = AFFINE /\ norm_ok (sp_dom sp) /\
  valid (sp_dom sp) AFFINE false S (sp_n sp) 1 f ts /\
  get_fullinputs_by_type sp true true ts = Ok R /\
  (exists u, nth_error (f_uc R) 0 = Some u /\ exists z, S z /\ u 0%nat 0%nat < f z 0%nat).
Proof.
  exists (mk_spec false AFFINE Box 1), [(fun c _ => INR c); (fun _ _ => 1); (fun _ _ => 0); (fun _ _ => 1); (fun _ _ => 0)].
  eexists. exists (fun z => 0 <= z 0%nat <= 1), (fun z => z).
  split; [reflexivity|]. split; [exact I|]. split.
  - split; [reflexivity|]. cbn. split.
    + intros z Hz i Hi. replace i with 0%nat by lia. cbn. lra.
    + intros z j Hz Hj. replace j with 0%nat by lia. unfold aff, dot. cbn. lra.
  - split; [reflexivity|]. eexists. split; [reflexivity|]. exists (fun _ => 1). split; [lra|].
    unfold vt. cbn. rcases.
Qed.

(** ** Examples *)

Definition ex_x : tensor := fun c i => match c, i with O, O => -1 | O, S O => 0 | S O, O => 1 | _, _ => 2 end.
Definition ex_w : mat := fun i _ => match i with O => 1 | _ => -2 end.

Lemma ex_box : (forall i, (i < 2)%nat -> ex_x 0%nat i <= ex_x 1%nat i) /\
  exists r, get_upper Box 2 false ex_x ex_w (fun _ => 3) no_kw = Ok r /\ r 0%nat = 4 /\
  exists r', get_lower Box 2 false ex_x ex_w (fun _ => 3) no_kw = Ok r' /\ r' 0%nat = -2.
Proof.
  split; [intros i Hi; destruct i as [|[|]]; cbn; try lra; lia|].
  eexists. split; [reflexivity|]. split; [cbn; rcases|].
  eexists. split; [reflexivity|]. cbn; rcases.
Qed.

Lemma ex_ball : exists r1 r2 rinf,
  get_upper (Ball 2 (Pnum 1)) 2 false ex_x ex_w (fun _ => 3) no_kw = Ok r1 /\ r1 0%nat = 6 /\
  get_upper (Ball 2 (Pnum 2)) 2 false ex_x ex_w (fun _ => 3) no_kw = Ok r2 /\ r2 0%nat = 2 + 2 * sqrt 5 /\
  get_upper (Ball 2 Pinf) 2 false ex_x ex_w (fun _ => 3) no_kw = Ok rinf /\ rinf 0%nat = 8.
Proof.
  do 3 eexists. split; [reflexivity|]. split; [cbn; unfold rmax; cbn; rcases|].
  split; [reflexivity|]. split.
  - cbn. replace (0 + 1 * (1 * 1) + -2 * (-2 * 1)) with 5 by lra. lra.
  - split; [reflexivity|]. cbn. rcases.
Qed.

(** a bounding box that is active: the fine-tuned lower bound is strictly better than the ball one *)
Lemma ex_ft_lower : exists r r0,
  get_lower_ball 1 false (fun _ => 0) 2 (Pnum 1) (fun _ _ => 1) (fun _ => 0)
    (mk_bkw None (Some (fun _ _ => 1/2)) (Some (fun _ => 1)) (Some (fun _ => -1))) = Ok r /\ r 0%nat = - 3 / 2 /\
  get_lower_ball 1 false (fun _ => 0) 2 (Pnum 1) (fun _ _ => 1) (fun _ => 0) no_kw = Ok r0 /\ r0 0%nat = -2.
Proof.
  do 2 eexists. split; [reflexivity|]. split; [cbn; unfold rmax; cbn; rcases|].
  split; [reflexivity|]. cbn. unfold rmax; cbn. rcases.
Qed.

Lemma ex_layout : split_to_merge (nb_tensors IBP true) [1;2;3;4;5;6;7;8]%nat = [[1;2;3;4];[5;6;7;8]]%nat /\
  extract AFFINE true (mk_full 1 2 3 4 5 6 7 8 9)%nat = [1;3;4;6;7;8;9]%nat.
Proof. split; reflexivity. Qed.

(** hybrid input on [0,1] whose affine bounds improve the constant ones *)
Definition ex_hyb : list tensor :=
  [(fun c _ => INR c); (fun _ _ => 5); (fun _ _ => 1); (fun _ _ => 0); (fun _ _ => -5); (fun _ _ => 1); (fun _ _ => 0)].
Lemma ex_complete : valid Box HYBRID false (fun z => 0 <= z 0%nat <= 1) 1 1 (fun z => z) ex_hyb /\
  exists r, get_fullinputs (mk_spec false HYBRID Box 1) true true ex_hyb = Ok r /\
    f_uc r 0%nat 0%nat = 1 /\ f_lc r 0%nat 0%nat = 0.
Proof.
  split.
  - split; [reflexivity|]. cbn. split; [|split].
    + intros z Hz i Hi. replace i with 0%nat by lia. cbn. lra.
    + intros z j Hz Hj. replace j with 0%nat by lia. lra.
    + intros z j Hz Hj. replace j with 0%nat by lia. unfold aff, dot. cbn. lra.
  - eexists. split; [reflexivity|]. cbn. unfold vt. split; rcases.
Qed.

Lemma ex_merge : exists R, get_fullinputs_by_type (mk_spec false HYBRID Box 1) false true (concat [ex_hyb; ex_hyb]) = Ok R /\
  length (f_uc R) = 2%nat /\ exists u, nth_error (f_uc R) 1 = Some u /\ u 0%nat 0%nat = 1.
Proof.
  eexists. split; [reflexivity|]. split; [reflexivity|]. eexists. split; [reflexivity|].
  cbn. unfold vt. rcases.
Qed.
