(** What the finetuned upper bound over a ball is (C03) *)
From Coq Require Import Reals Lra Lia Psatz List Arith Bool ZArith.
From Verif Require Import RLib Spec M_Core P_Core P_CoreThm.
Import ListNotations.
Local Open Scope R_scope.

Lemma ft_upper_value : forall n x_0 eps k0 w b a u l fl r j, (0 < n)%nat -> 0 <= eps -> (forall i, (i < n)%nat -> l i <= u i) ->
  get_upper_ball n false x_0 eps (Pnum k0) w b (mk_bkw (Some a) fl (Some u) (Some l)) = Ok r ->
  exists hi lo, r j = hi + lo /\
    is_max (in_box n l u) (fun z => aff n (fun i j => w i j * (1 - a i j)) (fun _ => 0) z j) hi /\
    is_min (in_ball n (Pnum k0) eps x_0) (fun z => aff n (fun i j => w i j * a i j) b z j) lo.
Proof.
  intros n x_0 eps k0 w b a u l fl r j Hn He Hlu Hr. unfold get_upper_ball, kw_nonempty, get_upper_ball_finetune in Hr. cbn [k_ft_upper k_ft_lower k_upper k_lower is_some orb andb kget bind] in Hr.
  match type of Hr with context [add_score _ _ ?B] => destruct B as [s|] eqn:Es end; cbn in Hr; [|discriminate]. injection Hr as <-.
  exists (get_upper_box n false l u (fun i j => w i j * (1 - a i j)) (fun _ => 0) j), (s j). split; [|split].
  - cbn. rewrite <- rsum_plus, Rplus_0_r. f_equal. apply rsum_ext. intros i _. rewrite (Rmax_comm 0), (Rmin_comm 0). reflexivity.
  - apply get_upper_box_max. exact Hlu.
  - apply (get_lower_ball0_min n eps (Pnum k0) x_0 _ b s j Hn He Es).
Qed.
(** it falls short of the function by at most twice the radius times the dual norm of the finetuned weights *)
Lemma ft_upper_short : forall n x_0 eps k0 w b a u l fl r q z j, (0 < n)%nat ->
  (forall i, (i < n)%nat -> l i <= z i <= u i) -> in_ball n (Pnum k0) eps x_0 z ->
  get_lq_norm n (Pnum k0) (fun i j => w i j * a i j) = Ok q ->
  get_upper_ball n false x_0 eps (Pnum k0) w b (mk_bkw (Some a) fl (Some u) (Some l)) = Ok r ->
  aff n w b z j <= r j + 2 * (eps * q j).
Proof.
  intros n x_0 eps k0 w b a u l fl r q z j Hn Hb Hz Hq Hr.
  unfold get_upper_ball, kw_nonempty, get_upper_ball_finetune in Hr. cbn [k_ft_upper k_ft_lower k_upper k_lower is_some orb andb kget bind] in Hr.
  unfold get_lower_ball0 in Hr. cbn zeta in Hr. rewrite Hq in Hr. cbn in Hr. injection Hr as <-.
  assert (Hup : get_upper_ball0 n false x_0 eps (Pnum k0) (fun i j => w i j * a i j) b = Ok (fun j => rsum n (fun i => w i j * a i j * x_0 i) + (eps * q j + b j))).
  { unfold get_upper_ball0. rewrite Hq. reflexivity. }
  pose proof (get_upper_ball0_sound n eps (Pnum k0) x_0 _ b _ z j Hn Hup Hz) as B. cbv beta in B. unfold aff, dot in *.
  assert (rsum n (fun i => w i j * (1 - a i j) * z i) <= rsum n (fun i => Rmax 0 (w i j * (1 - a i j)) * u i) + rsum n (fun i => Rmin 0 (w i j * (1 - a i j)) * l i)).
  { rewrite <- rsum_plus. apply rsum_le. intros i Hi. specialize (Hb i Hi). rewrite (Rmax_comm 0), (Rmin_comm 0). apply box_term_upper. lra. }
  assert (E : rsum n (fun i => w i j * z i) = rsum n (fun i => w i j * (1 - a i j) * z i) + rsum n (fun i => w i j * a i j * z i)).
  { rewrite <- rsum_plus. apply rsum_ext; intros; ring. }
  rewrite E. lra.
Qed.
(** with the upper corner alone, the corner is not used: the value is a minimum over the ball *)
Lemma ft_upper_single : forall n x_0 eps k0 w b a u fl r j, (0 < n)%nat -> 0 <= eps -> (forall i j, (i < n)%nat -> 0 <= a i j <= 1) ->
  get_upper_ball n false x_0 eps (Pnum k0) w b (mk_bkw (Some a) fl (Some u) None) = Ok r ->
  is_min (in_ball n (Pnum k0) eps x_0) (fun z => aff n (fun i j => Rmin 0 (w i j) * a i j + Rmax 0 (w i j)) b z j) (r j).
Proof.
  intros n x_0 eps k0 w b a u fl r j Hn He Ha Hr. unfold get_upper_ball, kw_nonempty, get_upper_ball_finetune in Hr. cbn [k_ft_upper k_ft_lower k_upper k_lower is_some orb andb kget bind] in Hr.
  match type of Hr with context [add_score _ _ ?B] => destruct B as [s|] eqn:Es end; cbn in Hr; [|discriminate]. injection Hr as <-.
  assert (Z : rsum n (fun i => Rmax 0 (Rmin 0 (w i j) * (1 - a i j)) * u i) = 0).
  { rewrite (rsum_ext n _ (fun _ => 0)); [apply rsum_0|]. intros i Hi. specialize (Ha i j Hi). rewrite Rmax_left; [ring|]. assert (Rmin 0 (w i j) <= 0) by apply Rmin_l. nra. }
  cbn. rewrite Z, Rplus_0_l. apply (get_lower_ball0_min n eps (Pnum k0) x_0 _ b s j Hn He Es).
Qed.
Lemma ft_upper_example : exists r, get_upper_ball 1 false (fun _ => 0) 2 (Pnum 1) (fun _ _ => 1) (fun _ => 0)
    (mk_bkw (Some (fun _ _ => 1/2)) None (Some (fun _ => 1)) (Some (fun _ => -1))) = Ok r /\ r 0%nat = -1/2.
Proof.
  eexists. split; [reflexivity|]. cbn. rewrite ?Rmax_right, ?Rmin_left by lra. unfold rmax. cbn. repeat (rewrite Rabs_pos_eq by lra). try (rewrite Rmax_left by lra). lra.
Qed.
