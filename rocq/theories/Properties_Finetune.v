(** Theorems C03: the finetuned upper bound over a ball. *)
From Coq Require Import Reals List Arith Bool ZArith.
From Verif Require Import RLib Spec M_Core P_FinetuneUpper.
Import ListNotations.
Local Open Scope R_scope.

(** the finetuned upper bound adds the maximum over the box of one part of the function to the minimum over the ball of the other *)
Theorem C03_ball_finetune_upper_value : forall n x_0 eps k0 w b a u l fl r j, (0 < n)%nat -> 0 <= eps -> (forall i, (i < n)%nat -> l i <= u i) ->
  get_upper_ball n false x_0 eps (Pnum k0) w b (mk_bkw (Some a) fl (Some u) (Some l)) = Ok r ->
  exists hi lo, r j = hi + lo /\
    is_max (in_box n l u) (fun z => aff n (fun i j => w i j * (1 - a i j)) (fun _ => 0) z j) hi /\
    is_min (in_ball n (Pnum k0) eps x_0) (fun z => aff n (fun i j => w i j * a i j) b z j) lo.
Proof. exact ft_upper_value. Qed.
Print Assumptions C03_ball_finetune_upper_value.

(** so it falls short of the function by at most twice the radius times the dual norm of the finetuned weights. Missing: it should not fall short at all (C03_ball_finetune_upper_refuted) *)
Theorem C03_ball_finetune_upper_partial : forall n x_0 eps k0 w b a u l fl r q z j, (0 < n)%nat ->
  (forall i, (i < n)%nat -> l i <= z i <= u i) -> in_ball n (Pnum k0) eps x_0 z ->
  get_lq_norm n (Pnum k0) (fun i j => w i j * a i j) = Ok q ->
  get_upper_ball n false x_0 eps (Pnum k0) w b (mk_bkw (Some a) fl (Some u) (Some l)) = Ok r ->
  aff n w b z j <= r j + 2 * (eps * q j).
Proof. exact ft_upper_short. Qed.
Print Assumptions C03_ball_finetune_upper_partial.

(** with the upper corner alone, the corner is not used: the value is a minimum over the ball *)
Theorem C03_ball_finetune_upper_single : forall n x_0 eps k0 w b a u fl r j, (0 < n)%nat -> 0 <= eps -> (forall i j, (i < n)%nat -> 0 <= a i j <= 1) ->
  get_upper_ball n false x_0 eps (Pnum k0) w b (mk_bkw (Some a) fl (Some u) None) = Ok r ->
  is_min (in_ball n (Pnum k0) eps x_0) (fun z => aff n (fun i j => Rmin 0 (w i j) * a i j + Rmax 0 (w i j)) b z j) (r j).
Proof. exact ft_upper_single. Qed.
Print Assumptions C03_ball_finetune_upper_single.

Example C03_ball_finetune_upper_example : exists r, get_upper_ball 1 false (fun _ => 0) 2 (Pnum 1) (fun _ _ => 1) (fun _ => 0)
    (mk_bkw (Some (fun _ _ => 1/2)) None (Some (fun _ => 1)) (Some (fun _ => -1))) = Ok r /\ r 0%nat = -1/2.
Proof. exact ft_upper_example. Qed.

