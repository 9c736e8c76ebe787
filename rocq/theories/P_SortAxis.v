(** split and sort along a negative axis in the affine modes; sort of short intervals (C13, C61) *)
From Coq Require Import Reals List Arith Bool ZArith Lra Lia Sorted Permutation.
From Verif Require Import RLib Spec Spec_Layers M_Core M_State M_Utils M_MergeLayers M_Layers M_Ops P_Core P_CoreThm P_Merge P_Utils P_UtilsThm P_Axis P_Ops P_Act P_OpsThm P_Sort.
Import ListNotations.
Local Open Scope R_scope.

Lemma two_sorted : forall a b, a <= b -> StronglySorted Rle [a; b].
Proof. intros a b H. constructor; [constructor; [constructor|constructor]|constructor; [exact H|constructor]]. Qed.
(** the two lengths differ: the weights cannot be cut *)
Lemma split_axis_error : forall sp (S : vec -> Prop) pre k k' post (f : vec -> vec) ts, (0 < sp_n sp)%nat -> dom_ok (sp_dom sp) (sp_mode sp) ->
  get_affine (sp_mode sp) = true -> k <> k' -> op_sp sp S (prodn (pre ++ k :: k' :: post)) f ts ->
  op_split sp (pre ++ k :: k' :: post) (neg_axis (k' :: post)) ts = Err ValueError.
Proof.
  intros sp S pre k k' post f ts Hn Hd Ha Hk H. destruct (get_full_sound sp false false S _ f ts Hn Hd H) as (r & E & _ & _).
  pose proof (w_axis_neg_wrong pre k k' post) as W. unfold shift_axis in W.
  assert (Z.eqb (neg_axis (k' :: post)) (-1) = false) as Q by (apply Z.eqb_neq; unfold neg_axis; cbn [length]; lia).
  unfold op_split. rewrite E. cbn [bind]. rewrite Q in *. rewrite b_axis_neg. cbn [bind]. rewrite Ha, W. cbn [bind]. rewrite ax_len_mid.
  assert (ax_len (pre ++ k :: k' :: post) (Datatypes.S (length pre)) = k') as ->.
  { unfold ax_len. rewrite app_nth2 by lia. replace (Datatypes.S (length pre) - length pre)%nat with 1%nat by lia. reflexivity. }
  destruct (Nat.eqb_spec k' k); [congruence|]. reflexivity.
Qed.
(** they agree: the slices of the weights are those of another axis *)
Lemma split_axis_refuted : exists (f g : vec -> vec) ts outs z,
  (forall z p q, in_shape [] p -> in_shape [2%nat] q -> g z (ravel [2%nat] (p ++ q)) = f z (ravel [2; 2]%nat (p ++ 0%nat :: q))) /\
  op_sp sp1 (fun z => 0 <= z 0%nat <= 1) 4 f ts /\ op_split sp1 [2; 2]%nat (neg_axis [2%nat]) ts = Ok outs /\ 0 <= z 0%nat <= 1 /\
  aff 1 (nth 1 (nth 0 outs []) empty_tensor) (nth 2 (nth 0 outs []) empty_tensor 0%nat) z 1 < g z 1%nat.
Proof.
  exists (fun z j => if Nat.eqb j 1 then z 0%nat else 0), (fun z j => if Nat.eqb j 1 then z 0%nat else 0).
  exists [idbox 0 1; pick1; zt; pick1; zt].
  eexists. exists (fun _ => 1). split; [|split; [|split; [reflexivity|split]]].
  - intros z p q Hp Hq. destruct p; [|inversion Hp]. destruct q as [|q [|]]; try (inversion Hq; fail).
    2:{ inversion Hq; subst. inversion H4. }
    assert (q < 2)%nat by (inversion Hq; auto). destruct q as [|[|]]; [| |lia]; reflexivity.
  - split; [reflexivity|]. cbn. split.
    + intros z Hz i Hi. replace i with 0%nat by lia. cbn. auto.
    + intros z j Hz Hj. unfold aff, dot, pick1, zt. cbn. destruct (Nat.eqb j 1); lra.
  - lra.
  - unfold aff, dot. cbn. unfold slice. cbn. unfold pick1, zt. cbn. lra.
Qed.

(** sort of (10, 10 + z; 0, 0) along the first axis: (0, 0; 10, 10 + z), and the lower bound of the first entry is z *)
Definition rows_b : tensor := fun _ j => if Nat.ltb j 2 then 10 else 0.
Definition rows_f (z : vec) (j : nat) : R := if Nat.eqb j 0 then 10 else if Nat.eqb j 1 then 10 + z 0%nat else 0.
Definition rows_g (z : vec) (j : nat) : R := if Nat.eqb j 2 then 10 else if Nat.eqb j 3 then 10 + z 0%nat else 0.
Lemma sort_axis_refuted : forall ke, exists f g ts out z,
  (forall z p q, in_shape [] p -> in_shape [2%nat] q -> 0 <= z 0%nat <= 1 ->
     StronglySorted Rle (line g [] 2 [2%nat] z p q) /\ Permutation (line g [] 2 [2%nat] z p q) (line f [] 2 [2%nat] z p q)) /\
  op_sp sp1 (fun z => 0 <= z 0%nat <= 1) 4 f ts /\ op_sort ke sp1 [2; 2]%nat (neg_axis [2%nat]) ts = Ok out /\ 0 <= z 0%nat <= 1 /\
  g z 0%nat < aff 1 (nth 3 out empty_tensor) (nth 4 out empty_tensor 0%nat) z 0.
Proof.
  intros ke. exists rows_f, rows_g, [idbox 0 1; pick1; rows_b; pick1; rows_b].
  eexists. exists (fun _ => 1). split; [|split; [|split; [|split]]].
  - intros z p q Hp Hq Hz. destruct p; [|inversion Hp]. destruct q as [|q [|]]; try (inversion Hq; fail).
    2:{ inversion Hq; subst. inversion H4. }
    assert (q < 2)%nat by (inversion Hq; auto). destruct q as [|[|]]; [| |lia]; cbn; split.
    all: first [apply two_sorted; lra | apply perm_swap].
  - split; [reflexivity|]. cbn. split.
    + intros z Hz i Hi. replace i with 0%nat by lia. cbn. auto.
    + intros z j Hz Hj. unfold aff, dot, pick1, rows_b, rows_f. cbn. destruct j as [|[|[|[|]]]]; cbn; try lra; lia.
  - unfold op_sort; lazy -[Rmax Rmin Rplus Rmult Rminus Ropp IZR Rlt Rle Rdiv Rinv hull_relu]; reflexivity.
  - lra.
  - lazy -[Rmax Rmin Rplus Rmult Rminus Ropp IZR Rlt Rle Rdiv Rinv hull_relu].
    repeat match goal with |- context [hull_relu ke V_SLOPE None ?u ?l] =>
      let h := fresh "h" in let E := fresh "E" in remember (hull_relu ke V_SLOPE None u l) as h eqn:E;
      repeat (match type of E with
      | context [Rmax ?a ?b] => first [rewrite (Rmax_left a b) in E by lra | rewrite (Rmax_right a b) in E by lra]
      | context [Rmin ?a ?b] => first [rewrite (Rmin_left a b) in E by lra | rewrite (Rmin_right a b) in E by lra] end);
      first [rewrite hull_relu_linear in E by lra | rewrite hull_relu_dead in E by lra]; subst h end. lra.
Qed.
(** an interval shorter than epsilon around the exchange *)
Lemma sort_short_refuted : forall ke, 0 < ke -> exists f g ts out z,
  (forall z p q, in_shape [] p -> in_shape [] q -> StronglySorted Rle (line g [] 2 [] z p q) /\ Permutation (line g [] 2 [] z p q) (line f [] 2 [] z p q)) /\
  op_sp sp1 (fun z => -(ke/4) <= z 0%nat <= ke/4) 2 f ts /\ op_sort ke sp1 [2%nat] (-1) ts = Ok out /\ -(ke/4) <= z 0%nat <= ke/4 /\
  aff 1 (nth 1 out empty_tensor) (nth 2 out empty_tensor 0%nat) z 1 < g z 1%nat.
Proof.
  intros ke Hke. exists (fun z j => if Nat.eqb j 0 then 0 else z 0%nat), (fun z j => if Nat.eqb j 0 then Rmin 0 (z 0%nat) else Rmax 0 (z 0%nat)), [idbox (-(ke/4)) (ke/4); pick1; zt; pick1; zt].
  eexists. exists (fun _ => ke/4). split; [|split; [|split; [|split]]].
  - intros z p q Hp Hq. destruct p; [|inversion Hp]. destruct q; [|inversion Hq]. cbn. unfold Rmin, Rmax. destruct (Rle_dec 0 (z 0%nat)); split.
    + apply two_sorted; lra.
    + apply Permutation_refl.
    + apply two_sorted; lra.
    + apply perm_swap.
  - split; [reflexivity|]. cbn. split.
    + intros z Hz i Hi. replace i with 0%nat by lia. cbn. auto.
    + intros z j Hz Hj. unfold aff, dot, pick1, zt. cbn. destruct j as [|[|]]; cbn; try lra; lia.
  - unfold op_sort; lazy -[Rmax Rmin Rplus Rmult Rminus Ropp IZR Rlt Rle Rdiv Rinv hull_relu]; reflexivity.
  - lra.
  - lazy -[Rmax Rmin Rplus Rmult Rminus Ropp IZR Rlt Rle Rdiv Rinv hull_relu].
    pose proof (hull_relu_gap_unsound ke V_SLOPE None (ke/4) (-(ke/4)) Hke ltac:(lra) ltac:(lra) ltac:(lra) I) as G. cbv zeta in G. unfold Rrelu in G.
    repeat match goal with |- context [hull_relu ke V_SLOPE None ?u ?l] =>
      let h := fresh "h" in let E := fresh "E" in remember (hull_relu ke V_SLOPE None u l) as h eqn:E;
      repeat (match type of E with
      | context [Rmax ?a ?b] => first [rewrite (Rmax_left a b) in E by lra | rewrite (Rmax_right a b) in E by lra]
      | context [Rmin ?a ?b] => first [rewrite (Rmin_left a b) in E by lra | rewrite (Rmin_right a b) in E by lra] end) end.
    match type of E with h = hull_relu _ _ _ ?u ?l => replace u with (ke / 4) in E by lra; replace l with (- (ke / 4)) in E by lra end.
    rewrite <- E in G. rewrite Rmax_comm in G. unfold h_wu, h_bu in G. destruct h as [a b c d]. lra.
Qed.
