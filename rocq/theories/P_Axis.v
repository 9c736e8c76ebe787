(** Row-major index arithmetic. *)
From Coq Require Import Reals Lra Lia Psatz List Arith Bool ZArith.
From Verif Require Import RLib Spec M_Core M_Utils M_MergeLayers M_Ops.
Import ListNotations.

Lemma prodn_app : forall s s', prodn (s ++ s') = (prodn s * prodn s')%nat.
Proof. induction s; intros; cbn [app prodn]; [lia|]. rewrite IHs. lia. Qed.

Lemma in_shape_length : forall s ix, in_shape s ix -> length s = length ix.
Proof. intros s ix H. induction H; cbn; auto. Qed.

Lemma in_shape_app : forall s s' p q, in_shape s p -> in_shape s' q -> in_shape (s ++ s') (p ++ q).
Proof. intros. apply Forall2_app; auto. Qed.

Lemma ravel_lt : forall s ix, in_shape s ix -> (ravel s ix < prodn s)%nat.
Proof.
  intros s ix H. induction H; cbn [ravel prodn]; [lia|].
  assert ((y * prodn l + prodn l <= x * prodn l)%nat) by nia. lia.
Qed.

Lemma ravel_app : forall s s' p q, in_shape s p ->
  ravel (s ++ s') (p ++ q) = (ravel s p * prodn s' + ravel s' q)%nat.
Proof.
  intros s s' p q H. induction H; cbn [ravel prodn app]; [lia|].
  rewrite IHForall2, prodn_app. lia.
Qed.

Lemma ravel_flat : forall pre k post p a q, in_shape pre p ->
  ravel (pre ++ k :: post) (p ++ a :: q) = flat k (prodn post) (ravel pre p) a (ravel post q).
Proof. intros. rewrite ravel_app by auto. unfold flat. cbn [ravel prodn]. lia. Qed.

(** every position is the position of a multi-index *)

Lemma unravel_spec : forall s q, (q < prodn s)%nat -> in_shape s (unravel s q) /\ ravel s (unravel s q) = q.
Proof.
  induction s; intros q H; cbn [unravel ravel prodn] in *.
  - split; [constructor | lia].
  - assert (Hp : prodn s <> 0%nat) by (intro E; rewrite E in H; lia).
    destruct (IHs (q mod prodn s)%nat) as [I1 I2]; [apply Nat.mod_upper_bound; auto|].
    split.
    + constructor; auto. apply Nat.div_lt_upper_bound; auto. lia.
    + rewrite I2. pose proof (Nat.div_mod q (prodn s) Hp). lia.
Qed.

Lemma unravel_ravel : forall s ix, in_shape s ix -> unravel s (ravel s ix) = ix.
Proof.
  intros s ix H. induction H; cbn [ravel unravel]; auto.
  pose proof (ravel_lt _ _ H0). rewrite Nat.div_add_l by lia. rewrite Nat.div_small by auto.
  replace (y * prodn l + ravel l l')%nat with (ravel l l' + y * prodn l)%nat by lia.
  rewrite Nat.mod_add by lia. rewrite Nat.mod_small by auto. rewrite IHForall2. f_equal. lia.
Qed.

Lemma flat_div : forall inner o i, (i < inner)%nat -> ((o * inner + i) / inner)%nat = o.
Proof. intros. rewrite Nat.div_add_l by lia. rewrite Nat.div_small by auto. lia. Qed.
Lemma flat_mod : forall inner o i, (i < inner)%nat -> ((o * inner + i) mod inner)%nat = i.
Proof. intros. replace (o * inner + i)%nat with (i + o * inner)%nat by lia. rewrite Nat.mod_add by lia. apply Nat.mod_small; auto. Qed.

(** ** the axis between pre and post *)
Lemma ax_len_mid : forall pre k post, ax_len (pre ++ k :: post) (length pre) = k.
Proof. intros. unfold ax_len. rewrite app_nth2 by lia. rewrite Nat.sub_diag. reflexivity. Qed.
Lemma ax_inner_mid : forall pre k post, ax_inner (pre ++ k :: post) (length pre) = prodn post.
Proof.
  intros. unfold ax_inner. f_equal. rewrite skipn_app.
  replace (S (length pre) - length pre)%nat with 1%nat by lia. rewrite skipn_all2 by lia. reflexivity.
Qed.

Lemma slice_at : forall pre k post c (t : tensor) i p q, in_shape pre p -> in_shape post q ->
  slice (pre ++ k :: post) (length pre) c t i (ravel (pre ++ post) (p ++ q)) =
  t i (ravel (pre ++ k :: post) (p ++ c :: q)).
Proof.
  intros. unfold slice. cbv zeta. rewrite ax_len_mid, ax_inner_mid.
  rewrite ravel_app by auto. pose proof (ravel_lt _ _ H0).
  rewrite flat_div, flat_mod by auto. rewrite ravel_flat by auto. reflexivity.
Qed.

(** splitting a position of the reduced block *)
Lemma position_split : forall pre post j, (j < prodn (pre ++ post))%nat ->
  exists p q, in_shape pre p /\ in_shape post q /\ j = ravel (pre ++ post) (p ++ q).
Proof.
  intros pre post j H. destruct (unravel_spec _ _ H) as [I E].
  apply Forall2_app_inv_l in I. destruct I as (p & q & Ip & Iq & E').
  exists p, q. repeat split; auto. rewrite <- E'. symmetry. exact E.
Qed.

Lemma position_mid_lt : forall pre k post p c q, in_shape pre p -> in_shape post q -> (c < k)%nat ->
  (ravel (pre ++ k :: post) (p ++ c :: q) < prodn (pre ++ k :: post))%nat.
Proof. intros. apply ravel_lt. apply in_shape_app; auto. constructor; auto. Qed.

Lemma norm_axis_pos : forall r a, (a < r)%nat -> norm_axis r (Z.of_nat a) = Ok a.
Proof.
  intros. unfold norm_axis. rewrite (proj2 (Z.leb_le 0 (Z.of_nat a))) by lia.
  rewrite (proj2 (Z.ltb_lt (Z.of_nat a) (Z.of_nat r))) by lia. cbn [andb]. rewrite Nat2Z.id. reflexivity.
Qed.
Lemma norm_axis_neg : forall r a, (a < r)%nat -> norm_axis r (Z.of_nat a - Z.of_nat r) = Ok a.
Proof.
  intros. unfold norm_axis. rewrite (proj2 (Z.leb_gt 0 (Z.of_nat a - Z.of_nat r))) by lia. cbn [andb].
  rewrite (proj2 (Z.ltb_lt (Z.of_nat a - Z.of_nat r) 0)) by lia.
  rewrite (proj2 (Z.leb_le (- Z.of_nat r) (Z.of_nat a - Z.of_nat r))) by lia. cbn [andb].
  f_equal. lia.
Qed.

Lemma b_axis_pos : forall pre k post, b_axis (pre ++ k :: post) (pos_axis pre) = Ok (length pre).
Proof.
  intros. unfold b_axis, pos_axis. rewrite norm_axis_pos; [reflexivity|].
  rewrite app_length. cbn [length]. lia.
Qed.
Lemma b_axis_neg : forall pre k post, b_axis (pre ++ k :: post) (neg_axis post) = Ok (length pre).
Proof.
  intros. unfold b_axis, neg_axis.
  replace (-1 - Z.of_nat (length post))%Z with
    (Z.of_nat (S (length pre)) - Z.of_nat (length (pre ++ k :: post) + 1))%Z
    by (rewrite app_length; cbn [length]; lia).
  rewrite norm_axis_neg; [reflexivity|]. rewrite app_length. cbn [length]. lia.
Qed.
Lemma w_axis_pos : forall pre k post, w_axis (pre ++ k :: post) (shift_axis (pos_axis pre)) = Ok (length pre).
Proof.
  intros. unfold w_axis, shift_axis, pos_axis.
  destruct (Z.eqb_spec (Z.of_nat (S (length pre))) (-1)); [lia|].
  replace (Z.of_nat (S (length pre)) + 1)%Z with (Z.of_nat (S (S (length pre)))) by lia.
  rewrite norm_axis_pos; [reflexivity|]. rewrite app_length. cbn [length]. lia.
Qed.
Lemma w_axis_last : forall pre k, w_axis (pre ++ [k]) (shift_axis (-1)) = Ok (length pre).
Proof.
  intros. unfold w_axis, shift_axis. cbn [Z.eqb Pos.eqb].
  replace (-1)%Z with (Z.of_nat (S (S (length pre))) - Z.of_nat (length (pre ++ [k]) + 2))%Z
    by (rewrite app_length; cbn [length]; lia).
  rewrite norm_axis_neg; [reflexivity|]. rewrite app_length. cbn [length]. lia.
Qed.
(** any other negative axis is shifted to the next axis of the weights *)
Lemma w_axis_neg_wrong : forall pre k k' post,
  w_axis (pre ++ k :: k' :: post) (shift_axis (neg_axis (k' :: post))) = Ok (S (length pre)).
Proof.
  intros. unfold w_axis, shift_axis, neg_axis. cbn [length].
  destruct (Z.eqb_spec (-1 - Z.of_nat (S (length post))) (-1)); [lia|].
  replace (-1 - Z.of_nat (S (length post)) + 1)%Z with
    (Z.of_nat (S (S (S (length pre)))) - Z.of_nat (length (pre ++ k :: k' :: post) + 2))%Z
    by (rewrite app_length; cbn [length]; lia).
  rewrite norm_axis_neg; [reflexivity|]. rewrite app_length. cbn [length]. lia.
Qed.
