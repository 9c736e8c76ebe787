(** Positions, broadcasting and the operations of Keras sample by sample. *)
From Coq Require Import Reals List Arith Bool Lia Lra.
From Verif Require Import RLib Spec Spec_Batch M_Core M_Utils M_MergeLayers M_Ops M_Convert M_Batch.
Import ListNotations.
Local Open Scope R_scope.

Lemma dm : forall i P r, (r < P)%nat -> ((i * P + r) / P = i /\ (i * P + r) mod P = r)%nat.
Proof.
  intros i P r H. split.
  - rewrite Nat.div_add_l by lia. rewrite Nat.div_small by lia. lia.
  - rewrite Nat.add_comm, Nat.mod_add by lia. apply Nat.mod_small; lia.
Qed.
Lemma pos_lt : forall i P r n, (i < n)%nat -> (r < P)%nat -> (i * P + r < n * P)%nat.
Proof. intros i P r n Hi Hr. nia. Qed.

Lemma prodn_app : forall a b, prodn (a ++ b) = (prodn a * prodn b)%nat.
Proof. induction a as [|x a IH]; intros b; cbn [app prodn]; [lia|]. rewrite IH. lia. Qed.
Lemma prodn_ones : forall k, prodn (repeat 1%nat k) = 1%nat.
Proof. induction k as [|k IH]; [reflexivity|]. cbn [repeat prodn]. rewrite IH. reflexivity. Qed.

Lemma bc_cons : forall d s e o i r, (r < prodn o)%nat ->
  bc_pos (d :: s) (e :: o) (i * prodn o + r)%nat = ((if Nat.eqb d 1 then 0 else i) * prodn s + bc_pos s o r)%nat.
Proof. intros d s e o i r H. cbn [bc_pos]. destruct (dm i (prodn o) r H) as [-> ->]. reflexivity. Qed.

Lemma bc_same : forall s q, (q < prodn s)%nat -> bc_pos s s q = q.
Proof.
  induction s as [|d s IH]; intros q H; [cbn in *; lia|]. cbn [prodn] in H.
  assert (HP : (0 < prodn s)%nat) by nia.
  pose proof (Nat.div_mod q (prodn s) ltac:(lia)) as E. pose proof (Nat.mod_upper_bound q (prodn s) ltac:(lia)) as Hr.
  cbn [bc_pos]. rewrite (IH _ Hr). destruct (Nat.eqb_spec d 1) as [->|]; [|lia].
  rewrite Nat.div_small in E by lia. lia.
Qed.
Lemma bc_ones : forall s q, bc_pos (repeat 1%nat (length s)) s q = O.
Proof. induction s as [|d s IH]; intros q; [reflexivity|]. cbn [length repeat bc_pos]. rewrite IH. cbn. lia. Qed.
Lemma bc_last : forall pre u q, (q < prodn (pre ++ [u]))%nat -> bc_pos (repeat 1%nat (length pre) ++ [u]) (pre ++ [u]) q = (q mod u)%nat.
Proof.
  induction pre as [|d pre IH]; intros u q H.
  - cbn [app prodn] in H. cbn [length repeat app bc_pos prodn]. rewrite Nat.div_1_r.
    destruct (Nat.eqb_spec u 1) as [->|]; [rewrite Nat.mod_1_r; lia|]. rewrite Nat.mod_small by lia. lia.
  - cbn [app prodn] in H. assert (HP : (0 < prodn (pre ++ [u]))%nat) by nia.
    pose proof (Nat.div_mod q (prodn (pre ++ [u])) ltac:(lia)) as E.
    pose proof (Nat.mod_upper_bound q (prodn (pre ++ [u])) ltac:(lia)) as Hr.
    cbn [length repeat app bc_pos Nat.eqb]. rewrite (IH _ _ Hr). cbn [Nat.mul Nat.add].
    rewrite E at 2. rewrite prodn_app. cbn [prodn]. rewrite Nat.mul_1_r.
    replace (prodn pre * u * (q / (prodn pre * u)))%nat with ((prodn pre * (q / (prodn pre * u))) * u)%nat by lia.
    assert (Hu : u <> O) by (intros ->; rewrite prodn_app in HP; cbn in HP; lia).
    rewrite Nat.add_comm, Nat.mod_add by exact Hu. reflexivity.
Qed.

Lemma pad_id : forall s r, length s = r -> pad r s = s.
Proof. intros s r <-. unfold pad. rewrite Nat.sub_diag. reflexivity. Qed.
Lemma dims_same : forall s, bc_dims s s = Ok s.
Proof. induction s as [|d s IH]; [reflexivity|]. cbn [bc_dims]. rewrite IH. cbn [bind]. rewrite Nat.eqb_refl. reflexivity. Qed.
Lemma dims_ones_r : forall s, bc_dims s (repeat 1%nat (length s)) = Ok s.
Proof.
  induction s as [|d s IH]; [reflexivity|]. cbn [length repeat bc_dims]. rewrite IH. cbn [bind].
  destruct (Nat.eqb_spec d 1) as [->|]; reflexivity.
Qed.
Lemma dims_last : forall pre u, bc_dims (pre ++ [u]) (repeat 1%nat (length pre) ++ [u]) = Ok (pre ++ [u]).
Proof.
  induction pre as [|d s IH]; intros u; [apply dims_same|]. cbn [app length repeat bc_dims]. rewrite IH. cbn [bind].
  destruct (Nat.eqb_spec d 1) as [->|]; reflexivity.
Qed.
Lemma shape_same : forall s, bc_shape s s = Ok s.
Proof. intros s. unfold bc_shape. rewrite Nat.max_id, !pad_id by reflexivity. apply dims_same. Qed.
Lemma shape_of : forall a b s, length a = length b -> bc_dims a b = Ok s -> bc_shape a b = Ok s.
Proof. intros a b s H E. unfold bc_shape. rewrite H, Nat.max_id, !pad_id by auto. exact E. Qed.

Lemma expand_last_shape : forall k t, nd_shape (expand_last k t) = nd_shape t ++ repeat 1%nat k /\ nd_data (expand_last k t) = nd_data t.
Proof.
  induction k as [|k IH]; intros t; [split; [symmetry; apply app_nil_r|reflexivity]|]. cbn [expand_last].
  destruct (IH (k_expand_last t)) as [E1 E2]. split; [|exact E2]. rewrite E1. cbn [k_expand_last nd_shape repeat]. rewrite <- app_assoc. reflexivity.
Qed.

Section Sample.
Variables (B b : nat).
Hypothesis Hb : (b < B)%nat.

(** ** entry by entry *)
Lemma k1_vec : forall s f t v, sample_vec B b s t v -> sample_vec B b s (k1 f t) (fun j => f (v j)).
Proof. intros s f t v [E H]. split; [exact E|]. intros j Hj. cbn [k1 nd_data]. rewrite H by exact Hj. reflexivity. Qed.
Lemma k1_mat : forall n s f t w, sample_mat B b n s t w -> sample_mat B b n s (k1 f t) (fun i j => f (w i j)).
Proof. intros n s f t w [E H]. split; [exact E|]. intros i j Hi Hj. cbn [k1 nd_data]. rewrite H by auto. reflexivity. Qed.

Lemma vec_ext : forall s t v v', (forall j, (j < prodn s)%nat -> v j = v' j) -> sample_vec B b s t v -> sample_vec B b s t v'.
Proof. intros s t v v' Hv [E H]. split; [exact E|]. intros j Hj. rewrite H by exact Hj. apply Hv; exact Hj. Qed.
Lemma mat_ext : forall n s t w w', (forall i j, (i < n)%nat -> (j < prodn s)%nat -> w i j = w' i j) -> sample_mat B b n s t w -> sample_mat B b n s t w'.
Proof. intros n s t w w' Hw [E H]. split; [exact E|]. intros i j Hi Hj. rewrite H by auto. apply Hw; auto. Qed.

Lemma k2_vec : forall s f t1 t2 v1 v2, sample_vec B b s t1 v1 -> sample_vec B b s t2 v2 ->
  exists t, k2 f t1 t2 = Ok t /\ sample_vec B b s t (fun j => f (v1 j) (v2 j)).
Proof.
  intros s f t1 t2 v1 v2 [E1 H1] [E2 H2]. unfold k2. rewrite E1, E2, shape_same. cbn [bind]. eexists; split; [reflexivity|].
  split; [reflexivity|]. intros j Hj. cbn [nd_data]. unfold bc_get. rewrite E1, E2, !pad_id by reflexivity.
  rewrite !bc_same by (cbn [prodn]; apply pos_lt; auto). rewrite H1, H2 by exact Hj. reflexivity.
Qed.
Lemma mat_pos : forall n P i j, (i < n)%nat -> (j < P)%nat -> ((b * n + i) * P + j < B * (n * P))%nat.
Proof. intros n P i j Hi Hj. pose proof (pos_lt b n i B Hb Hi). nia. Qed.
Lemma k2_mat : forall n s f t1 t2 w1 w2, sample_mat B b n s t1 w1 -> sample_mat B b n s t2 w2 ->
  exists t, k2 f t1 t2 = Ok t /\ sample_mat B b n s t (fun i j => f (w1 i j) (w2 i j)).
Proof.
  intros n s f t1 t2 w1 w2 [E1 H1] [E2 H2]. unfold k2. rewrite E1, E2, shape_same. cbn [bind]. eexists; split; [reflexivity|].
  split; [reflexivity|]. intros i j Hi Hj. cbn [nd_data]. unfold bc_get. rewrite E1, E2, !pad_id by reflexivity.
  rewrite !bc_same by (cbn [prodn]; apply mat_pos; auto). rewrite H1, H2 by auto. reflexivity.
Qed.
Lemma k2_none : forall f, exists t, k2 f none_nd none_nd = Ok t.
Proof. intros f. eexists. reflexivity. Qed.
(** weights and the input coordinates, one per row *)
Lemma k2_row : forall n s f t x w v, sample_mat B b n s t w -> sample_vec B b [n] x v ->
  exists r, k2 f t (expand_last (length s) x) = Ok r /\ sample_mat B b n s r (fun i j => f (w i j) (v i)).
Proof.
  intros n s f t x w v [E1 H1] [E2 H2]. destruct (expand_last_shape (length s) x) as [Es Ed]. rewrite E2 in Es. cbn [app] in Es.
  unfold k2. rewrite E1, Es. erewrite shape_of.
  2:{ cbn [length]. rewrite repeat_length. reflexivity. }
  2:{ cbn [bc_dims]. rewrite dims_ones_r. cbn [bind]. rewrite !Nat.eqb_refl. reflexivity. }
  cbn [bind]. eexists; split; [reflexivity|]. split; [reflexivity|]. intros i j Hi Hj. cbn [nd_data]. unfold bc_get. rewrite E1, Es, Ed.
  rewrite !pad_id by (cbn [length]; rewrite ?repeat_length; reflexivity).
  rewrite bc_same by (cbn [prodn]; apply mat_pos; auto). rewrite H1 by auto. f_equal.
  replace ((b * n + i) * prodn s + j)%nat with (b * prodn (n :: s) + (i * prodn s + j))%nat by (cbn [prodn]; lia).
  rewrite bc_cons by (cbn [prodn]; apply pos_lt; auto). rewrite bc_cons by exact Hj. rewrite bc_ones.
  cbn [prodn]. rewrite prodn_ones, !Nat.mul_1_r, Nat.add_0_r.
  rewrite <- (H2 i) by (cbn [prodn]; lia). cbn [prodn]. rewrite Nat.mul_1_r. f_equal.
  destruct (Nat.eqb_spec B 1), (Nat.eqb_spec n 1); nia.
Qed.
(** one coefficient per neuron, and the weights *)
Lemma k2_col : forall n s f a t v w, sample_vec B b s a v -> sample_mat B b n s t w ->
  exists r, k2 f (k_expand a 1) t = Ok r /\ sample_mat B b n s r (fun i j => f (v j) (w i j)).
Proof.
  intros n s f a t v w [E1 H1] [E2 H2]. unfold k2, k_expand. cbn [nd_shape]. rewrite E1, E2. cbn [firstn skipn app].
  rewrite (shape_of (B :: 1%nat :: s) (B :: n :: s) (B :: n :: s)).
  2:{ reflexivity. }
  2:{ cbn [bc_dims]. rewrite dims_same. cbn [bind]. destruct (Nat.eqb_spec 1 n) as [<-|]; cbn [Nat.eqb bind]; rewrite Nat.eqb_refl; reflexivity. }
  cbn [bind]. eexists; split; [reflexivity|]. split; [reflexivity|]. intros i j Hi Hj. cbn [nd_data]. unfold bc_get. cbn [nd_shape nd_data].
  rewrite E2, !pad_id by reflexivity. rewrite (bc_same (B :: n :: s)) by (cbn [prodn]; apply mat_pos; auto). rewrite H2 by auto. f_equal.
  replace ((b * n + i) * prodn s + j)%nat with (b * prodn (n :: s) + (i * prodn s + j))%nat by (cbn [prodn]; lia).
  rewrite bc_cons by (cbn [prodn]; apply pos_lt; auto). rewrite bc_cons by exact Hj. rewrite (bc_same s) by exact Hj.
  cbn [prodn Nat.eqb]. rewrite <- (H1 j) by exact Hj. f_equal.
  destruct (Nat.eqb_spec B 1); nia.
Qed.
(** a bias on the last axis *)
Lemma k2_bias : forall pre u f t a v, sample_vec B b (pre ++ [u]) t v -> nd_shape a = [u] ->
  exists r, k2 f t a = Ok r /\ sample_vec B b (pre ++ [u]) r (fun j => f (v j) (nd_data a (j mod u))).
Proof.
  intros pre u f t a v [E1 H1] E2. unfold k2. rewrite E1, E2. unfold bc_shape.
  assert (Em : Nat.max (length (B :: pre ++ [u])) (length [u]) = length (B :: pre ++ [u])) by (cbn [length]; rewrite app_length; cbn [length]; lia).
  rewrite Em. rewrite (pad_id (B :: pre ++ [u])) by reflexivity.
  assert (Ep : pad (length (B :: pre ++ [u])) [u] = repeat 1%nat (length (B :: pre)) ++ [u]).
  { unfold pad. f_equal. f_equal. cbn [length]. rewrite app_length. cbn [length]. lia. }
  rewrite Ep. change (B :: pre ++ [u]) with ((B :: pre) ++ [u]). rewrite dims_last. cbn [bind]. eexists; split; [reflexivity|]. split; [reflexivity|].
  intros j Hj. cbn [nd_data]. unfold bc_get. rewrite E1, E2. rewrite (pad_id (B :: pre ++ [u])) by reflexivity.
  change (pad (length ((B :: pre) ++ [u])) [u]) with (pad (length (B :: pre ++ [u])) [u]). rewrite Ep.
  assert (Hq : (b * prodn (pre ++ [u]) + j < prodn ((B :: pre) ++ [u]))%nat) by (cbn [app prodn]; apply pos_lt; auto).
  rewrite bc_last by exact Hq. change ((B :: pre) ++ [u]) with (B :: pre ++ [u]). rewrite bc_same by exact Hq. rewrite H1 by exact Hj. f_equal. f_equal.
  rewrite prodn_app. cbn [prodn]. rewrite Nat.mul_1_r.
  assert (Hu : u <> O) by (intros ->; rewrite prodn_app in Hj; cbn in Hj; lia).
  replace (b * (prodn pre * u) + j)%nat with (j + (b * prodn pre) * u)%nat by lia. apply Nat.mod_add; exact Hu.
Qed.
(** a coefficient per neuron without batch axis, K[None] *)
Lemma k2_gamma : forall s f g a t v, nd_shape a = s -> sample_vec B b s t v ->
  exists r, k2 f (k1 g (k_expand a 0)) t = Ok r /\ sample_vec B b s r (fun j => f (g (nd_data a j)) (v j)).
Proof.
  intros s f g a t v E1 [E2 H2]. unfold k2, k_expand. cbn [k1 nd_shape]. rewrite E1, E2. cbn [firstn skipn app].
  rewrite (shape_of (1%nat :: s) (B :: s) (B :: s)).
  2:{ reflexivity. }
  2:{ cbn [bc_dims]. rewrite dims_same. cbn [bind]. destruct (Nat.eqb_spec 1 B) as [<-|]; reflexivity. }
  cbn [bind]. eexists; split; [reflexivity|]. split; [reflexivity|]. intros j Hj. cbn [nd_data]. unfold bc_get. cbn [nd_shape nd_data k1].
  rewrite E2, !pad_id by reflexivity. rewrite (bc_same (B :: s)) by (cbn [prodn]; apply pos_lt; auto). rewrite H2 by auto. f_equal.
  rewrite bc_cons by exact Hj. rewrite bc_same by exact Hj. reflexivity.
Qed.

(** ** reductions, slices *)
Lemma k_reduce_mat : forall red n s t w, (forall f g, (forall i, (i < n)%nat -> f i = g i) -> red n f = red n g) ->
  sample_mat B b n s t w -> exists r, k_reduce red t 1 = Ok r /\ sample_vec B b s r (fun j => red n (fun i => w i j)).
Proof.
  intros red n s t w Hred [E H]. unfold k_reduce. rewrite E. cbn [skipn firstn app]. eexists; split; [reflexivity|]. split; [reflexivity|].
  intros j Hj. cbn [nd_data]. destruct (dm b (prodn s) j Hj) as [-> ->]. apply Hred. intros i Hi. apply H; auto.
Qed.
Lemma k_sum_mat : forall n s t w, sample_mat B b n s t w -> exists r, k_sum t 1 = Ok r /\ sample_vec B b s r (fun j => rsum n (fun i => w i j)).
Proof. intros n s t w H. apply k_reduce_mat; [apply rsum_ext|exact H]. Qed.
Lemma k_max_mat : forall n s t w, (0 < n)%nat -> sample_mat B b n s t w -> exists r, k_max t 1 = Ok r /\ sample_vec B b s r (fun j => rmax n (fun i => w i j)).
Proof. intros n s t w Hn H. apply k_reduce_mat; [intros f g; apply rmax_ext; exact Hn|exact H]. Qed.
Lemma k_index_mat : forall n s t w k, (k < n)%nat -> sample_mat B b n s t w -> exists r, k_index t k = Ok r /\ sample_vec B b s r (w k).
Proof.
  intros n s t w k Hk [E H]. unfold k_index. rewrite E. destruct (Nat.ltb_spec k n); [|lia]. eexists; split; [reflexivity|]. split; [reflexivity|].
  intros j Hj. cbn [nd_data]. destruct (dm b (prodn s) j Hj) as [-> ->]. apply H; auto.
Qed.

(** ** products *)
Lemma k_dot_vec : forall pre d u t k v, (0 < u)%nat -> nd_shape k = [d; u] -> sample_vec B b (pre ++ [d]) t v ->
  exists r, k_dot t k = Ok r /\ sample_vec B b (pre ++ [u]) r (fun j => rsum d (fun c => v (j / u * d + c)%nat * nd_data k (c * u + j mod u)%nat)).
Proof.
  intros pre d u t k v Hu Ek [E H]. unfold k_dot. rewrite E, Ek. change (B :: pre ++ [d]) with ((B :: pre) ++ [d]). rewrite rev_app_distr. cbn [rev app].
  rewrite Nat.eqb_refl. eexists; split; [reflexivity|]. split; [cbn [nd_shape]; change (rev pre ++ [B]) with (rev (B :: pre)); rewrite rev_involutive; reflexivity|].
  intros j Hj. cbn [nd_data]. rewrite prodn_app in *. cbn [prodn] in *. rewrite ?Nat.mul_1_r in *.
  replace (b * (prodn pre * u) + j)%nat with (j + (b * prodn pre) * u)%nat by lia.
  rewrite Nat.mod_add, Nat.div_add by lia. apply rsum_ext. intros c Hc. f_equal.
  assert (Hq : (j / u < prodn pre)%nat) by (apply Nat.div_lt_upper_bound; lia).
  rewrite <- H by nia. f_equal. lia.
Qed.
Lemma k_dot_mat : forall n pre d u t k w, (0 < u)%nat -> nd_shape k = [d; u] -> sample_mat B b n (pre ++ [d]) t w ->
  exists r, k_dot t k = Ok r /\ sample_mat B b n (pre ++ [u]) r (fun i j => rsum d (fun c => w i (j / u * d + c)%nat * nd_data k (c * u + j mod u)%nat)).
Proof.
  intros n pre d u t k w Hu Ek [E H]. unfold k_dot. rewrite E, Ek. change (B :: n :: pre ++ [d]) with ((B :: n :: pre) ++ [d]). rewrite rev_app_distr. cbn [rev app].
  rewrite Nat.eqb_refl. eexists; split; [reflexivity|].
  split; [cbn [nd_shape]; change ((rev pre ++ [n]) ++ [B]) with (rev (B :: n :: pre)); rewrite rev_involutive; reflexivity|].
  intros i j Hi Hj. cbn [nd_data]. rewrite prodn_app in *. cbn [prodn] in *. rewrite ?Nat.mul_1_r in *.
  replace ((b * n + i) * (prodn pre * u) + j)%nat with (j + ((b * n + i) * prodn pre) * u)%nat by lia.
  rewrite Nat.mod_add, Nat.div_add by lia. apply rsum_ext. intros c Hc. f_equal.
  assert (Hq : (j / u < prodn pre)%nat) by (apply Nat.div_lt_upper_bound; lia).
  rewrite <- H by nia. f_equal. lia.
Qed.
Lemma k_batch_dot_mat : forall n h k x y w1 w2, sample_mat B b n [h] x w1 -> sample_mat B b h [k] y w2 ->
  exists r, k_batch_dot x y = Ok r /\ sample_mat B b n [k] r (fun i j => rsum h (fun c => w1 i c * w2 c j)).
Proof.
  intros n h k x y w1 w2 [E1 H1] [E2 H2]. unfold k_batch_dot. rewrite E1, E2, !Nat.eqb_refl. cbn [andb]. eexists; split; [reflexivity|]. split; [reflexivity|].
  intros i j Hi Hj. cbn [prodn] in *. rewrite ?Nat.mul_1_r in *. cbn [nd_data]. destruct (dm (b * n + i) k j Hj) as [-> ->].
  replace ((b * n + i) * k + j)%nat with (b * (n * k) + (i * k + j))%nat by lia. destruct (dm b (n * k) (i * k + j)%nat ltac:(nia)) as [-> _].
  apply rsum_ext. intros c Hc. rewrite <- (H1 i c) by (cbn [prodn]; lia). rewrite <- (H2 c j) by (cbn [prodn]; lia). cbn [prodn]. rewrite ?Nat.mul_1_r. reflexivity.
Qed.
Lemma k_batch_dot_vec : forall h k x y v w, sample_vec B b [h] x v -> sample_mat B b h [k] y w ->
  exists r, k_batch_dot x y = Ok r /\ sample_vec B b [k] r (fun j => rsum h (fun c => v c * w c j)).
Proof.
  intros h k x y v w [E1 H1] [E2 H2]. unfold k_batch_dot. rewrite E1, E2, !Nat.eqb_refl. cbn [andb]. eexists; split; [reflexivity|]. split; [reflexivity|].
  intros j Hj. cbn [prodn] in *. rewrite ?Nat.mul_1_r in *. cbn [nd_data]. destruct (dm b k j Hj) as [-> ->].
  apply rsum_ext. intros c Hc. rewrite <- (H1 c) by (cbn [prodn]; lia). rewrite <- (H2 c j) by (cbn [prodn]; lia). cbn [prodn]. rewrite ?Nat.mul_1_r. reflexivity.
Qed.
(** ** reshapes *)
Lemma k_reshape_vec : forall s s' t v, prodn s' = prodn s -> (0 < prodn s)%nat -> sample_vec B b s t v ->
  exists r, k_reshape t s' = Ok r /\ sample_vec B b s' r v.
Proof.
  intros s s' t v Es Hs [E H]. unfold k_reshape. rewrite E, Es. cbn [prodn].
  destruct (Nat.eqb_spec (prodn s) 0); [lia|]. rewrite Nat.mod_mul by lia. cbn [Nat.eqb negb orb]. rewrite Nat.div_mul by lia.
  eexists; split; [reflexivity|]. split; [reflexivity|]. rewrite Es. exact H.
Qed.
Lemma k_reshape_mat : forall n s s' t w, prodn s' = prodn s -> (0 < prodn s)%nat -> (0 < n)%nat -> sample_mat B b n s t w ->
  exists r, k_reshape t (n :: s') = Ok r /\ sample_mat B b n s' r w.
Proof.
  intros n s s' t w Es Hs Hn [E H]. unfold k_reshape. rewrite E. cbn [prodn]. rewrite Es.
  destruct (Nat.eqb_spec (n * prodn s) 0); [nia|]. rewrite Nat.mod_mul by lia. cbn [Nat.eqb negb orb]. rewrite Nat.div_mul by lia.
  eexists; split; [reflexivity|]. split; [reflexivity|]. rewrite Es. exact H.
Qed.
(** ** identities, diagonals *)
Lemma k_identity_vec : forall d t v, sample_vec B b [d] t v -> sample_mat B b d [d] (k_identity t) (fun i j => if Nat.eqb i j then 1 else 0).
Proof.
  intros d t v [E H]. unfold k_identity. rewrite E. cbn [last app]. split; [reflexivity|]. intros i j Hi Hj. cbn [nd_data prodn] in *. rewrite ?Nat.mul_1_r in *.
  destruct (dm (b * d + i) d j Hj) as [-> ->]. destruct (dm b d i Hi) as [_ ->]. reflexivity.
Qed.
Lemma k_diag_vec : forall m t v, sample_vec B b [m] t v -> sample_mat B b m [m] (k_diag t) (fun i j => if Nat.eqb i j then v j else 0).
Proof.
  intros m t v [E H]. unfold k_diag. rewrite E. cbn [prodn] in *. rewrite ?Nat.mul_1_r in *. split; [reflexivity|]. intros i j Hi Hj. cbn [nd_data prodn] in *. rewrite ?Nat.mul_1_r in *.
  destruct (dm (b * m + i) m j Hj) as [-> ->]. destruct (dm b m i Hi) as [-> ->]. destruct (Nat.eqb i j); [|reflexivity]. apply H; exact Hj.
Qed.
Lemma k_pair_vec : forall s t1 t2 v1 v2, sample_vec B b s t1 v1 -> sample_vec B b s t2 v2 ->
  exists r, k_pair (k_expand t1 1) (k_expand t2 1) = Ok r /\ sample_mat B b 2 s r (fun c => if Nat.eqb c 0 then v1 else v2).
Proof.
  intros s t1 t2 v1 v2 [E1 H1] [E2 H2]. unfold k_pair, k_expand. cbn [nd_shape nd_data]. rewrite E1, E2. cbn [firstn skipn app]. rewrite Nat.eqb_refl.
  eexists; split; [reflexivity|]. split; [reflexivity|]. intros i j Hi Hj. cbn [nd_data].
  destruct (dm (b * 2 + i) (prodn s) j Hj) as [-> ->]. destruct (dm b 2 i Hi) as [-> ->]. destruct (Nat.eqb i 0); cbn [nd_data]; [apply H1|apply H2]; exact Hj.
Qed.
(** ** K.rnn *)
Lemma mapR_seq : forall A (f : nat -> result A) (P : nat -> A -> Prop) k m, (forall i, (k <= i < k + m)%nat -> exists a, f i = Ok a /\ P i a) ->
  exists l, mapR f (seq k m) = Ok l /\ length l = m /\ forall i d, (i < m)%nat -> P (k + i)%nat (nth i l d).
Proof.
  intros A f P k m. revert k. induction m as [|m IH]; intros k H.
  - exists []. split; [reflexivity|split; [reflexivity|intros; lia]].
  - destruct (H k ltac:(lia)) as (a & Ea & Pa). destruct (IH (S k)) as (l & El & Hl & Pl); [intros i Hi; apply H; lia|].
    exists (a :: l). cbn [seq mapR]. rewrite Ea. cbn [bind]. rewrite El. cbn [bind length]. split; [reflexivity|split; [lia|]].
    intros [|i] d Hi; cbn [nth]; [rewrite Nat.add_0_r; exact Pa|]. replace (k + S i)%nat with (S k + i)%nat by lia. apply Pl; lia.
Qed.
Lemma k_rnn_mat : forall n s s' step t w, (0 < n)%nat ->
  (forall x v, sample_vec B b s x v -> exists r, step x = Ok r /\ sample_vec B b s' r v) ->
  sample_mat B b n s t w -> exists r, k_rnn step t = Ok r /\ sample_mat B b n s' r w.
Proof.
  intros n s s' step t w Hn Hstep Hw. pose proof Hw as [E _]. unfold k_rnn. rewrite E.
  destruct (mapR_seq nd (fun i => x <- k_index t i ; step x) (fun i r => sample_vec B b s' r (w i)) 0 n) as (l & El & Hl & Pl).
  { intros i Hi. destruct (k_index_mat n s t w i ltac:(lia) Hw) as (x & Ex & Hx). rewrite Ex. cbn [bind]. apply Hstep; exact Hx. }
  rewrite El. cbn [bind]. destruct l as [|y q] eqn:Eq; [cbn in Hl; lia|]. rewrite <- Eq in *.
  pose proof (Pl 0%nat y Hn) as [Ey _]. rewrite Eq in Ey. cbn [nth] in Ey. rewrite Ey. eexists; split; [reflexivity|].
  unfold k_stack. rewrite Hl. split; [reflexivity|]. intros i j Hi Hj. cbn [nd_data].
  destruct (dm (b * n + i) (prodn s') j Hj) as [-> ->]. destruct (dm b n i Hi) as [-> ->].
  apply (Pl i (mk_nd [] (fun _ => 0)) Hi). exact Hj.
Qed.
End Sample.
