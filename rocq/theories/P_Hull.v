(** Proofs about M_Pool: counter-examples for max-pooling, hulls of the maximum, constraints. *)
From Coq Require Import Reals Lra Lia Psatz List Arith Bool ZArith.
From Verif Require Import RLib Spec Spec_Layers M_Core M_Utils M_MergeLayers M_Ops M_Layers M_Pool.
From Verif Require Import P_Core P_Utils P_MergeLayers P_Axis P_Ops P_Sort P_Layers P_Move P_Pool.
Import ListNotations.
Local Open Scope R_scope.

(** ** upper hull of one line *)
(** [solve] solves every system that has a solution *)
Definition solver (solve : nat -> mat -> vec -> vec) : Prop :=
  forall n a b, (exists x, forall t, (t < n)%nat -> rsum n (fun j => a t j * x j) = b t) ->
    forall t, (t < n)%nat -> rsum n (fun j => a t j * solve n a b j) = b t.

Definition box_ok (n : nat) (l u : vec) : Prop := forall j, (j < n)%nat -> l j <= u j.

Lemma ic_ge1 : forall l u j, l j <= u j -> 1 <= index_collapse l u j.
Proof. intros l u j H. unfold index_collapse. destruct (Rsgn_cases (l j - u j)) as [[? ->]|[[? ->]|[? ->]]]; lra. Qed.

Lemma corner_system_row : forall n l u t x, (t <= n)%nat ->
  rsum (S n) (fun j => corner_system n l u t j * x j) = rsum n (fun j => corner_collapse l u t j * x j) + x n.
Proof.
  intros n l u t x Ht. cbn [rsum]. f_equal.
  - apply rsum_ext. intros j Hj. unfold corner_system. destruct (Nat.eqb_spec j n); [lia|auto].
  - unfold corner_system. rewrite Nat.eqb_refl. ring.
Qed.

Lemma corner_last : forall n l u, (0 < n)%nat -> corner_pred n l u n = rmax n u.
Proof. intros. unfold corner_pred. apply rmax_ext; auto. intros j Hj. unfold corner. destruct (Nat.eqb_spec n j); [lia|auto]. Qed.

Lemma corner_row : forall n l u t (x : vec), (t < n)%nat ->
  rsum n (fun j => corner_collapse l u t j * x j) =
  rsum n (fun j => (u j + index_collapse l u j) * x j) - (u t + index_collapse l u t - l t) * x t.
Proof.
  intros n l u t x Ht.
  assert (D : rsum n (fun j => if Nat.eqb j t then (u j + index_collapse l u j - l j) * x j else 0) = (u t + index_collapse l u t - l t) * x t).
  { rewrite (rsum_delta n t (fun j => (u j + index_collapse l u j - l j) * x j)) by auto. auto. }
  rewrite <- D, <- rsum_minus. apply rsum_ext. intros j Hj. unfold corner_collapse.
  destruct (Nat.eqb_spec t j) as [->|H]; [rewrite Nat.eqb_refl; ring|].
  destruct (Nat.eqb_spec j t); [congruence|ring].
Qed.

Lemma corner_solvable : forall n l u, (0 < n)%nat -> box_ok n l u ->
  exists x, forall t, (t < S n)%nat -> rsum (S n) (fun j => corner_system n l u t j * x j) = corner_pred n l u t.
Proof.
  intros n l u Hn Hb.
  set (w := fun j => (rmax n u - corner_pred n l u j) / (u j + index_collapse l u j - l j)).
  set (b := rmax n u - rsum n (fun j => (u j + index_collapse l u j) * w j)).
  exists (fun j => if Nat.eqb j n then b else w j). intros t Ht.
  rewrite corner_system_row by lia. rewrite Nat.eqb_refl.
  rewrite (rsum_ext n _ (fun j => corner_collapse l u t j * w j)).
  2:{ intros j Hj. destruct (Nat.eqb_spec j n); [lia|auto]. }
  destruct (Nat.eq_dec t n) as [->|Hne].
  - rewrite corner_last by auto. unfold b. rewrite (rsum_ext n _ (fun j => (u j + index_collapse l u j) * w j)); [ring|].
    intros j Hj. unfold corner_collapse. destruct (Nat.eqb_spec n j); [lia|auto].
  - rewrite corner_row by lia. unfold b. assert (Htn : (t < n)%nat) by lia. pose proof (Hb t Htn). pose proof (ic_ge1 l u t H).
    unfold w at 2. field. lra.
Qed.

Lemma upper_line_eqs : forall solve n l u, solver solve -> (0 < n)%nat -> box_ok n l u ->
  let x := upper_line solve n l u in
  rsum n (fun j => (u j + index_collapse l u j) * x j) + x n = rmax n u /\
  forall t, (t < n)%nat -> (u t + index_collapse l u t - l t) * x t = rmax n u - corner_pred n l u t.
Proof.
  intros solve n l u Hs Hn Hb x. pose proof (Hs (S n) (corner_system n l u) (corner_pred n l u) (corner_solvable n l u Hn Hb)) as H.
  fold (upper_line solve n l u) in H. fold x in H.
  assert (E : rsum n (fun j => (u j + index_collapse l u j) * x j) + x n = rmax n u).
  { specialize (H n ltac:(lia)). rewrite corner_system_row in H by lia. rewrite corner_last in H by auto. rewrite <- H. f_equal.
    apply rsum_ext. intros j Hj. unfold corner_collapse. destruct (Nat.eqb_spec n j); [lia|auto]. }
  split; auto. intros t Ht. specialize (H t ltac:(lia)). rewrite corner_system_row in H by lia. rewrite corner_row in H by auto. lra.
Qed.

Lemma corner_le : forall n l u t, (0 < n)%nat -> box_ok n l u -> corner_pred n l u t <= rmax n u.
Proof.
  intros n l u t Hn Hb. apply rmax_le; auto. intros j Hj. unfold corner. destruct (Nat.eqb_spec t j); [subst; auto|lra].
Qed.

Lemma upper_line_pos : forall solve n l u t, solver solve -> (0 < n)%nat -> box_ok n l u -> (t < n)%nat ->
  0 <= upper_line solve n l u t.
Proof.
  intros solve n l u t Hs Hn Hb Ht. destruct (upper_line_eqs solve n l u Hs Hn Hb) as [_ E]. specialize (E t Ht).
  pose proof (corner_le n l u t Hn Hb). pose proof (ic_ge1 l u t (Hb t Ht)). pose proof (Hb t Ht).
  destruct (Rle_dec 0 (upper_line solve n l u t)); auto. exfalso. nra.
Qed.

(** value of the affine function at the upper corner *)
Definition line_value (n : nat) (x v : vec) : R := rsum n (fun j => x j * v j) + x n.

Lemma upper_line_at_u : forall solve n l u, solver solve -> (0 < n)%nat -> box_ok n l u ->
  line_value n (upper_line solve n l u) u =
  rmax n u - rsum n (fun j => index_collapse l u j * upper_line solve n l u j).
Proof.
  intros solve n l u Hs Hn Hb. destruct (upper_line_eqs solve n l u Hs Hn Hb) as [E _]. unfold line_value. rewrite <- E.
  set (x := upper_line solve n l u).
  rewrite (rsum_ext n (fun j => (u j + index_collapse l u j) * x j) (fun j => x j * u j + index_collapse l u j * x j)) by (intros; ring).
  rewrite rsum_plus. ring.
Qed.

(** the upper line encloses the maximum on the box exactly when no coordinate decides alone *)
Lemma upper_line_sound : forall solve n l u, solver solve -> (0 < n)%nat -> box_ok n l u ->
  (forall v, in_box n l u v -> rmax n v <= line_value n (upper_line solve n l u) v) <->
  (forall t, (t < n)%nat -> rmax n (fun j => if Nat.eqb t j then l j else u j) = rmax n u).
Proof.
  intros solve n l u Hs Hn Hb. destruct (upper_line_eqs solve n l u Hs Hn Hb) as [E1 E2]. set (x := upper_line solve n l u) in *. split.
  - intros H t Ht. apply Rle_antisym; [apply (corner_le n l u t Hn Hb)|].
    change (rmax n (fun j => if Nat.eqb t j then l j else u j)) with (corner_pred n l u t).
    destruct (Rle_dec (rmax n u) (corner_pred n l u t)) as [|N]; auto. exfalso.
    assert (Hu : in_box n l u u) by (intros j Hj; specialize (Hb j Hj); lra).
    specialize (H u Hu). unfold x in H. rewrite upper_line_at_u in H by auto. fold x in H.
    assert (P : 0 < rsum n (fun j => index_collapse l u j * x j)).
    { apply Rlt_le_trans with (index_collapse l u t * x t).
      - specialize (E2 t Ht). pose proof (ic_ge1 l u t (Hb t Ht)). pose proof (Hb t Ht).
        assert (0 < x t) by (destruct (Rlt_dec 0 (x t)); auto; exfalso; nra). nra.
      - apply (rsum_ge_term n (fun j => index_collapse l u j * x j) t); auto.
        intros j Hj. pose proof (ic_ge1 l u j (Hb j Hj)). pose proof (upper_line_pos solve n l u j Hs Hn Hb Hj). fold x in H1. nra. }
    lra.
  - intros H v Hv.
    assert (X0 : forall t, (t < n)%nat -> x t = 0).
    { intros t Ht. specialize (E2 t Ht). change (corner_pred n l u t) with (rmax n (fun j => if Nat.eqb t j then l j else u j)) in E2. rewrite (H t Ht) in E2.
      pose proof (ic_ge1 l u t (Hb t Ht)). pose proof (Hb t Ht). nra. }
    unfold line_value. rewrite rsum_eq0 by (intros j Hj; rewrite X0; [ring|auto]).
    rewrite rsum_eq0 in E1 by (intros j Hj; rewrite X0; [ring|auto]). rewrite E1. apply rmax_le; auto. intros j Hj. apply Hv; auto.
Qed.

(** a coordinate that is above all the others at the upper corner breaks it *)
Lemma upper_line_unsound : forall solve n l u t, solver solve -> box_ok n l u -> (t < n)%nat -> l t < u t ->
  (forall j, (j < n)%nat -> j <> t -> u j < u t) ->
  line_value n (upper_line solve n l u) u < rmax n u.
Proof.
  intros solve n l u t Hs Hb Ht Hl Hmax. assert (Hn : (0 < n)%nat) by lia.
  destruct (upper_line_eqs solve n l u Hs Hn Hb) as [E1 E2]. set (x := upper_line solve n l u) in *.
  unfold x. rewrite upper_line_at_u by auto. fold x.
  assert (N : corner_pred n l u t < rmax n u).
  { unfold corner_pred. destruct (rmax_attained n (corner l u t) Hn) as (j & Hj & ->).
    apply Rlt_le_trans with (u t); [|apply rmax_ge; auto]. unfold corner. destruct (Nat.eqb_spec t j) as [<-|]; auto. }
  assert (P : 0 < rsum n (fun j => index_collapse l u j * x j)).
  { apply Rlt_le_trans with (index_collapse l u t * x t).
    - specialize (E2 t Ht). pose proof (ic_ge1 l u t (Hb t Ht)). pose proof (Hb t Ht).
      assert (0 < x t) by (destruct (Rlt_dec 0 (x t)); auto; exfalso; nra). nra.
    - apply (rsum_ge_term n (fun j => index_collapse l u j * x j) t); auto.
      intros j Hj. pose proof (ic_ge1 l u j (Hb j Hj)). pose proof (upper_line_pos solve n l u j Hs Hn Hb Hj). fold x in H0. nra. }
  lra.
Qed.

(** ** lower hull of one line *)
Lemma argmin_lt : forall n v, (0 < n)%nat -> (argmin n v < n)%nat.
Proof.
  intros n v Hn. unfold argmin. assert (G : forall k, (argmin_to k v <= k)%nat).
  { induction k; cbn; [lia|]. destruct (Rlt_dec _ _); lia. }
  specialize (G (pred n)). lia.
Qed.
Lemma argmin_min : forall n v j, (j < n)%nat -> v (argmin n v) <= v j.
Proof.
  intros n v j Hj. unfold argmin.
  assert (G : forall k i, (i <= k)%nat -> v (argmin_to k v) <= v i).
  { induction k; intros i Hi; cbn; [replace i with 0%nat by lia; lra|].
    destruct (Rlt_dec (v (S k)) (v (argmin_to k v))) as [L|L].
    - destruct (Nat.eq_dec i (S k)) as [->|]; [lra|]. specialize (IHk i ltac:(lia)). lra.
    - destruct (Nat.eq_dec i (S k)) as [->|]; [lra|]. apply IHk. lia. }
  apply G. lia.
Qed.

Lemma one_hot_dot : forall n i (v : vec), (i < n)%nat -> rsum n (fun j => one_hot i j * v j) = v i.
Proof.
  intros n i v Hi. rewrite (rsum_ext n _ (fun j => if Nat.eqb j i then v j else 0)).
  - rewrite (rsum_delta n i v) by auto. auto.
  - intros j Hj. unfold one_hot. rewrite (Nat.eqb_sym i j). destruct (Nat.eqb j i); ring.
Qed.

Lemma lower_line_sound : forall n l u ft v, (0 < n)%nat ->
  match ft with None => True | Some a => (forall j, (j < n)%nat -> 0 <= a j <= 1) /\ (forall j j', (j < n)%nat -> (j' < n)%nat -> a j = a j') end ->
  rsum n (fun j => lower_line n l u ft j * v j) <= rmax n v.
Proof.
  intros n l u ft v Hn Hft. unfold lower_line. cbv zeta.
  set (i := argmin n (lower_score n l u)). assert (Hi : (i < n)%nat) by (apply argmin_lt; auto).
  destruct ft as [a|].
  - destruct Hft as [Ha Hc]. set (k := argmax n (fun j => a j * u j + (1 - a j) * l j)).
    assert (Hk : (k < n)%nat) by (apply argmin_lt; auto).
    rewrite (rsum_ext n _ (fun j => (1 - a 0%nat) * (one_hot i j * v j) + a 0%nat * (one_hot k j * v j))).
    2:{ intros j Hj. rewrite (Hc j 0%nat) by auto. ring. }
    rewrite rsum_plus, !rsum_scal, !one_hot_dot by auto.
    pose proof (rmax_ge n v i Hi). pose proof (rmax_ge n v k Hk). specialize (Ha 0%nat Hn). nra.
  - rewrite one_hot_dot by auto. apply rmax_ge; auto.
Qed.

(** ** on blocks *)
Definition hull_axis_ok (pre : list nat) (k : nat) (post : list nat) (axis : Z) : Prop :=
  axis = pos_axis pre \/ (post = [] /\ (axis = -1 \/ axis = pos_axis (pre ++ [k])))%Z.

Lemma hull_axis_mid : forall pre k post axis, hull_axis_ok pre k post axis -> hull_axis (pre ++ k :: post) axis = Ok (length pre).
Proof.
  intros pre k post axis H. unfold hull_axis. cbv zeta.
  assert (L : length (pre ++ k :: post) = (length pre + S (length post))%nat) by (rewrite app_length; auto).
  rewrite L.
  assert (N : b_axis (pre ++ k :: []) (-1) = Ok (length pre)) by exact (b_axis_neg pre k []).
  destruct H as [->|[-> [-> | ->]]].
  - destruct (Z.eqb_spec (pos_axis pre) (Z.of_nat (length pre + S (length post) + 1))) as [E|_]; [unfold pos_axis in E; lia|].
    destruct (Z.eqb_spec (pos_axis pre) (-1)) as [E|_]; [unfold pos_axis in E; lia|].
    destruct (Z.ltb_spec (pos_axis pre) 0) as [E|_]; [unfold pos_axis in E; lia|]. cbn [negb andb]. apply b_axis_pos.
  - destruct (Z.eqb_spec (-1) (Z.of_nat (length pre + S (length (@nil nat)) + 1))) as [E|_]; [lia|]. exact N.
  - destruct (Z.eqb_spec (pos_axis (pre ++ [k])) (Z.of_nat (length pre + S (length (@nil nat)) + 1))) as [E|E].
    + exact N.
    + exfalso. apply E. unfold pos_axis. rewrite app_length. cbn [length]. lia.
Qed.

Lemma hull_axis_error : forall s axis, (axis < -1)%Z -> hull_axis s axis = Err NotImplementedError.
Proof.
  intros s axis H. unfold hull_axis. cbv zeta.
  destruct (Z.eqb_spec axis (Z.of_nat (length s + 1))); [lia|]. destruct (Z.eqb_spec axis (-1)); [lia|].
  destruct (Z.ltb_spec axis 0); [|lia]. reflexivity.
Qed.

Lemma by_line_at : forall pre k post w p c q, in_shape pre p -> in_shape post q -> (c < k)%nat ->
  by_line k (prodn post) w 0%nat (ravel (pre ++ k :: post) (p ++ c :: q)) = w (ravel pre p) (ravel post q) c.
Proof.
  intros pre k post w p c q Hp Hq Hc. rewrite ravel_flat by auto. unfold by_line, flat.
  pose proof (ravel_lt _ _ Hq). rewrite flat_div, flat_mod by auto. rewrite flat_div, flat_mod by auto. auto.
Qed.
Lemma per_line_at : forall pre post b p q, in_shape pre p -> in_shape post q ->
  per_line (prodn post) b 0%nat (ravel (pre ++ post) (p ++ q)) = b (ravel pre p) (ravel post q).
Proof.
  intros pre post b p q Hp Hq. rewrite ravel_app by auto. unfold per_line. pose proof (ravel_lt _ _ Hq).
  rewrite flat_div, flat_mod by auto. auto.
Qed.

(** coefficients in [0,1], equal along the axis *)
Definition ft_line (pre : list nat) (k : nat) (post : list nat) (ft : option vec) : Prop :=
  match ft with
  | None => True
  | Some a => forall p q, in_shape pre p -> in_shape post q ->
      (forall c, (c < k)%nat -> 0 <= a (ravel (pre ++ k :: post) (p ++ c :: q)) <= 1) /\
      (forall c c', (c < k)%nat -> (c' < k)%nat ->
         a (ravel (pre ++ k :: post) (p ++ c :: q)) = a (ravel (pre ++ k :: post) (p ++ c' :: q)))
  end.

(** [w], [b] are, for each line, an affine function of the values along the axis *)
Definition line_fun (pre : list nat) (k : nat) (post : list nat) (w b : tensor) (v : vec) (p q : list nat) : R :=
  rsum k (fun c => w 0%nat (ravel (pre ++ k :: post) (p ++ c :: q)) * v (ravel (pre ++ k :: post) (p ++ c :: q)))
  + b 0%nat (ravel (pre ++ post) (p ++ q)).

Lemma lower_hull_sound : forall sp S pre k post axis ft (f g : vec -> vec) ts,
  (0 < sp_n sp)%nat -> dom_ok (sp_dom sp) (sp_mode sp) -> (0 < k)%nat ->
  hull_axis_ok pre k post axis -> ft_line pre k post ft -> along_axis rmax pre k post f g ->
  op_sp sp S (prodn (pre ++ k :: post)) f ts ->
  exists w b, lower_hull_max sp (pre ++ k :: post) axis ft ts = Ok (w, b) /\
    forall z p q, in_shape pre p -> in_shape post q ->
      line_fun pre k post w b (f z) p q <= g z (ravel (pre ++ post) (p ++ q)).
Proof.
  intros sp S pre k post axis ft f g ts Hn Hd Hk Hax Hft Hg Hv.
  destruct (get_full_sound sp true true S _ f ts Hn Hd Hv) as (r & E & _).
  unfold lower_hull_max. rewrite E. cbn [bind]. rewrite (hull_axis_mid _ _ _ _ Hax). cbn [bind].
  rewrite ax_len_mid, ax_inner_mid. cbv zeta. do 2 eexists. split; [reflexivity|].
  intros z p q Hp Hq. rewrite (Hg z p q Hp Hq). unfold line_fun. rewrite per_line_at by auto.
  rewrite (rsum_eq0 k (fun c => 0 * _)) by (intros; ring). rewrite Rplus_0_r.
  erewrite rsum_ext.
  2:{ intros c Hc. rewrite by_line_at by auto. reflexivity. }
  apply (lower_line_sound k _ _ _ (fun c => f z (ravel (pre ++ k :: post) (p ++ c :: q)))); auto.
  destruct ft as [a|]; cbn [option_map]; auto. destruct (Hft p q Hp Hq) as [H1 H2]. unfold line_at, vt.
  split; intros; rewrite <- !ravel_flat by auto; auto.
Qed.

Lemma upper_hull_partial : forall solve sp S pre k post axis (f g : vec -> vec) ts,
  solver solve -> (0 < sp_n sp)%nat -> dom_ok (sp_dom sp) (sp_mode sp) -> (0 < k)%nat ->
  hull_axis_ok pre k post axis -> along_axis rmax pre k post f g ->
  op_sp sp S (prodn (pre ++ k :: post)) f ts ->
  (forall r p q t, get_fullinputs sp true true ts = Ok r -> in_shape pre p -> in_shape post q -> (t < k)%nat ->
     let at_ (v : tensor) c := v 0%nat (ravel (pre ++ k :: post) (p ++ c :: q)) in
     rmax k (fun c => if Nat.eqb t c then at_ (f_lc r) c else at_ (f_uc r) c) = rmax k (at_ (f_uc r))) ->
  exists w b, upper_hull_max solve sp (pre ++ k :: post) axis ts = Ok (w, b) /\
    forall z p q, S z -> in_shape pre p -> in_shape post q ->
      g z (ravel (pre ++ post) (p ++ q)) <= line_fun pre k post w b (f z) p q.
Proof.
  intros solve sp S pre k post axis f g ts Hs Hn Hd Hk Hax Hg Hv Htie.
  destruct (get_full_sound sp true true S _ f ts Hn Hd Hv) as (r & E & C & _).
  rewrite orb_true_r in C. specialize (C eq_refl).
  unfold upper_hull_max. rewrite E. cbn [bind]. rewrite (hull_axis_mid _ _ _ _ Hax). cbn [bind].
  rewrite ax_len_mid, ax_inner_mid. cbv zeta. do 2 eexists. split; [reflexivity|].
  intros z p q Hz Hp Hq. rewrite (Hg z p q Hp Hq). unfold line_fun. rewrite per_line_at by auto.
  erewrite (rsum_ext k).
  2:{ intros c Hc. rewrite by_line_at by auto. reflexivity. }
  set (l := line_at (f_lc r) k (prodn post) (ravel pre p) (ravel post q)).
  set (u := line_at (f_uc r) k (prodn post) (ravel pre p) (ravel post q)).
  assert (B : in_box k l u (fun c => f z (ravel (pre ++ k :: post) (p ++ c :: q)))).
  { intros c Hc. unfold l, u, line_at. rewrite <- ravel_flat by auto. apply C; auto. apply position_mid_lt; auto. }
  apply (proj2 (upper_line_sound solve k l u Hs Hk ltac:(intros j Hj; specialize (B j Hj); lra))); auto.
  intros t Ht. specialize (Htie r p q t E Hp Hq Ht). cbv zeta beta in Htie. unfold l, u, line_at.
  etransitivity; [|etransitivity; [exact Htie|]]; apply rmax_ext; auto; intros c Hc; rewrite !ravel_flat by auto; auto.
Qed.

(** one line of two coordinates in [0,1] x [-1,0], interval mode: the upper hull is below the maximum *)
Definition hull_u : tensor := fun _ j => if Nat.eqb j 0 then 1 else 0.
Definition hull_l : tensor := fun _ j => if Nat.eqb j 0 then 0 else -1.
Lemma upper_hull_refuted : forall solve, solver solve -> exists ts w b z,
  op_sp (mk_spec false IBP Box 2) (in_box 2 (hull_l 0%nat) (hull_u 0%nat)) 2 (fun z => z) ts /\
  upper_hull_max solve (mk_spec false IBP Box 2) [2]%nat (-1) ts = Ok (w, b) /\
  in_box 2 (hull_l 0%nat) (hull_u 0%nat) z /\
  w 0%nat 0%nat * z 0%nat + w 0%nat 1%nat * z 1%nat + b 0%nat 0%nat < Rmax (z 0%nat) (z 1%nat).
Proof.
  intros solve Hs. exists [hull_u; hull_l]. do 2 eexists. exists (hull_u 0%nat). split; [|split; [reflexivity|split]].
  - split; [reflexivity|]. intros z j Hz Hj. apply (Hz j Hj).
  - intros j Hj. unfold hull_u, hull_l. destruct (Nat.eqb j 0); lra.
  - set (l := line_at hull_l 2 1 0 0). set (u := line_at hull_u 2 1 0 0).
    assert (H : line_value 2 (upper_line solve 2 l u) u < rmax 2 u).
    { apply (upper_line_unsound solve 2 _ _ 0%nat); auto.
      - intros j Hj. destruct j as [|[|]]; cbn; [lra|lra|lia].
      - cbn. lra.
      - intros j Hj Hne. destruct j as [|[|]]; cbn; [lia|lra|lia]. }
    unfold line_value, rmax in H. cbn [rsum rmax_to pred] in H. rewrite Rplus_0_l in H.
    exact H.
Qed.

(** a coefficient that varies along the axis breaks the lower hull *)
Lemma lower_hull_ft_refuted : exists a ts w b z,
  (forall j, (j < 2)%nat -> 0 <= a j <= 1) /\
  op_sp (mk_spec false IBP Box 2) (in_box 2 (fun _ => 1) (fun j => if Nat.eqb j 0 then 2 else 3)) 2 (fun z => z) ts /\
  lower_hull_max (mk_spec false IBP Box 2) [2]%nat (-1) (Some a) ts = Ok (w, b) /\
  in_box 2 (fun _ => 1) (fun j => if Nat.eqb j 0 then 2 else 3) z /\
  Rmax (z 0%nat) (z 1%nat) < w 0%nat 0%nat * z 0%nat + w 0%nat 1%nat * z 1%nat + b 0%nat 0%nat.
Proof.
  exists (fun j => if Nat.eqb j 0 then 0 else 1).
  exists [fun _ j => if Nat.eqb j 0 then 2 else 3; fun _ _ => 1]. do 2 eexists. exists (fun _ => 1).
  split; [intros j Hj; destruct (Nat.eqb j 0); lra|]. split; [|split; [reflexivity|split]].
  - split; [reflexivity|]. intros z j Hz Hj. apply (Hz j Hj).
  - intros j Hj. destruct (Nat.eqb j 0); lra.
  - set (l := line_at (fun _ _ => 1) 2 1 0 0). set (u := line_at (fun _ j => if Nat.eqb j 0 then 2 else 3) 2 1 0 0).
    set (al := line_at (vt (fun j => if Nat.eqb j 0 then 0 else 1)) 2 1 0 0).
    assert (E1 : argmin 2 (lower_score 2 l u) = 0%nat).
    { unfold argmin, lower_score, rmax, l, u, line_at. cbn. rewrite (Rmax_right 1 1) by lra.
      assert (Rsgn (Ropp 2 + 1) = -1) as -> by (apply Rsgn_neg; lra).
      assert (Rsgn (Ropp 3 + 1) = -1) as -> by (apply Rsgn_neg; lra).
      destruct (Rlt_dec _ _) as [L|]; auto. exfalso. lra. }
    assert (E2 : argmax 2 (fun j => al j * u j + (1 - al j) * l j) = 1%nat).
    { unfold argmax, argmin, al, l, u, line_at. cbn. unfold vt. cbn. destruct (Rlt_dec _ _) as [L|N]; auto. exfalso. apply N. lra. }
    assert (H : Rmax 1 1 < lower_line 2 l u (Some al) 0%nat * 1 + lower_line 2 l u (Some al) 1%nat * 1 +
              (0 + 0 * lower_line 2 l u (Some al) 0%nat + 0 * lower_line 2 l u (Some al) 1%nat)).
    { unfold lower_line. cbv zeta. rewrite E1, E2. unfold al, l, u, line_at. cbn. unfold vt. cbn. rewrite Rmax_left by lra. lra. }
    exact H.
Qed.

(** ** constraints *)
(** values the constraint allows, for a weight of k rows and the columns q < m *)
Definition allowed (k m : nat) (c : constraint) (w : mat) : Prop :=
  match c with
  | NonPos => forall i q, (i < k)%nat -> (q < m)%nat -> w i q <= 0
  | NonNeg => forall i q, (i < k)%nat -> (q < m)%nat -> 0 <= w i q
  | ClipAlpha => forall i q, (i < k)%nat -> (q < m)%nat -> 0 <= w i q <= 1
  | ClipAlphaGrid => forall q, (q < m)%nat -> (forall i, (i < k)%nat -> 0 <= w i q) /\ rsum k (fun i => w i q) <= 1
  end.

Lemma grid_allowed : forall k m w, allowed k m ClipAlphaGrid (apply_constraint k ClipAlphaGrid w).
Proof.
  intros k m w q Hq. cbn. set (s := rsum k (fun i => Rclip (w i q) 0 1)).
  assert (Hs : 0 <= s) by (apply rsum_ge0; intros; apply Rclip_range; lra).
  pose proof (Rmax_r s 1). pose proof (Rmax_l s 1). split.
  - intros i Hi. apply Rmult_le_pos; [apply Rclip_range; lra|]. left. apply Rinv_0_lt_compat. lra.
  - unfold Rdiv. rewrite rsum_scal_r. fold s. apply (Rmult_le_reg_r (Rmax s 1)); [lra|]. rewrite Rmult_assoc, Rinv_l by lra. lra.
Qed.

Lemma apply_allowed : forall k m c w, allowed k m c (apply_constraint k c w).
Proof.
  intros k m [ | | |] w; [ | | |apply grid_allowed]; intros i q Hi Hq; cbn.
  - apply Rmin_r.
  - apply Rmax_r.
  - apply Rclip_range; lra.
Qed.

Lemma grid_entries : forall k m w, allowed k m ClipAlphaGrid w -> allowed k m ClipAlpha w.
Proof.
  intros k m w H i q Hi Hq. destruct (H q Hq) as [H1 H2]. split; auto.
  eapply Rle_trans; [|exact H2]. apply (rsum_ge_term k (fun i => w i q) i); auto.
Qed.

Lemma apply_id : forall k m c w, allowed k m c w -> forall i q, (i < k)%nat -> (q < m)%nat -> apply_constraint k c w i q = w i q.
Proof.
  intros k m [ | | |] w H i q Hi Hq; cbn.
  - apply Rmin_left; auto.
  - apply Rmax_left; auto.
  - apply Rclip_id; auto.
  - pose proof (grid_entries k m w H) as G. destruct (H q Hq) as [H1 H2].
    rewrite (rsum_ext k _ (fun i' => w i' q)) by (intros; apply Rclip_id; apply G; auto).
    rewrite Rmax_right by auto. rewrite Rclip_id by (apply G; auto). field.
Qed.

(** a second constraint never breaks the first *)
Lemma apply_keeps : forall k m c c' w, allowed k m c w -> allowed k m c (apply_constraint k c' w).
Proof.
  intros k m c c' w H. destruct c, c'; try (apply apply_allowed).
  - intros i q Hi Hq. cbn in *. specialize (H i q Hi Hq). rewrite Rmax_right; lra.
  - intros i q Hi Hq. cbn in *. specialize (H i q Hi Hq). unfold Rclip. rewrite (Rmax_right _ 0) by lra. rewrite Rmin_left; lra.
  - intros i q Hi Hq. cbn in *. pose proof (H i q Hi Hq).
    assert (Rclip (w i q) 0 1 = 0) as -> by (unfold Rclip; rewrite (Rmax_right _ 0) by lra; rewrite Rmin_left; lra). unfold Rdiv. lra.
  - intros i q Hi Hq. cbn in *. specialize (H i q Hi Hq). rewrite Rmin_right; lra.
  - intros i q Hi Hq. cbn. apply Rclip_range; lra.
  - intros i q Hi Hq. apply (grid_allowed k m w q Hq). auto.
  - intros i q Hi Hq. cbn in *. specialize (H i q Hi Hq). rewrite Rmin_right; lra.
  - intros i q Hi Hq. cbn in *. specialize (H i q Hi Hq). rewrite Rmax_left; lra.
  - apply (grid_entries k m _ (grid_allowed k m w)).
  - intros q Hq. cbn. destruct (H q Hq) as [H1 H2].
    assert (E : forall i, (i < k)%nat -> Rmin (w i q) 0 = 0) by (intros; apply Rmin_right; auto).
    split; [intros; rewrite E; auto; lra|]. rewrite rsum_eq0 by auto. lra.
  - intros q Hq. cbn. destruct (H q Hq) as [H1 H2].
    assert (E : forall i, (i < k)%nat -> Rmax (w i q) 0 = w i q) by (intros; apply Rmax_left; auto).
    split; [intros; rewrite E; auto|]. rewrite (rsum_ext k _ (fun i => w i q)) by auto. auto.
  - intros q Hq. cbn. destruct (H q Hq) as [H1 H2].
    assert (E : forall i, (i < k)%nat -> Rclip (w i q) 0 1 = w i q) by (intros; apply Rclip_id; apply (grid_entries k m w H); auto).
    split; [intros; rewrite E; auto|]. rewrite (rsum_ext k _ (fun i => w i q)) by auto. auto.
Qed.

Lemma multiple_keeps : forall k m c cs w, allowed k m c w -> allowed k m c (apply_multiple k cs w).
Proof. intros k m c cs. unfold apply_multiple. induction cs; intros w H; cbn; auto. apply IHcs. apply apply_keeps; auto. Qed.
Lemma multiple_allowed : forall k m c cs w, In c cs -> allowed k m c (apply_multiple k cs w).
Proof.
  intros k m c cs. unfold apply_multiple. induction cs as [|a cs IH]; intros w H; [destruct H|]. cbn.
  destruct H as [->|H]; [|apply IH; auto]. apply (multiple_keeps k m c cs). apply apply_allowed.
Qed.
Lemma multiple_id : forall k m cs w, (forall c, In c cs -> allowed k m c w) ->
  forall i q, (i < k)%nat -> (q < m)%nat -> apply_multiple k cs w i q = w i q.
Proof.
  intros k m cs. unfold apply_multiple. induction cs as [|a cs IH]; intros w H i q Hi Hq; auto. cbn.
  rewrite IH; auto.
  - apply (apply_id k m); auto. apply H; left; auto.
  - intros c Hc. apply apply_keeps. apply H; right; auto.
Qed.

Lemma train_allowed : forall k m cs w upds c, In c cs -> (upds <> [] \/ allowed k m c w) -> allowed k m c (train k cs w upds).
Proof.
  intros k m cs w upds c Hc H. unfold train. destruct upds as [|u upds] using rev_ind.
  - destruct H as [H|H]; [congruence|auto].
  - rewrite fold_left_app. cbn [fold_left]. unfold train_step at 1. apply multiple_allowed; auto.
Qed.

Lemma bc_rev_length : forall a b r, bc_rev a b = Some r -> length r = Nat.max (length a) (length b).
Proof.
  induction a as [|x a IH]; intros b r H.
  - destruct b; cbn in H; injection H as <-; auto.
  - destruct b as [|y b]; cbn in H; [injection H as <-; auto|].
    destruct (bc_rev a b) as [r'|] eqn:E; [|discriminate]. specialize (IH b r' E).
    assert (length r = S (length r')) by (destruct (Nat.eqb x y); [|destruct (Nat.eqb x 1); [|destruct (Nat.eqb y 1); [|discriminate]]]; injection H as <-; auto).
    cbn [length]. lia.
Qed.
Lemma sum_to_one_shape_wrong : forall k s, sum_to_one_shape k s <> Some (k :: s).
Proof.
  intros k s. destruct s as [|a q]; cbn [sum_to_one_shape]; [discriminate|].
  destruct (bc_rev (rev (k :: a :: q)) (rev (a :: 1 :: 1 :: 1 :: q)))%nat as [r|] eqn:E; [|discriminate].
  cbn [option_map]. intros H. injection H as H. apply bc_rev_length in E. rewrite !rev_length in E. cbn [length] in E.
  apply (f_equal (@length nat)) in H. rewrite rev_length in H. cbn [length] in H. lia.
Qed.

Lemma project_allowed : forall k m (pos : bool) w, allowed k m (if pos then NonNeg else NonPos) (project_initializer pos w).
Proof. intros k m [] w i q Hi Hq; cbn; [apply Rmax_l|apply Rmin_l]. Qed.

(** ** counter-examples for exact pooling *)
(** a 1 x 1 image equal to -1, pool 2 x 2, "same" padding: the zero padding becomes the lower bound *)
Definition geo_same : conv_geo := mk_geo true (mk_win 1 2 1 1 true) (mk_win 1 2 1 1 true) 1 1.
(** a 2 x 3 image equal to -1 everywhere, pool 2 x 3, no padding *)
Definition geo_23 : conv_geo := mk_geo true (mk_win 2 2 1 1 false) (mk_win 3 3 1 1 false) 1 1.

Lemma pool_refuted : forall g, g = geo_same \/ g = geo_23 -> forall ke, exists ts out,
  valid Box IBP false (fun z => True) 1 (im_size (cg_in g)) (fun z j => -1) ts /\
  decomon_max_pooling ke (mk_spec false IBP Box 1) false g ts = Ok out /\
  max_pool g (fun _ => -1) 0%nat < nth 1 out empty_tensor 0%nat 0%nat.
Proof.
  intros g Hg ke. exists [fun _ _ => -1; fun _ _ => -1].
  assert (V : valid Box IBP false (fun z => True) 1 (im_size (cg_in g)) (fun z j => -1) [fun _ _ => -1; fun _ _ => -1]).
  { split; [reflexivity|]. intros z j _ Hj. lra. }
  destruct Hg as [-> | ->]; eexists; (split; [exact V|]); (split; [reflexivity|]).
  - change (max_pool geo_same (fun _ => -1) 0%nat) with (-1).
    match goal with |- _ < nth 1 [_; red_axis rmax ?s ?a ?t] _ _ _ =>
      apply Rlt_le_trans with (slice s a 3 t 0%nat 0%nat); [cbn; lra | apply (rmax_ge 4 (fun c => slice s a c t 0%nat 0%nat) 3); lia] end.
  - replace (max_pool geo_23 (fun _ => -1) 0%nat) with (-1).
    2:{ unfold max_pool. cbn. unfold max_list. cbn. rewrite !(Rmax_left (-1) (-1)) by lra. auto. }
    match goal with |- _ < nth 1 [_; red_axis rmax ?s ?a ?t] _ _ _ =>
      apply Rlt_le_trans with (slice s a 5 t 0%nat 0%nat); [cbn; lra | apply (rmax_ge 6 (fun c => slice s a c t 0%nat 0%nat) 5); lia] end.
Qed.
