(** AdversarialScore, AdversarialCheck (C57) and UpperScore (C63). *)
From Coq Require Import Reals Lra Lia List Arith Bool ZArith.
From Verif Require Import RLib Spec M_Core M_Utils M_Ops M_Backward M_Convert M_Metrics Spec_Convert Spec_Wrapper Spec_Metrics P_Core P_Convert P_Metrics P_MetricsAdv P_MetricsLoss.
Import ListNotations.
Local Open Scope R_scope.

(** ** C57 *)
Lemma ibp_score_ge : forall k u l y t s, (t < k)%nat -> (s < k)%nat -> label_pair y t s -> u t - l s <= get_ibp_score k l u y None.
Proof.
  intros k u l y t s T S [P Q]. unfold get_ibp_score, target_of.
  eapply Rle_trans; [|apply (rmax_ge k (fun j => u j * (1 - y j) - rmin k (fun c => l c * y c) - 1000000 * (1 - (1 - y j))) t T)]. cbn beta. rewrite P.
  pose proof (rmin_le k (fun c => l c * y c) s S) as H. cbn beta in H. rewrite Q in H. lra.
Qed.
Lemma aff_diff : forall n wu bu wl bl z a b t s (W : mat) (B : vec) q e, (forall i, (i < n)%nat -> W i q = wu i t - wl i s) -> B q = bu t - bl s - e -> a = t -> b = s ->
  aff n W B z q = aff n wu bu z a - aff n wl bl z b - e.
Proof.
  intros n wu bu wl bl z a b t s W B q e HW HB -> ->. unfold aff, dot. rewrite HB. rewrite (rsum_ext n _ (fun i => wu i t * z i - wl i s * z i)) by (intros i I; rewrite HW by exact I; ring).
  rewrite rsum_minus. ring.
Qed.
Lemma affine_score_entries : forall D n k x wu bu wl bl y, (0 < n)%nat -> norm_ok D ->
  exists up v, get_affine_score D n k x wl bl wu bu y None = Ok v /\ v = max2 k k up /\
    (forall s t, (s < k)%nat -> (t < k)%nat -> forall z, in_dom D n x z -> aff n wu bu z t - aff n wl bl z s - (1000000 * y t + 1000000 * (1 - y s)) <= up s t) /\
    (dom_nonempty D n x -> forall s t, (s < k)%nat -> (t < k)%nat ->
       is_max (in_dom D n x) (fun z => aff n wu bu z t - aff n wl bl z s - (1000000 * y t + 1000000 * (1 - y s))) (up s t)).
Proof.
  intros D n k x wu bu wl bl y Hn ND. unfold get_affine_score, target_of.
  set (W := fun i q => wu i (q mod k)%nat - wl i (q / k)%nat).
  set (B := fun q => bu (q mod k)%nat - bl (q / k)%nat - 1000000 * (1 - (1 - y (q mod k)%nat)) - 1000000 * (1 - y (q / k)%nat)).
  destruct (get_upper_ok D n x W B ND) as [U E]. change (fun (i q : nat) => wu i (q mod k)%nat - wl i (q / k)%nat) with W. rewrite E. cbn [bind].
  exists (fun a b => U (a * k + b)%nat). eexists. split; [reflexivity|]. split; [reflexivity|].
  assert (A : forall s t z, (s < k)%nat -> (t < k)%nat -> aff n W B z (s * k + t)%nat = aff n wu bu z t - aff n wl bl z s - (1000000 * y t + 1000000 * (1 - y s))).
  { intros s t z Hs T. destruct (flat_divmod k s t T) as [D1 D2]. apply (aff_diff n wu bu wl bl z t s t s); [intros i I; unfold W; rewrite D1, D2; reflexivity| |reflexivity|reflexivity].
    unfold B. rewrite D1, D2. ring. }
  split.
  - intros s t Hs T z Z. rewrite <- A by assumption. apply (get_upper_sound D n x W B U z _ Hn E Z).
  - intros NE s t Hs T. destruct (get_upper_max D n x W B U (s * k + t)%nat Hn NE E) as [M1 (z & Z & M2)]. split.
    + intros z' Z'. rewrite <- A by assumption. apply M1. exact Z'.
    + exists z. split; [exact Z|]. rewrite <- A by assumption. exact M2.
Qed.
Lemma affine_score_ge : forall D n k x wu bu wl bl y, (0 < n)%nat -> norm_ok D ->
  exists v, get_affine_score D n k x wl bl wu bu y None = Ok v /\
    forall t s z, (t < k)%nat -> (s < k)%nat -> label_pair y t s -> in_dom D n x z -> aff n wu bu z t - aff n wl bl z s <= v.
Proof.
  intros D n k x wu bu wl bl y Hn ND. destruct (affine_score_entries D n k x wu bu wl bl y Hn ND) as (up & v & E & -> & A & _). eexists. split; [exact E|].
  intros t s z T S [P Q] Z. pose proof (A s t S T z Z) as H. rewrite P, Q in H. pose proof (max2_ge k k up s t S T). lra.
Qed.
Theorem adv_score_sound : forall D mode S n k f ts ignored z0 y, (0 < n)%nat -> dom_ok D mode -> valid D mode false S n k f ts ->
  exists v, adv_metric true (get_ibp mode) (get_affine mode) FORWARD D n k (metric_inputs mode ignored z0 ts y) = Ok v /\
    forall z t s, S z -> (t < k)%nat -> (s < k)%nat -> label_pair (y 0%nat) t s -> f z t - f z s <= v.
Proof.
  intros D mode S n k f ts ignored z0 y Hn Hd [L V]. destruct mode; cbn in L.
  - destruct ts as [|u [|l [|? ?]]]; try discriminate L. eexists. split; [reflexivity|]. intros z t s Z T Hs P.
    pose proof (ibp_score_ge k (u 0%nat) (l 0%nat) (y 0%nat) t s T Hs P). pose proof (V z t Z T). pose proof (V z s Z Hs). lra.
  - destruct ts as [|x [|wu [|bu [|wl [|bl [|? ?]]]]]]; try discriminate L. destruct V as [X V].
    destruct (affine_score_ge D n k x wu (bu 0%nat) wl (bl 0%nat) (y 0%nat) Hn Hd) as (v & E & G). exists v.
    unfold adv_metric. cbn [metric_inputs app y_of rev bind get_ibp get_affine first_n firstn length Nat.leb]. rewrite E. split; [reflexivity|]. intros z t s Z T Hs P.
    pose proof (G t s z T Hs P (X z Z)). pose proof (V z t Z T). pose proof (V z s Z Hs). lra.
  - destruct ts as [|x [|u [|wu [|bu [|l [|wl [|bl [|? ?]]]]]]]]; try discriminate L. destruct V as (X & C & V).
    destruct (affine_score_ge D n k x wu (bu 0%nat) wl (bl 0%nat) (y 0%nat) Hn Hd) as (v & E & G).
    exists (Rmin (get_ibp_score k (l 0%nat) (u 0%nat) (y 0%nat) None) v).
    unfold adv_metric. cbn [metric_inputs app y_of rev bind get_ibp get_affine first_n firstn length Nat.leb]. rewrite E. split; [reflexivity|]. intros z t s Z T Hs P.
    pose proof (G t s z T Hs P (X z Z)). pose proof (V z t Z T). pose proof (V z s Z Hs). pose proof (C z t Z T). pose proof (C z s Z Hs).
    pose proof (ibp_score_ge k (u 0%nat) (l 0%nat) (y 0%nat) t s T Hs P). apply Rmin_glb; lra.
Qed.

(** exact value in affine mode, for values that stay within the penalty *)
Theorem adv_score_affine_value : forall D n k x wu bu wl bl ignored z0 y, (0 < n)%nat -> norm_ok D -> inhabited_dom D AFFINE n [x] ->
  mask01 k (y 0%nat) -> some_pair k (y 0%nat) ->
  (forall t s t' s' z z', (t < k)%nat -> (s < k)%nat -> (t' < k)%nat -> (s' < k)%nat -> in_dom D n x z -> in_dom D n x z' ->
     (aff n wu (bu 0%nat) z t - aff n wl (bl 0%nat) z s) - (aff n wu (bu 0%nat) z' t' - aff n wl (bl 0%nat) z' s') <= 1000000) ->
  exists v, adv_metric true false true FORWARD D n k (metric_inputs AFFINE ignored z0 [x; wu; bu; wl; bl] y) = Ok v /\
    pair_dom_max D n k x (label_pair (y 0%nat)) (fun t s z => aff n wu (bu 0%nat) z t - aff n wl (bl 0%nat) z s) v.
Proof.
  intros D n k x wu bu wl bl ignored z0 y Hn ND NE My (t0 & s0 & T0 & S0 & P0) Bd.
  destruct (affine_score_entries D n k x wu (bu 0%nat) wl (bl 0%nat) (y 0%nat) Hn ND) as (up & v & E & Ev & A & M). specialize (M NE).
  exists v. unfold adv_metric. cbn [metric_inputs app y_of rev bind first_n firstn length Nat.leb]. rewrite E. split; [reflexivity|].
  assert (G : forall t s z, (t < k)%nat -> (s < k)%nat -> label_pair (y 0%nat) t s -> in_dom D n x z -> aff n wu (bu 0%nat) z t - aff n wl (bl 0%nat) z s <= v).
  { intros t s z T S [P Q] Z. pose proof (A s t S T z Z) as H. rewrite P, Q in H. pose proof (max2_ge k k up s t S T). lra. }
  split; [exact G|]. destruct (max2_attained k k up ltac:(lia) ltac:(lia)) as (s & t & Hs & T & Eq). rewrite <- Ev in Eq.
  destruct (M s t Hs T) as [_ (z & Z & Ez)]. cbn beta in Ez.
  assert (Cs : label_pair (y 0%nat) t s \/ 1000000 <= 1000000 * y 0%nat t + 1000000 * (1 - y 0%nat s)).
  { unfold label_pair. destruct (My t T) as [-> | ->], (My s Hs) as [-> | ->]; [right; lra|left; split; reflexivity|right; lra|right; lra]. }
  destruct Cs as [P|Pen].
  - exists t, s, z. split; [exact T|]. split; [exact Hs|]. split; [exact P|]. split; [exact Z|]. destruct P as [P Q]. rewrite P, Q in Ez. lra.
  - destruct (M s0 t0 S0 T0) as [_ (z1 & Z1 & Ez1)]. pose proof (Bd t s t0 s0 z z1 T Hs T0 S0 Z Z1) as H.
    pose proof (G t0 s0 z1 T0 S0 P0 Z1) as H1. exists t0, s0, z1. split; [exact T0|]. split; [exact S0|]. split; [exact P0|]. split; [exact Z1|]. lra.
Qed.

(** value in ibp mode for one class: the lower bound of the class counts only when it is negative *)
Theorem adv_score_ibp_value : forall D n k c u l ignored z0 y, (2 <= k)%nat -> (c < k)%nat -> y 0%nat = id_mat c ->
  (forall j, (j < k)%nat -> -1000000 <= u 0%nat j) ->
  exists v, adv_metric true true false FORWARD D n k (metric_inputs IBP ignored z0 [u; l] y) = Ok v /\
    (forall t, (t < k)%nat -> t <> c -> u 0%nat t - Rmin 0 (l 0%nat c) <= v) /\
    exists t, (t < k)%nat /\ t <> c /\ v = u 0%nat t - Rmin 0 (l 0%nat c).
Proof.
  intros D n k c u l ignored z0 y K C Y U. eexists. split; [reflexivity|]. rewrite Y. unfold get_ibp_score, target_of.
  assert (Em : rmin k (fun j => l 0%nat j * id_mat c j) = Rmin 0 (l 0%nat c)).
  { apply Rle_antisym.
    - apply Rmin_glb.
      + set (o := if Nat.eqb c 0 then 1%nat else O). assert (o < k /\ o <> c)%nat as [O1 O2] by (unfold o; destruct (Nat.eqb_spec c 0); lia).
        pose proof (rmin_le k (fun j => l 0%nat j * id_mat c j) o O1) as H. cbn beta in H. rewrite (id_off c o O2) in H. lra.
      + pose proof (rmin_le k (fun j => l 0%nat j * id_mat c j) c C) as H. cbn beta in H. rewrite id_on in H. lra.
    - apply rmin_glb; [lia|]. intros j J. destruct (Nat.eq_dec j c) as [->|N]; [rewrite id_on, Rmult_1_r; apply Rmin_r|rewrite (id_off c j N), Rmult_0_r; apply Rmin_l]. }
  rewrite Em. set (g := fun j => u 0%nat j * (1 - id_mat c j) - Rmin 0 (l 0%nat c) - 1000000 * (1 - (1 - id_mat c j))).
  assert (G : forall t, t <> c -> g t = u 0%nat t - Rmin 0 (l 0%nat c)) by (intros t N; unfold g; rewrite (id_off c t N); lra).
  assert (LE : forall t, (t < k)%nat -> t <> c -> u 0%nat t - Rmin 0 (l 0%nat c) <= rmax k g).
  { intros t T N. rewrite <- (G t N). apply rmax_ge. exact T. }
  split; [exact LE|]. destruct (rmax_attained k g ltac:(lia)) as (t & T & E). destruct (Nat.eq_dec t c) as [->|N].
  - set (o := if Nat.eqb c 0 then 1%nat else O). assert (o < k /\ o <> c)%nat as [O1 O2] by (unfold o; destruct (Nat.eqb_spec c 0); lia).
    exists o. split; [exact O1|]. split; [exact O2|]. apply Rle_antisym; [|apply LE; assumption]. rewrite E. unfold g. rewrite id_on. specialize (U o O1). lra.
  - exists t. split; [exact T|]. split; [exact N|]. rewrite E. apply G. exact N.
Qed.
(** the outputs of an ibp model followed by the label are one tensor short *)
Theorem metric_layout : forall swap mm D n k u l y, adv_metric swap true false mm D n k [u; l; y] = Err ValueError /\ upper_metric true false mm D n k [u; l; y] = Err ValueError.
Proof. intros. split; reflexivity. Qed.
Theorem metric_no_mode : forall swap mm D n k a q, adv_metric swap false false mm D n k (a :: q) = Err NotImplementedError.
Proof.
  intros swap mm D n k a q. unfold adv_metric, y_of. destruct (rev (a :: q)) as [|y r] eqn:E; [|reflexivity].
  apply (f_equal (@length _)) in E. rewrite rev_length in E. discriminate E.
Qed.

(** ** C63 *)
Lemma linear_upper_sound : forall D S n k f x y wu bu, (0 < n)%nat -> norm_ok D -> (forall z, S z -> in_dom D n x z) ->
  (forall j, (j < k)%nat -> 0 <= y j) -> (forall z j, S z -> (j < k)%nat -> f z j <= aff n wu bu z j) ->
  exists v, linear_upper D n k x y wu bu = Ok v /\ forall z, S z -> weighted k y (f z) <= v.
Proof.
  intros D S n k f x y wu bu Hn ND X Y V. unfold linear_upper.
  destruct (get_upper_ok D n x (fun i j => wu i j * y j) (fun j => bu j * y j) ND) as [U E]. rewrite E. cbn [bind]. eexists. split; [reflexivity|].
  intros z Z. apply rsum_le. intros j J. pose proof (get_upper_sound D n x _ _ U z j Hn E (X z Z)) as H.
  assert (Q : aff n (fun i j => wu i j * y j) (fun j => bu j * y j) z j = y j * aff n wu bu z j).
  { unfold aff. rewrite dot_scal_l_r. ring. }
  rewrite Q in H. pose proof (Rmult_le_compat_l (y j) _ _ (Y j J) (V z j Z J)). lra.
Qed.
Lemma const_upper : forall k f (u y : vec), (forall j, (j < k)%nat -> 0 <= y j) -> (forall j, (j < k)%nat -> f j <= u j) -> weighted k y f <= rsum k (fun j => u j * y j).
Proof. intros k f u y Y H. apply rsum_le. intros j J. pose proof (Rmult_le_compat_l (y j) _ _ (Y j J) (H j J)). lra. Qed.
Theorem upper_score_sound : forall D mode S n k f ts ignored z0 y, mode <> AFFINE -> (0 < n)%nat -> dom_ok D mode -> valid D mode false S n k f ts ->
  (forall j, (j < k)%nat -> 0 <= y 0%nat j) ->
  exists v, upper_metric (get_ibp mode) (get_affine mode) FORWARD D n k (metric_inputs mode ignored z0 ts y) = Ok v /\
    forall z, S z -> weighted k (y 0%nat) (f z) <= v.
Proof.
  intros D mode S n k f ts ignored z0 y M Hn Hd [L V] Y. destruct mode; cbn in L; [|congruence|].
  - destruct ts as [|u [|l [|? ?]]]; try discriminate L. eexists. split; [reflexivity|]. intros z Z. apply const_upper; [exact Y|]. intros j J. apply (V z j Z J).
  - destruct ts as [|x [|u [|wu [|bu [|l [|wl [|bl [|? ?]]]]]]]]; try discriminate L. destruct V as (X & C & V).
    destruct (linear_upper_sound D S n k f x (y 0%nat) wu (bu 0%nat) Hn Hd X Y) as (v & E & G); [intros z j Z J; apply (V z j Z J)|].
    eexists. unfold upper_metric. cbn [metric_inputs app y_of rev bind get_ibp get_affine first_n firstn length Nat.leb]. rewrite E. split; [reflexivity|].
    intros z Z. apply Rmin_glb; [|exact (G z Z)]. apply const_upper; [exact Y|]. intros j J. apply (C z j Z J).
Qed.
Theorem upper_score_backward : forall D mode S n k f ts ignored z0 wub bub wlb blb y, mode <> AFFINE -> (0 < n)%nat -> norm_ok D -> valid D mode false S n k f ts ->
  (forall z, S z -> in_dom D n (domain_tensor mode z0 ts) z) -> affine_ok S n k f wub (bub 0%nat) wlb (blb 0%nat) ->
  (forall j, (j < k)%nat -> 0 <= y 0%nat j) ->
  exists v, upper_metric (get_ibp mode) (get_affine mode) BACKWARD D n k (metric_inputs_b mode ignored z0 ts wub bub wlb blb y) = Ok v /\
    forall z, S z -> weighted k (y 0%nat) (f z) <= v.
Proof.
  intros D mode S n k f ts ignored z0 wub bub wlb blb y M Hn ND [L V] X0 B Y. destruct mode; cbn in L; [|congruence|].
  - destruct ts as [|u [|l [|? ?]]]; try discriminate L. cbn [domain_tensor] in X0.
    destruct (linear_upper_sound D S n k f z0 (y 0%nat) wub (bub 0%nat) Hn ND X0 Y) as (v & E & G); [intros z j Z J; apply (B z j Z J)|].
    eexists. unfold upper_metric. cbn [metric_inputs_b app y_of rev bind get_ibp get_affine first_n last_5 firstn skipn length Nat.leb Nat.sub]. rewrite E. split; [reflexivity|].
    intros z Z. apply Rmin_glb; [|exact (G z Z)]. apply const_upper; [exact Y|]. intros j J. apply (V z j Z J).
  - destruct ts as [|x [|u [|wu [|bu [|l [|wl [|bl [|? ?]]]]]]]]; try discriminate L. destruct V as (X & C & V).
    destruct (linear_upper_sound D S n k f x (y 0%nat) wu (bu 0%nat) Hn ND X Y) as (v & E & G); [intros z j Z J; apply (V z j Z J)|].
    destruct (linear_upper_sound D S n k f x (y 0%nat) wub (bub 0%nat) Hn ND X Y) as (vb & Eb & Gb); [intros z j Z J; apply (B z j Z J)|].
    eexists. unfold upper_metric. cbn [metric_inputs_b app y_of rev bind get_ibp get_affine first_n last_5 firstn skipn length Nat.leb Nat.sub]. rewrite E. cbn [bind]. rewrite Eb. split; [reflexivity|].
    intros z Z. apply Rmin_glb; [|exact (Gb z Z)]. apply Rmin_glb; [|exact (G z Z)]. apply const_upper; [exact Y|]. intros j J. apply (C z j Z J).
Qed.
(** the exact value on constant bounds, and on affine bounds *)
Theorem upper_score_value : forall D n k ignored z0 x u wu bu l wl bl y, (0 < n)%nat -> norm_ok D -> inhabited_dom D HYBRID n [x] ->
  upper_metric true false FORWARD D n k (metric_inputs IBP ignored z0 [u; l] y) = Ok (weighted k (y 0%nat) (u 0%nat)) /\
  exists U v, (forall j, is_max (in_dom D n x) (fun z => y 0%nat j * aff n wu (bu 0%nat) z j) (U j)) /\
    upper_metric true true FORWARD D n k (metric_inputs HYBRID ignored z0 [x; u; wu; bu; l; wl; bl] y) = Ok v /\
    v = Rmin (weighted k (y 0%nat) (u 0%nat)) (rsum k U).
Proof.
  intros D n k ignored z0 x u wu bu l wl bl y Hn ND NE.
  assert (Q : rsum k (fun j => u 0%nat j * y 0%nat j) = weighted k (y 0%nat) (u 0%nat)) by (apply rsum_ext; intros; ring).
  split; [rewrite <- Q; reflexivity|].
  destruct (get_upper_ok D n x (fun i j => wu i j * y 0%nat j) (fun j => bu 0%nat j * y 0%nat j) ND) as [U E].
  exists U. eexists. split; [|split; [|rewrite <- Q; reflexivity]].
  - intros j. destruct (get_upper_max D n x _ _ U j Hn NE E) as [M1 (z & Z & M2)].
    assert (R1 : forall z, aff n (fun i j => wu i j * y 0%nat j) (fun j => bu 0%nat j * y 0%nat j) z j = y 0%nat j * aff n wu (bu 0%nat) z j) by (intro; unfold aff; rewrite dot_scal_l_r; ring).
    split; [intros z' Z'; rewrite <- R1; apply M1; exact Z'|]. exists z. split; [exact Z|]. rewrite <- R1. exact M2.
  - unfold upper_metric, linear_upper. cbn [metric_inputs app y_of rev bind first_n firstn length Nat.leb]. rewrite E. reflexivity.
Qed.
Theorem upper_score_affine : forall mm D n k inputs, (2 <= length inputs)%nat -> upper_metric false true mm D n k inputs = Err ValueError.
Proof.
  intros mm D n k inputs H. unfold upper_metric, y_of, first_n. destruct (rev inputs) as [|y r] eqn:E.
  - apply (f_equal (@length _)) in E. rewrite rev_length in E. cbn in E. lia.
  - cbn [bind]. destruct inputs as [|a [|b q]]; try (cbn in H; lia). cbn [bind]. destruct (Nat.leb_spec 6 (length (a :: b :: q))) as [G|G]; [|reflexivity].
    do 4 (destruct q as [|? q]; [cbn in G; lia|]). reflexivity.
Qed.
