(** Losses: packing (C59), upper and lower losses, adversarial loss (C58). *)
From Coq Require Import Reals Lra Lia List Arith Bool ZArith.
From Verif Require Import RLib Spec M_Core M_Utils M_Ops M_Convert M_Metrics Spec_Wrapper Spec_Metrics P_Core.
Import ListNotations.
Local Open Scope R_scope.

Ltac natb := repeat (rewrite ?Nat.eqb_refl, ?Nat.add_0_l;
  match goal with
  | |- context [(?a <? ?b)%nat] => first [replace (a <? b)%nat with true by (symmetry; apply Nat.ltb_lt; lia) | replace (a <? b)%nat with false by (symmetry; apply Nat.ltb_ge; lia)]
  end).

(** ** Packing *)
Lemma pack_slices : forall D mode n k ts, length ts = spec_nb mode false ->
  exists y s, get_model D mode n k ts = Ok y /\ m_r y = (match mode with IBP => k | AFFINE => n + 1 | HYBRID => n + 2 end)%nat /\
    slices D mode k y = Ok s /\ recovered D mode n k ts s.
Proof.
  intros D mode n k ts L. destruct mode; cbn in L.
  - destruct ts as [|u [|l [|? ?]]]; try discriminate L. unfold get_model, hcat. cbn [col_of_vec m_r m_c m_v]. rewrite Nat.eqb_refl.
    do 2 eexists. split; [reflexivity|]. split; [reflexivity|]. split; [destruct D; reflexivity|].
    cbn. unfold is_row. cbn. repeat split.
  - destruct ts as [|x [|wu [|bu [|wl [|bl [|? ?]]]]]]; try discriminate L.
    unfold get_model, w_b_of, hcat, vcat. destruct D as [|eps p]; cbn [x_reshaped x_fake row_of_vec m_r m_c m_v bind]; rewrite !Nat.eqb_refl; cbn [bind m_r m_c m_v]; rewrite !Nat.eqb_refl; cbn [bind m_r m_c m_v]; rewrite !Nat.eqb_refl;
    do 2 eexists; (split; [reflexivity|]); (split; [reflexivity|]).
    + unfold slices, sl_upper, sl_lower, sl_b, sl_w, row_from_end, cols, drop_rows. cbn [get_nb_x_components below m_r m_c m_v].
      replace (1 <=? n + 1)%nat with true by (symmetry; apply Nat.leb_le; lia). cbn [bind m_r m_c m_v]. split; [reflexivity|].
      cbn [recovered s_x s_wu s_bu s_wl s_bl components]. unfold sl_x, is_mat, is_row, drop_rows, cols. cbn [below m_r m_c m_v].
      repeat split; try lia; intros; natb; f_equal; lia.
    + unfold slices, sl_upper, sl_lower, sl_b, sl_w, row_from_end, cols, drop_rows. cbn [get_nb_x_components below m_r m_c m_v].
      replace (1 <=? n + 1)%nat with true by (symmetry; apply Nat.leb_le; lia). cbn [bind m_r m_c m_v]. split; [reflexivity|].
      cbn [recovered s_x s_wu s_bu s_wl s_bl components]. unfold sl_x, is_mat, is_row, drop_rows, cols. cbn [below m_r m_c m_v].
      repeat split; try lia; intros; natb; f_equal; lia.
  - destruct ts as [|x [|u [|wu [|bu [|l [|wl [|bl [|? ?]]]]]]]]; try discriminate L.
    unfold get_model, w_b_of, hcat, vcat. destruct D as [|eps p]; cbn [x_reshaped x_fake row_of_vec m_r m_c m_v bind]; repeat (rewrite !Nat.eqb_refl; cbn [bind m_r m_c m_v]);
    (replace (n + 1 + 1 =? n + 1 + 1)%nat with true by (symmetry; apply Nat.eqb_refl));
    do 2 eexists; (split; [reflexivity|]); (split; [cbn; lia|]).
    + unfold slices, sl_upper, sl_lower, sl_b, sl_c, sl_w, row_from_end, cols, drop_rows. cbn [get_nb_x_components below m_r m_c m_v].
      replace (1 <=? n + 1 + 1)%nat with true by (symmetry; apply Nat.leb_le; lia).
      replace (2 <=? n + 1 + 1)%nat with true by (symmetry; apply Nat.leb_le; lia). cbn [bind m_r m_c m_v]. split; [reflexivity|].
      cbn [recovered s_x s_u s_l s_wu s_bu s_wl s_bl components]. unfold sl_x, is_mat, is_row, drop_rows, cols. cbn [below m_r m_c m_v].
      repeat split; try lia; intros; natb; f_equal; lia.
    + unfold slices, sl_upper, sl_lower, sl_b, sl_c, sl_w, row_from_end, cols, drop_rows. cbn [get_nb_x_components below m_r m_c m_v].
      replace (1 <=? n + 1 + 1)%nat with true by (symmetry; apply Nat.leb_le; lia).
      replace (2 <=? n + 1 + 1)%nat with true by (symmetry; apply Nat.leb_le; lia). cbn [bind m_r m_c m_v]. split; [reflexivity|].
      cbn [recovered s_x s_u s_l s_wu s_bu s_wl s_bl components]. unfold sl_x, is_mat, is_row, drop_rows, cols. cbn [below m_r m_c m_v].
      repeat split; try lia; intros; natb; f_equal; lia.
Qed.

(** ** Largest values *)
Lemma rmax_largest : forall k g, (0 < k)%nat -> largest k g (rmax k g).
Proof.
  intros k g K. split; [intros j J; apply (rmax_ge k g j J)|]. destruct (rmax_attained k g K) as (j & J & E). exists j. split; [exact J|]. symmetry. exact E.
Qed.
Lemma largest_ext : forall k g g' v, (forall j, (j < k)%nat -> g j = g' j) -> largest k g v -> largest k g' v.
Proof.
  intros k g g' v E [A (j & J & B)]. split; [intros i I; rewrite <- E by exact I; apply A; exact I|]. exists j. split; [exact J|]. rewrite <- E by exact J. exact B.
Qed.

(** ** Bounds computed from slices *)
Lemma in_box_ext : forall n (x x' : tensor) z, (forall c i, (c < 2)%nat -> (i < n)%nat -> x c i = x' c i) ->
  in_box n (x 0%nat) (x 1%nat) z -> in_box n (x' 0%nat) (x' 1%nat) z.
Proof. intros n x x' z E H i I. rewrite <- !E by lia. apply H. exact I. Qed.
Lemma aff_ext : forall n w w' b b' z j, (forall i, (i < n)%nat -> w i j = w' i j) -> b j = b' j -> aff n w b z j = aff n w' b' z j.
Proof. intros n w w' b b' z j W B. unfold aff. rewrite B. f_equal. apply dot_ext; [exact W|reflexivity]. Qed.

Lemma loss_upper_box : forall n k k2 x x' w w' b b' j, (forall i, (i < n)%nat -> x 0%nat i <= x 1%nat i) ->
  (forall c i, (c < 2)%nat -> (i < n)%nat -> x' c i = x c i) -> (forall i, (i < n)%nat -> w' i j = w i j) -> b' j = b j ->
  exists U, loss_bound true Box n k k2 x' w' b' = Ok (k, U) /\ is_max (in_box n (x 0%nat) (x 1%nat)) (fun z => aff n w b z j) (U j).
Proof.
  intros n k k2 x x' w w' b b' j H X W B. eexists. split; [reflexivity|].
  assert (H' : forall i, (i < n)%nat -> x' 0%nat i <= x' 1%nat i) by (intros i I; rewrite !X by lia; apply H; exact I).
  destruct (get_upper_box_max n (x' 0%nat) (x' 1%nat) w' b' j H') as [A (z & Z & E)]. split.
  - intros y Y. rewrite (aff_ext n w w' b b') by (intros; symmetry; auto). apply A. apply (in_box_ext n x x'); [intros; symmetry; auto|exact Y].
  - exists z. split; [apply (in_box_ext n x' x); auto|]. rewrite (aff_ext n w w' b b') by (intros; symmetry; auto). exact E.
Qed.
Lemma loss_lower_box : forall n k k2 x x' w w' b b' j, (forall i, (i < n)%nat -> x 0%nat i <= x 1%nat i) ->
  (forall c i, (c < 2)%nat -> (i < n)%nat -> x' c i = x c i) -> (forall i, (i < n)%nat -> w' i j = w i j) -> b' j = b j ->
  exists U, loss_bound false Box n k k2 x' w' b' = Ok (k, U) /\ is_min (in_box n (x 0%nat) (x 1%nat)) (fun z => aff n w b z j) (U j).
Proof.
  intros n k k2 x x' w w' b b' j H X W B. eexists. split; [reflexivity|].
  assert (H' : forall i, (i < n)%nat -> x' 0%nat i <= x' 1%nat i) by (intros i I; rewrite !X by lia; apply H; exact I).
  destruct (get_lower_box_min n (x' 0%nat) (x' 1%nat) w' b' j H') as [A (z & Z & E)]. split.
  - intros y Y. rewrite (aff_ext n w w' b b') by (intros; symmetry; auto). apply A. apply (in_box_ext n x x'); [intros; symmetry; auto|exact Y].
  - exists z. split; [apply (in_box_ext n x' x); auto|]. rewrite (aff_ext n w w' b b') by (intros; symmetry; auto). exact E.
Qed.

(** ** Upper and lower losses of one sample *)
Lemma upper_lin : forall n k x x' w w' b b' ref, (0 < k)%nat -> (forall i, (i < n)%nat -> x 0%nat i <= x 1%nat i) ->
  (forall c i, (c < 2)%nat -> (i < n)%nat -> x' c i = x c i) -> (forall i j, (i < n)%nat -> (j < k)%nat -> w' i j = w i j) -> (forall j, (j < k)%nat -> b' j = b j) ->
  exists r, loss_bound true Box n k 1 x' w' b' = Ok r /\
    exists U : vec, (forall j, (j < k)%nat -> is_max (in_box n (x 0%nat) (x 1%nat)) (fun z => aff n w b z j) (U j)) /\
    largest k (fun j => U j - ref j) (rmax (fst r) (fun j => snd r j - ref (if Nat.eqb (fst r) k then j else O))).
Proof.
  intros n k x x' w w' b b' ref K H X W B. eexists. split; [reflexivity|]. cbn [fst snd]. rewrite Nat.eqb_refl.
  exists (get_upper_box n false (x' 0%nat) (x' 1%nat) w' b'). split.
  - intros j J. destruct (loss_upper_box n k 1 x x' w w' b b' j H X (fun i I => W i j I J) (B j J)) as (U & E & M). injection E as <-. exact M.
  - apply (rmax_largest k (fun j => get_upper_box n false (x' 0%nat) (x' 1%nat) w' b' j - ref j)). exact K.
Qed.
Lemma lower_lin : forall n k x x' w w' b b' ref, (0 < k)%nat -> (forall i, (i < n)%nat -> x 0%nat i <= x 1%nat i) ->
  (forall c i, (c < 2)%nat -> (i < n)%nat -> x' c i = x c i) -> (forall i j, (i < n)%nat -> (j < k)%nat -> w' i j = w i j) -> (forall j, (j < k)%nat -> b' j = b j) ->
  exists r, loss_bound false Box n k 1 x' w' b' = Ok r /\
    exists U : vec, (forall j, (j < k)%nat -> is_min (in_box n (x 0%nat) (x 1%nat)) (fun z => aff n w b z j) (U j)) /\
    largest k (fun j => ref j - U j) (rmax (fst r) (fun j => ref (if Nat.eqb (fst r) k then j else O) - snd r j)).
Proof.
  intros n k x x' w w' b b' ref K H X W B. eexists. split; [reflexivity|]. cbn [fst snd]. rewrite Nat.eqb_refl.
  exists (get_lower_box n false (x' 0%nat) (x' 1%nat) w' b'). split.
  - intros j J. destruct (loss_lower_box n k 1 x x' w w' b b' j H X (fun i I => W i j I J) (B j J)) as (U & E & M). injection E as <-. exact M.
  - apply (rmax_largest k (fun j => ref j - get_lower_box n false (x' 0%nat) (x' 1%nat) w' b' j)). exact K.
Qed.
Lemma const_up : forall k a u ref, (0 < k)%nat -> is_row k a u -> largest k (fun j => u j - ref j) (rmax k (fun j => m_v a 0%nat j - ref j)).
Proof. intros k a u ref K (_ & _ & E). apply (largest_ext k (fun j => m_v a 0%nat j - ref j)); [intros j J; rewrite E by exact J; reflexivity|]. apply (rmax_largest k (fun j => m_v a 0%nat j - ref j)). exact K. Qed.
Lemma const_low : forall k a u ref, (0 < k)%nat -> is_row k a u -> largest k (fun j => ref j - u j) (rmax k (fun j => ref j - m_v a 0%nat j)).
Proof. intros k a u ref K (_ & _ & E). apply (largest_ext k (fun j => ref j - m_v a 0%nat j)); [intros j J; rewrite E by exact J; reflexivity|]. apply (rmax_largest k (fun j => ref j - m_v a 0%nat j)). exact K. Qed.

Lemma upper_sample_spec : forall mode n k ref ts, (0 < k)%nat -> length ts = spec_nb mode false -> box_ok mode n ts ->
  exists y v, get_model Box mode n k ts = Ok y /\ upper_sample Box mode k (ref, y) = Ok v /\ upper_gap mode n k ref ts v.
Proof.
  intros mode n k ref ts K L B. destruct (pack_slices Box mode n k ts L) as (y & s & E & _ & Es & Rc). exists y.
  unfold upper_sample. cbn [snd fst]. rewrite Es. cbn [bind]. destruct mode; cbn in L; cbn [get_affine bind].
  - destruct ts as [|u [|l [|? ?]]]; try discriminate L. destruct Rc as [U _]. eexists. split; [exact E|]. split; [reflexivity|].
    cbn. apply const_up; assumption.
  - destruct ts as [|x [|wu [|bu [|wl [|bl [|? ?]]]]]]; try discriminate L. destruct Rc as (X & (W1 & W2 & W3) & (B1 & B2 & B3) & _).
    rewrite W1. destruct (upper_lin n k x (s_x s) wu (m_v (s_wu s)) (bu 0%nat) (m_v (s_bu s) 0%nat) ref K B X W3 B3) as (r & Er & G). rewrite Er. cbn [bind].
    eexists. split; [exact E|]. split; [reflexivity|]. exact G.
  - destruct ts as [|x [|u [|wu [|bu [|l [|wl [|bl [|? ?]]]]]]]]; try discriminate L. destruct Rc as (X & U & (W1 & W2 & W3) & (B1 & B2 & B3) & _).
    rewrite W1. destruct (upper_lin n k x (s_x s) wu (m_v (s_wu s)) (bu 0%nat) (m_v (s_bu s) 0%nat) ref K B X W3 B3) as (r & Er & G). rewrite Er. cbn [bind].
    eexists. split; [exact E|]. split; [reflexivity|]. do 2 eexists. split; [apply const_up; eassumption|]. split; [exact G|reflexivity].
Qed.
Lemma lower_sample_spec : forall mode n k ref ts, (0 < k)%nat -> length ts = spec_nb mode false -> box_ok mode n ts ->
  exists y v, get_model Box mode n k ts = Ok y /\ lower_sample Box mode k (ref, y) = Ok v /\ lower_gap mode n k ref ts v.
Proof.
  intros mode n k ref ts K L B. destruct (pack_slices Box mode n k ts L) as (y & s & E & _ & Es & Rc). exists y.
  unfold lower_sample. cbn [snd fst]. rewrite Es. cbn [bind]. destruct mode; cbn in L; cbn [get_affine bind].
  - destruct ts as [|u [|l [|? ?]]]; try discriminate L. destruct Rc as [_ U]. eexists. split; [exact E|]. split; [reflexivity|].
    cbn. apply const_low; assumption.
  - destruct ts as [|x [|wu [|bu [|wl [|bl [|? ?]]]]]]; try discriminate L. destruct Rc as (X & _ & _ & (W1 & W2 & W3) & (B1 & B2 & B3)).
    rewrite W1. destruct (lower_lin n k x (s_x s) wl (m_v (s_wl s)) (bl 0%nat) (m_v (s_bl s) 0%nat) ref K B X W3 B3) as (r & Er & G). rewrite Er. cbn [bind].
    eexists. split; [exact E|]. split; [reflexivity|]. exact G.
  - destruct ts as [|x [|u [|wu [|bu [|l [|wl [|bl [|? ?]]]]]]]]; try discriminate L. destruct Rc as (X & _ & _ & _ & U & (W1 & W2 & W3) & (B1 & B2 & B3)).
    rewrite W1. destruct (lower_lin n k x (s_x s) wl (m_v (s_wl s)) (bl 0%nat) (m_v (s_bl s) 0%nat) ref K B X W3 B3) as (r & Er & G). rewrite Er. cbn [bind].
    eexists. split; [exact E|]. split; [reflexivity|]. do 2 eexists. split; [apply const_low; eassumption|]. split; [exact G|reflexivity].
Qed.

(** ** Batches *)
Lemma batch_mean : forall D mode n k (f : sample -> result R) (P : vec -> list tensor -> R -> Prop) outs batch,
  (forall ref ts y, In (ref, ts) outs -> get_model D mode n k ts = Ok y -> exists v, f (ref, y) = Ok v /\ P ref ts v) ->
  packed D mode n k outs batch ->
  exists vs, (vs' <- mapR f batch ; Ok (mean vs')) = Ok (average vs) /\ Forall2 (fun o v => P (fst o) (snd o) v) outs vs.
Proof.
  intros D mode n k f P outs batch H F.
  assert (G : exists vs, mapR f batch = Ok vs /\ Forall2 (fun o v => P (fst o) (snd o) v) outs vs).
  { induction F as [|[ref ts] [ref' y] outs batch [E1 E2] F IH]; [exists []; split; [reflexivity|constructor]|]. cbn in E1, E2. subst ref'.
    destruct (H ref ts y (or_introl eq_refl) E2) as (v & Ev & Pv). destruct IH as (vs & Evs & Fv); [intros; apply H; [right; assumption|assumption]|].
    exists (v :: vs). cbn [mapR]. rewrite Ev. cbn [bind]. rewrite Evs. cbn [bind]. split; [reflexivity|]. constructor; [exact Pv|exact Fv]. }
  destruct G as (vs & E & Fv). exists vs. rewrite E. cbn [bind]. split; [reflexivity|exact Fv].
Qed.

Lemma pack_batch : forall D mode n k outs, (forall o, In o outs -> length (snd o) = spec_nb mode false) -> exists batch, packed D mode n k outs batch.
Proof.
  intros D mode n k outs. induction outs as [|[ref ts] q IH]; intros H; [exists []; constructor|].
  destruct IH as (b & B); [intros; apply H; right; assumption|]. destruct (pack_slices D mode n k ts (H (ref, ts) (or_introl eq_refl))) as (y & _ & E & _).
  exists ((ref, y) :: b). constructor; [split; [reflexivity|exact E]|exact B].
Qed.

Theorem upper_loss_value : forall mode n k outs batch, (0 < k)%nat ->
  (forall o, In o outs -> length (snd o) = spec_nb mode false /\ box_ok mode n (snd o)) -> packed Box mode n k outs batch ->
  exists vs, upper_loss Box mode k batch = Ok (average vs) /\ Forall2 (fun o v => upper_gap mode n k (fst o) (snd o) v) outs vs.
Proof.
  intros mode n k outs batch K H F. apply (batch_mean Box mode n k (upper_sample Box mode k) (upper_gap mode n k) outs batch); [|exact F].
  intros ref ts y I E. destruct (H _ I) as [L B]. cbn in L, B. destruct (upper_sample_spec mode n k ref ts K L B) as (y' & v & Ey & Ev & G).
  rewrite E in Ey. injection Ey as <-. exists v. split; assumption.
Qed.
Theorem lower_loss_value : forall mode n k outs batch, (0 < k)%nat ->
  (forall o, In o outs -> length (snd o) = spec_nb mode false /\ box_ok mode n (snd o)) -> packed Box mode n k outs batch ->
  exists vs, lower_loss Box mode k batch = Ok (average vs) /\ Forall2 (fun o v => lower_gap mode n k (fst o) (snd o) v) outs vs.
Proof.
  intros mode n k outs batch K H F. apply (batch_mean Box mode n k (lower_sample Box mode k) (lower_gap mode n k) outs batch); [|exact F].
  intros ref ts y I E. destruct (H _ I) as [L B]. cbn in L, B. destruct (lower_sample_spec mode n k ref ts K L B) as (y' & v & Ey & Ev & G).
  rewrite E in Ey. injection Ey as <-. exists v. split; assumption.
Qed.

(** a gap bounds the distance of the network to the reference *)
Theorem upper_gap_sound : forall mode S n k f ref ts v z j, valid Box mode false S n k f ts -> upper_gap mode n k ref ts v ->
  S z -> (j < k)%nat -> f z j - ref j <= v.
Proof.
  intros mode S n k f ref ts v z j [L V] G Sz J. destruct mode; cbn in L.
  - destruct ts as [|u [|l [|? ?]]]; try discriminate L. destruct G as [A _]. specialize (A j J). destruct (V z j Sz J) as [_ B]. lra.
  - destruct ts as [|x [|wu [|bu [|wl [|bl [|? ?]]]]]]; try discriminate L. destruct V as [X V]. destruct G as (U & M & A & _).
    specialize (A j J). destruct (V z j Sz J) as [_ B]. destruct (M j J) as [C _]. specialize (C z (X z Sz)). lra.
  - destruct ts as [|x [|u [|wu [|bu [|l [|wl [|bl [|? ?]]]]]]]]; try discriminate L. destruct V as (X & V1 & V). destruct G as (a & b & [A1 _] & (U & M & A & _) & ->).
    specialize (A j J). specialize (A1 j J). destruct (V z j Sz J) as [_ B]. destruct (V1 z j Sz J) as [_ B1]. destruct (M j J) as [C _]. specialize (C z (X z Sz)).
    apply Rmin_glb; lra.
Qed.
Theorem lower_gap_sound : forall mode S n k f ref ts v z j, valid Box mode false S n k f ts -> lower_gap mode n k ref ts v ->
  S z -> (j < k)%nat -> ref j - f z j <= v.
Proof.
  intros mode S n k f ref ts v z j [L V] G Sz J. destruct mode; cbn in L.
  - destruct ts as [|u [|l [|? ?]]]; try discriminate L. destruct G as [A _]. specialize (A j J). destruct (V z j Sz J) as [B _]. lra.
  - destruct ts as [|x [|wu [|bu [|wl [|bl [|? ?]]]]]]; try discriminate L. destruct V as [X V]. destruct G as (U & M & A & _).
    specialize (A j J). destruct (V z j Sz J) as [B _]. destruct (M j J) as [C _]. specialize (C z (X z Sz)). lra.
  - destruct ts as [|x [|u [|wu [|bu [|l [|wl [|bl [|? ?]]]]]]]]; try discriminate L. destruct V as (X & V1 & V). destruct G as (a & b & [A1 _] & (U & M & A & _) & ->).
    specialize (A j J). specialize (A1 j J). destruct (V z j Sz J) as [B _]. destruct (V1 z j Sz J) as [B1 _]. destruct (M j J) as [C _]. specialize (C z (X z Sz)).
    apply Rmin_glb; lra.
Qed.

(** ** Balls: x_0 has one axis too many *)
Theorem upper_loss_ball_error : forall eps p mode n k ref ts y v, (mode = AFFINE \/ mode = HYBRID) -> (2 <= n)%nat -> (2 <= k)%nat -> n <> k ->
  length ts = spec_nb mode false -> get_model (Ball eps p) mode n k ts = Ok y ->
  upper_sample (Ball eps p) mode k (ref, y) <> Ok v /\ lower_sample (Ball eps p) mode k (ref, y) <> Ok v.
Proof.
  intros eps p mode n k ref ts y v M N K NK L E. destruct (pack_slices (Ball eps p) mode n k ts L) as (y' & s & E' & _ & Es & Rc). rewrite E in E'. injection E' as <-.
  assert (Q : forall up w b, exists e, loss_bound up (Ball eps p) n k 1 (s_x s) w b = Err e).
  { intros up w b. unfold loss_bound. destruct (rank3_radius eps p n w) as [q|e]; [|exists e; reflexivity]. cbn [bind].
    replace (n =? 1)%nat with false by (symmetry; apply Nat.eqb_neq; lia). replace (n =? k)%nat with false by (symmetry; apply Nat.eqb_neq; lia).
    replace (k =? 1)%nat with false by (symmetry; apply Nat.eqb_neq; lia). exists ValueError. reflexivity. }
  assert (W : m_r (s_wu s) = n /\ m_r (s_wl s) = n).
  { destruct M as [-> | ->]; cbn in L.
    - destruct ts as [|x [|wu [|bu [|wl [|bl [|? ?]]]]]]; try discriminate L. destruct Rc as (_ & (W1 & _) & _ & (W2 & _) & _). split; assumption.
    - destruct ts as [|x [|u [|wu [|bu [|l [|wl [|bl [|? ?]]]]]]]]; try discriminate L. destruct Rc as (_ & _ & (W1 & _) & _ & _ & (W2 & _) & _). split; assumption. }
  destruct W as [W1 W2].
  split; unfold upper_sample, lower_sample; cbn [snd]; rewrite Es; cbn [bind]; replace (get_affine mode) with true by (destruct M as [-> | ->]; reflexivity); rewrite ?W1, ?W2.
  - destruct (Q true (m_v (s_wu s)) (m_v (s_bu s) 0%nat)) as (e & ->). cbn [bind]. discriminate.
  - destruct (Q false (m_v (s_wl s)) (m_v (s_bl s) 0%nat)) as (e & ->). cbn [bind]. discriminate.
Qed.
