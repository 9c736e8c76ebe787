(** Adversarial loss (C58), cross-entropy losses (C55) and radius loss (C56). *)
From Coq Require Import Reals Lra Lia List Arith Bool ZArith.
From Verif Require Import RLib Spec M_Core M_Utils M_Ops M_Backward M_Convert M_Metrics Spec_Wrapper Spec_Metrics P_Core P_Convert P_Metrics.
Import ListNotations.
Local Open Scope R_scope.

(** ** Penalised maxima *)
Lemma max2_ge : forall r c up t s, (t < r)%nat -> (s < c)%nat -> up t s <= max2 r c up.
Proof.
  intros r c up t s T S. unfold max2. eapply Rle_trans; [|apply (rmax_ge r (fun t => rmax c (fun s => up t s)) t T)]. apply (rmax_ge c (fun s => up t s) s S).
Qed.
Lemma max2_attained : forall r c up, (0 < r)%nat -> (0 < c)%nat -> exists t s, (t < r)%nat /\ (s < c)%nat /\ max2 r c up = up t s.
Proof.
  intros r c up Hr Hc. unfold max2. destruct (rmax_attained r (fun t => rmax c (fun s => up t s)) Hr) as (t & T & E).
  destruct (rmax_attained c (fun s => up t s) Hc) as (s & S & E2). exists t, s. split; [exact T|]. split; [exact S|]. rewrite E. exact E2.
Qed.
Lemma min2_le : forall r c up t s, (t < r)%nat -> (s < c)%nat -> min2 r c up <= up t s.
Proof.
  intros r c up t s T S. unfold min2. eapply Rle_trans; [apply (rmin_le r (fun t => rmin c (fun s => up t s)) t T)|]. apply (rmin_le c (fun s => up t s) s S).
Qed.

Lemma adv_max_pair : forall k up y, mask01 k y -> some_pair k y -> pair_max k (label_pair y) up (adv_max k k up y).
Proof.
  intros k up y My (t0 & s0 & T0 & S0 & P0). unfold adv_max. rewrite Nat.eqb_refl.
  set (M := fun t s => (1 - y t) * y s). set (C := max2 k k up - min2 k k up). set (pen := fun t s => up t s - (C + 1) * (1 - M t s)).
  change (pair_max k (label_pair y) up (max2 k k pen)).
  assert (G : forall t s, (t < k)%nat -> (s < k)%nat -> label_pair y t s -> up t s <= max2 k k pen).
  { intros t s T S [P Q]. pose proof (max2_ge k k pen t s T S) as H. unfold pen, M in H. rewrite P, Q in H. unfold pen, M in *. lra. }
  split; [exact G|]. destruct (max2_attained k k pen ltac:(lia) ltac:(lia)) as (t & s & T & S & E).
  pose proof (max2_ge k k up t s T S). pose proof (min2_le k k up t0 s0 T0 S0). pose proof (G t0 s0 T0 S0 P0).
  assert (D : M t s = 1 /\ label_pair y t s \/ M t s = 0).
  { unfold M, label_pair. destruct (My t T) as [-> | ->], (My s S) as [-> | ->]; [right; lra|left; split; [lra|split; reflexivity]|right; lra|right; lra]. }
  destruct D as [[D P] | D].
  - exists t, s. split; [exact T|]. split; [exact S|]. split; [exact P|]. rewrite E. unfold pen. rewrite D. lra.
  - exfalso. rewrite E in H1. unfold pen in H1. rewrite D in H1. unfold C in H1. lra.
Qed.
Lemma adv_max_le : forall k up y c, (0 < k)%nat -> mask01 k y -> (forall t s, (t < k)%nat -> (s < k)%nat -> up t s <= c) -> adv_max k k up y <= c.
Proof.
  intros k up y c K My H. unfold adv_max. rewrite Nat.eqb_refl.
  set (C := max2 k k up - min2 k k up).
  destruct (max2_attained k k (fun t s => up t s - (C + 1) * (1 - (1 - y t) * y s)) K K) as (t & s & T & S & E). rewrite E. cbn beta.
  pose proof (H t s T S). pose proof (max2_ge k k up t s T S). pose proof (min2_le k k up t s T S).
  destruct (My t T) as [-> | ->], (My s S) as [-> | ->]; unfold C; nra.
Qed.
Lemma pair_max_ext : forall k pairs g g' v, (forall t s, (t < k)%nat -> (s < k)%nat -> g t s = g' t s) -> pair_max k pairs g v -> pair_max k pairs g' v.
Proof.
  intros k pairs g g' v E [A (t & s & T & S & P & B)]. split.
  - intros t' s' T' S' P'. rewrite <- E by assumption. apply A; assumption.
  - exists t, s. split; [exact T|]. split; [exact S|]. split; [exact P|]. rewrite <- E by assumption. exact B.
Qed.

(** ** One sample, without softmax *)
Lemma flat_divmod : forall k t s, (s < k)%nat -> ((t * k + s) / k = t)%nat /\ ((t * k + s) mod k = s)%nat.
Proof.
  intros k t s S. split.
  - rewrite Nat.div_add_l by lia. rewrite Nat.div_small by exact S. lia.
  - rewrite Nat.add_comm, Nat.mod_add by lia. apply Nat.mod_small. exact S.
Qed.

Lemma adv_affine_pair : forall n k x x' wu wu' bu bu' wl wl' bl bl' y, mask01 k y -> some_pair k y -> (forall i, (i < n)%nat -> x 0%nat i <= x 1%nat i) ->
  (forall c i, (c < 2)%nat -> (i < n)%nat -> x' c i = x c i) ->
  (forall i j, (i < n)%nat -> (j < k)%nat -> wu' i j = wu i j) -> (forall j, (j < k)%nat -> bu' j = bu j) ->
  (forall i j, (i < n)%nat -> (j < k)%nat -> wl' i j = wl i j) -> (forall j, (j < k)%nat -> bl' j = bl j) ->
  exists v, adv_affine Box n k x' wu' bu' wl' bl' y = Ok v /\
    pair_box_max n k x (label_pair y) (fun t s z => aff n wu bu z t - aff n wl bl z s) v.
Proof.
  intros n k x x' wu wu' bu bu' wl wl' bl bl' y My Hp H X WU BU WL BL. eexists. split; [reflexivity|].
  cbn [fst snd]. set (W' := fun i q => wu' i (q / k)%nat - wl' i (q mod k)%nat). set (B' := fun q => bu' (q / k)%nat - bl' (q mod k)%nat).
  set (up := fun t s => get_upper_box n false (x' 0%nat) (x' 1%nat) W' B' (t * k + s)%nat).
  assert (Hm : forall t s, (t < k)%nat -> (s < k)%nat -> is_max (in_box n (x 0%nat) (x 1%nat)) (fun z => aff n wu bu z t - aff n wl bl z s) (up t s)).
  { intros t s T S. destruct (flat_divmod k t s S) as [D1 D2].
    destruct (loss_upper_box n k k x x' (fun i q => wu i (q / k)%nat - wl i (q mod k)%nat) W' (fun q => bu (q / k)%nat - bl (q mod k)%nat) B' (t * k + s)%nat H X) as (U & E & M).
    - intros i I. unfold W'. rewrite D1, D2, WU, WL by assumption. reflexivity.
    - unfold B'. rewrite D1, D2, BU, BL by assumption. reflexivity.
    - injection E as <-.
      assert (Q : forall z, aff n (fun i q => wu i (q / k)%nat - wl i (q mod k)%nat) (fun q => bu (q / k)%nat - bl (q mod k)%nat) z (t * k + s)%nat = aff n wu bu z t - aff n wl bl z s).
      { intro z. unfold aff. rewrite D1, D2. unfold dot. rewrite (rsum_ext n _ (fun i => wu i t * z i - wl i s * z i)) by (intros; ring). rewrite rsum_minus. ring. }
      destruct M as [M1 (z & Z & M2)]. split.
      + intros z' Z'. rewrite <- Q. apply M1. exact Z'.
      + exists z. split; [exact Z|]. rewrite <- Q. exact M2. }
  destruct (adv_max_pair k up y My Hp) as [A (t & s & T & S & P & E)]. split.
  - intros t' s' z T' S' P' Z. eapply Rle_trans; [|apply (A t' s' T' S' P')]. apply (Hm t' s' T' S'). exact Z.
  - destruct (Hm t s T S) as [_ (z & Z & Ez)]. exists t, s, z. split; [exact T|]. split; [exact S|]. split; [exact P|]. split; [exact Z|]. rewrite Ez. exact E.
Qed.

Lemma adv_sample_spec : forall ke mode n k y ts sigm clip, (mode = IBP \/ mode = AFFINE) -> mask01 k y -> some_pair k y ->
  length ts = spec_nb mode false -> box_ok mode n ts ->
  exists p v, get_model Box mode n k ts = Ok p /\ adv_sample ke Box mode k sigm clip false (y, p) = Ok (shaped sigm clip v) /\
    is_score mode n k (label_pair y) ts v.
Proof.
  intros ke mode n k y ts sigm clip M My Hp L B. destruct (pack_slices Box mode n k ts L) as (p & s & E & Er & Es & Rc). exists p.
  unfold adv_sample. cbn [snd fst]. rewrite Es. cbn [bind]. destruct M as [-> | ->]; cbn in L; unfold loss_softmax; cbn [orb mode_eqb bind get_affine].
  - destruct ts as [|u [|l [|? ?]]]; try discriminate L. destruct Rc as [(_ & _ & U) (_ & _ & V)].
    exists (adv_ibp k (m_v (s_u s) 0%nat) (m_v (s_l s) 0%nat) y). split; [exact E|]. split; [destruct sigm; reflexivity|].
    cbn. unfold adv_ibp. apply (pair_max_ext k _ (fun t s0 => m_v (s_u s) 0%nat t - m_v (s_l s) 0%nat s0)); [intros t c T C; rewrite U, V by assumption; reflexivity|].
    apply adv_max_pair; assumption.
  - destruct ts as [|x [|wu [|bu [|wl [|bl [|? ?]]]]]]; try discriminate L.
    destruct Rc as (X & (W1 & W2 & W3) & (B1 & B2 & B3) & (W4 & W5 & W6) & (B4 & B5 & B6)).
    cbn [below]. replace (m_r p - 1)%nat with n by (rewrite Er; lia).
    destruct (adv_affine_pair n k x (s_x s) wu (m_v (s_wu s)) (bu 0%nat) (m_v (s_bu s) 0%nat) wl (m_v (s_wl s)) (bl 0%nat) (m_v (s_bl s) 0%nat) y My Hp B X W3 B3 W6 B6) as (v & Ev & Pv).
    rewrite Ev. cbn [bind]. exists v. split; [exact E|]. split; [destruct sigm; reflexivity|]. exact Pv.
Qed.

Theorem adv_loss_value : forall ke mode n k sigm clip outs batch, (mode = IBP \/ mode = AFFINE) ->
  (forall o, In o outs -> mask01 k (fst o) /\ some_pair k (fst o) /\ length (snd o) = spec_nb mode false /\ box_ok mode n (snd o)) ->
  packed Box mode n k outs batch ->
  exists vs, adv_loss ke Box mode k sigm clip false batch = Ok (average (map (shaped sigm clip) vs)) /\
    Forall2 (fun o v => is_score mode n k (label_pair (fst o)) (snd o) v) outs vs.
Proof.
  intros ke mode n k sigm clip outs batch M H F.
  destruct (batch_mean Box mode n k (adv_sample ke Box mode k sigm clip false) (fun y ts v => exists w, v = shaped sigm clip w /\ is_score mode n k (label_pair y) ts w) outs batch) as (vs & E & G); [|exact F|].
  - intros y ts p I E. destruct (H _ I) as (H1 & H2 & H3 & H4). cbn in H1, H2, H3, H4.
    destruct (adv_sample_spec ke mode n k y ts sigm clip M H1 H2 H3 H4) as (p' & v & Ep & Ev & S). rewrite E in Ep. injection Ep as <-.
    exists (shaped sigm clip v). split; [exact Ev|]. exists v. split; [reflexivity|exact S].
  - assert (Q : exists ws, vs = map (shaped sigm clip) ws /\ Forall2 (fun o v => is_score mode n k (label_pair (fst o)) (snd o) v) outs ws).
    { clear - G. induction G as [|o v outs vs (w & -> & S) G (ws & -> & IH)]; [exists []; split; [reflexivity|constructor]|].
      exists (w :: ws). split; [reflexivity|]. constructor; assumption. }
    destruct Q as (ws & -> & Q). exists ws. split; [exact E|exact Q].
Qed.

(** the score of the pairs bounds the margin *)
Lemma score_margin : forall mode S n k f pairs ts v z t s, valid Box mode false S n k f ts -> is_score mode n k pairs ts v ->
  S z -> (t < k)%nat -> (s < k)%nat -> pairs t s -> f z t - f z s <= v.
Proof.
  intros mode S n k f pairs ts v z t s [L V] G Sz T Hs P. destruct mode; cbn in L.
  - destruct ts as [|u [|l [|? ?]]]; try discriminate L. destruct G as [A _]. specialize (A t s T Hs P). cbn in V. pose proof (V z t Sz T). pose proof (V z s Sz Hs). lra.
  - destruct ts as [|x [|wu [|bu [|wl [|bl [|? ?]]]]]]; try discriminate L. destruct V as [X V]. destruct G as [A _].
    specialize (A t s z T Hs P (X z Sz)). pose proof (V z t Sz T). pose proof (V z s Sz Hs). lra.
  - destruct ts as [|x [|u [|wu [|bu [|l [|wl [|bl [|? ?]]]]]]]]; try discriminate L. destruct V as (X & C & V). destruct G as (a & b & [A _] & [B _] & ->).
    specialize (A t s T Hs P). specialize (B t s z T Hs P (X z Sz)). pose proof (V z t Sz T). pose proof (V z s Sz Hs). pose proof (C z t Sz T). pose proof (C z s Sz Hs).
    apply Rmin_glb; lra.
Qed.
Lemma shaped_mono : forall sigm clip a b, a <= b -> shaped sigm clip a <= shaped sigm clip b.
Proof.
  intros sigm clip a b H. assert (Q : match clip with Some c => Rmax a c | None => a end <= match clip with Some c => Rmax b c | None => b end).
  { destruct clip as [c|]; [|exact H]. apply Rmax_lub; [eapply Rle_trans; [exact H|apply Rmax_l]|apply Rmax_r]. }
  unfold shaped. destruct sigm; [|exact Q]. apply Rinv_le_contravar.
  - pose proof (exp_pos (- match clip with Some c => Rmax b c | None => b end)). lra.
  - apply Rplus_le_compat_l. destruct (Rle_lt_or_eq_dec _ _ Q) as [Hlt|Heq]; [left; apply exp_increasing; lra|rewrite Heq; lra].
Qed.

(** the loss is at least the average of the margins of any points and pairs, one for each sample *)
Theorem adv_loss_sound : forall ke mode n k sigm clip outs batch picks (f : nat -> vec -> vec) (S : nat -> vec -> Prop), (mode = IBP \/ mode = AFFINE) ->
  (forall o, In o outs -> mask01 k (fst o) /\ some_pair k (fst o) /\ length (snd o) = spec_nb mode false /\ box_ok mode n (snd o)) ->
  packed Box mode n k outs batch -> outs <> [] ->
  (forall b, (b < length outs)%nat -> valid Box mode false (S b) n k (f b) (snd (nth b outs (fun _ => 0, [])))) ->
  length picks = length outs ->
  (forall b, (b < length outs)%nat -> let '(z, (t, s)) := nth b picks (fun _ => 0, (O, O)) in
     S b z /\ (t < k)%nat /\ (s < k)%nat /\ label_pair (fst (nth b outs (fun _ => 0, []))) t s) ->
  exists v, adv_loss ke Box mode k sigm clip false batch = Ok v /\
    average (map (fun b => let '(z, (t, s)) := nth b picks (fun _ => 0, (O, O)) in shaped sigm clip (f b z t - f b z s)) (seq 0 (length outs))) <= v.
Proof.
  intros ke mode n k sigm clip outs batch picks f S M H F NE V LP P.
  destruct (adv_loss_value ke mode n k sigm clip outs batch M H F) as (vs & E & G). eexists. split; [exact E|].
  assert (LV : length vs = length outs) by (clear - G; induction G; cbn; lia).
  unfold average. rewrite !map_length, seq_length, LV.
  assert (0 < INR (length outs)) by (apply lt_0_INR; destruct outs; [congruence|cbn; lia]).
  apply Rmult_le_compat_r; [left; apply Rinv_0_lt_compat; assumption|].
  assert (Q : forall b, (b < length outs)%nat -> is_score mode n k (label_pair (fst (nth b outs (fun _ => 0, [])))) (snd (nth b outs (fun _ => 0, []))) (nth b vs 0)).
  { clear - G. induction G as [|o v outs vs Hh G IH]; intros b B; [cbn in B; lia|]. destruct b as [|b]; [exact Hh|]. cbn in B |- *. apply IH. lia. }
  assert (LE : forall m (a : nat -> R) (ws : list R), length ws = m -> (forall b, (b < m)%nat -> a b <= nth b ws 0) -> sum_list (map a (seq 0 m)) <= sum_list ws).
  { clear. intros m. induction m as [|m IH]; intros a ws L Hb; [destruct ws; [cbn; lra|discriminate L]|]. destruct ws as [|w ws]; [discriminate L|].
    cbn [seq map sum_list fold_right]. fold (sum_list ws). rewrite <- seq_shift, map_map. fold (sum_list (map (fun x => a (Datatypes.S x)) (seq 0 m))).
    apply Rplus_le_compat; [apply (Hb O); lia|]. apply (IH (fun x => a (Datatypes.S x))); [cbn in L; lia|]. intros b B. apply (Hb (Datatypes.S b)). lia. }
  apply LE; [rewrite map_length; exact LV|]. intros b B. specialize (P b B). destruct (nth b picks (fun _ => 0, (O, O))) as (z & t & s). destruct P as (P1 & P2 & P3 & P4).
  rewrite (nth_indep _ 0 (shaped sigm clip 0)) by (rewrite map_length; lia). rewrite map_nth. apply shaped_mono.
  apply (score_margin mode (S b) n k (f b) (label_pair (fst (nth b outs (fun _ => 0, [])))) (snd (nth b outs (fun _ => 0, []))) (nth b vs 0) z t s (V b B) (Q b B) P1 P2 P3 P4).
Qed.

(** ** Hybrid mode: the loss is computed after a softmax and never exceeds 1 *)
Lemma bind_ok : forall {A B} (r : result A) (k : A -> result B) b, bind r k = Ok b -> exists a, r = Ok a /\ k a = Ok b.
Proof. intros A B [a|e] k b H; [exists a; split; [reflexivity|exact H]|discriminate H]. Qed.
Lemma softmax_range : forall ke D n k ts o, softmax ke (mk_spec false HYBRID D n) [k] ts = Ok o ->
  exists x u wu bu l wl bl, o = [x; u; wu; bu; l; wl; bl] /\ (forall i j, u i j <= 1) /\ (forall i j, 0 <= l i j).
Proof.
  intros ke D n k ts o H. unfold softmax in H. cbn [sp_dc sp_mode] in H.
  apply bind_ok in H as (t1 & _ & H). apply bind_ok in H as (t2 & _ & H). apply bind_ok in H as (t3 & _ & H). apply bind_ok in H as (t4 & _ & H).
  apply bind_ok in H as (t5 & _ & H). apply bind_ok in H as (t6 & _ & H). apply bind_ok in H as (r & _ & H). cbn [get_ibp extract] in H.
  injection H as <-. do 7 eexists. split; [reflexivity|]. split; intros; unfold ew; [apply Rmin_r|apply Rmax_r].
Qed.
Lemma adv_ibp_range : forall k u l y, (0 < k)%nat -> mask01 k y -> (forall j, u j <= 1) -> (forall j, 0 <= l j) -> adv_ibp k u l y <= 1.
Proof. intros k u l y K My U L. apply adv_max_le; [exact K|exact My|]. intros t s _ _. specialize (U t). specialize (L s). lra. Qed.
Theorem adv_hybrid_le_1 : forall ke D n k y ts p sm v, mask01 k y -> (0 < k)%nat -> length ts = spec_nb HYBRID false ->
  get_model D HYBRID n k ts = Ok p -> adv_sample ke D HYBRID k false None sm (y, p) = Ok v -> v <= 1.
Proof.
  intros ke D n k y ts p sm v My K L E H. unfold adv_sample in H. cbn [snd fst] in H.
  apply bind_ok in H as (s & _ & H). apply bind_ok in H as (s' & Es & H). apply bind_ok in H as (v' & _ & H). cbn [clip_score] in H. injection H as <-.
  eapply Rle_trans; [apply Rmin_l|].
  unfold loss_softmax in Es. rewrite orb_true_r in Es. destruct D as [|eps q]; [|discriminate Es].
  apply bind_ok in Es as (o & Eo & Es). apply softmax_range in Eo as (x & u & wu & bu & l & wl & bl & -> & HU & HL). injection Es as <-.
  apply adv_ibp_range; [exact K|exact My|intro j; apply HU|intro j; apply HL].
Qed.
