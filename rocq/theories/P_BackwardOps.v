(** Proofs about the backward activations and the backward merge helpers. *)
From Coq Require Import Reals List Arith Bool ZArith Lra Lia Psatz Permutation.
From Verif Require Import RLib Spec Spec_Layers Spec_Backward M_Core M_Utils M_MergeLayers M_Ops M_Layers M_Pool M_Backward
  P_Core P_Merge P_Utils P_MergeLayers P_Axis P_Ops P_Act P_SShape P_Layers P_Move P_Backward.
Import ListNotations.
Local Open Scope R_scope.

(** ** activations *)

(** every completed interval satisfies P *)
Definition boxes (P : R -> R -> Prop) (sp : spec) (m : nat) (ts : list tensor) : Prop :=
  forall r, get_fullinputs sp true true ts = Ok r -> forall j, (j < m)%nat -> P (f_uc r 0%nat j) (f_lc r 0%nat j).

Lemma hull_bb_sound : forall (S : vec -> Prop) m f (F : R -> R) (hl : nat -> hull),
  (forall z j, S z -> (j < m)%nat -> h_wl (hl j) * f z j + h_bl (hl j) <= F (f z j) <= h_wu (hl j) * f z j + h_bu (hl j)) ->
  relaxes (image S f) m m (fun y j => F (y j)) (hull_bb hl).
Proof.
  intros S m f F hl H y j (z & Hz & ->) Hj. unfold hull_bb. cbn [bb_wu bb_bu bb_wl bb_bl]. rewrite !aff_diag by auto. apply H; auto.
Qed.

Lemma full_boxes : forall sp S m f ts, (0 < sp_n sp)%nat -> dom_ok (sp_dom sp) (sp_mode sp) -> op_sp sp S m f ts ->
  exists r, get_fullinputs sp true true ts = Ok r /\ const_ok S m f (f_uc r 0%nat) (f_lc r 0%nat).
Proof.
  intros sp S m f ts Hn Hd H. destruct (get_full_sound sp true true S m f ts Hn Hd H) as (r & E & C & _).
  rewrite orb_true_r in C. exists r. split; auto.
Qed.

Lemma brelu_sound : forall ke sp sl ft S m f ts,
  0 < ke -> (0 < sp_n sp)%nat -> dom_ok (sp_dom sp) (sp_mode sp) -> sp_dc sp = false ->
  ft_ok m (option_map snd ft) -> op_sp sp S m f ts -> boxes (gap_free ke) sp m ts ->
  exists B, backward_activation ke sp ActRelu sl ft m ts = Ok B /\ relaxes (image S f) m m (fun y j => Rrelu (y j)) B.
Proof.
  intros ke sp sl ft S m f ts Hke Hn Hd Hdc Hft H Hg.
  destruct (full_boxes sp S m f ts Hn Hd H) as (r & E & C).
  unfold backward_activation, backward_relu. rewrite Hdc.
  destruct (Req_EM_T 0 0) as [_|N]; [|congruence]. rewrite E. cbn [bind]. eexists. split; [reflexivity|].
  apply hull_bb_sound. intros z j Hz Hj. specialize (C z j Hz Hj). pose proof (ft_ok_at m _ j Hft Hj) as Fj.
  split; [apply hull_relu_lower; auto|apply hull_relu_upper; auto].
Qed.

(** without the width condition the lower bound holds and the upper bound is off by at most epsilon *)
Lemma brelu_slack : forall ke sp sl ft S m f ts,
  0 < ke -> (0 < sp_n sp)%nat -> dom_ok (sp_dom sp) (sp_mode sp) -> sp_dc sp = false ->
  ft_ok m (option_map snd ft) -> op_sp sp S m f ts ->
  exists B, backward_activation ke sp ActRelu sl ft m ts = Ok B /\
    forall z j, S z -> (j < m)%nat ->
      aff m (bb_wl B) (bb_bl B) (f z) j <= Rrelu (f z j) <= aff m (bb_wu B) (bb_bu B) (f z) j + ke.
Proof.
  intros ke sp sl ft S m f ts Hke Hn Hd Hdc Hft H.
  destruct (full_boxes sp S m f ts Hn Hd H) as (r & E & C).
  unfold backward_activation, backward_relu. rewrite Hdc.
  destruct (Req_EM_T 0 0) as [_|N]; [|congruence]. rewrite E. cbn [bind]. eexists. split; [reflexivity|].
  intros z j Hz Hj. specialize (C z j Hz Hj). pose proof (ft_ok_at m _ j Hft Hj) as Fj.
  unfold hull_bb. cbn [bb_wu bb_bu bb_wl bb_bl]. rewrite !aff_diag by auto.
  split; [apply hull_relu_lower; auto|apply hull_relu_upper_slack; auto].
Qed.

Lemma bs_sound : forall F F', s_shape F F' -> forall ke sp b S m f ts,
  0 < ke -> (0 < sp_n sp)%nat -> dom_ok (sp_dom sp) (sp_mode sp) -> sp_dc sp = false ->
  op_sp sp S m f ts -> boxes (both_sides F F' ke) sp m ts ->
  exists hl, backward_s ke sp b F F' ts = Ok hl /\ relaxes (image S f) m m (fun y j => F (y j)) (hull_bb hl).
Proof.
  intros F F' HS ke sp b S m f ts Hke Hn Hd Hdc H Hg.
  destruct (full_boxes sp S m f ts Hn Hd H) as (r & E & C).
  unfold backward_s. rewrite Hdc, andb_false_r, E. cbn [bind]. eexists. split; [reflexivity|].
  apply hull_bb_sound. intros z j Hz Hj. specialize (C z j Hz Hj). destruct (Hg r E j Hj) as [G1 G2].
  destruct (hull_upper_ok F F' HS ke _ _ (f z j) Hke C G1) as [_ U]. destruct (hull_lower_ok F F' HS ke _ _ (f z j) Hke C G2) as [_ L].
  cbv zeta in U, L. lra.
Qed.

(** the intervals of an ibp input are its two tensors *)
Definition ts_ibp (a b : R) : list tensor := [fun _ _ => b; fun _ _ => a].
Lemma full_ts_ibp : forall D n a b,
  exists r, get_fullinputs (mk_spec false IBP D n) true true (ts_ibp a b) = Ok r /\ f_uc r 0%nat 0%nat = b /\ f_lc r 0%nat 0%nat = a.
Proof. intros. eexists. split; [reflexivity|]. split; reflexivity. Qed.

(** an interval that crosses 0 (by at least epsilon on each side): one of the two bounds is wrong *)
Lemma bs_crossing : forall F F', s_shape F F' -> forall ke b lo hi, 0 < ke -> ke <= - lo -> ke <= hi ->
  exists hl z, backward_s ke (mk_spec false IBP Box 1) b F F' (ts_ibp lo hi) = Ok hl /\ lo <= z <= hi /\
    (aff 1 (bb_wu (hull_bb hl)) (bb_bu (hull_bb hl)) (fun _ => z) 0%nat < F z \/
     F z < aff 1 (bb_wl (hull_bb hl)) (bb_bl (hull_bb hl)) (fun _ => z) 0%nat).
Proof.
  intros F F' HS ke b lo hi Hke Hlo Hhi.
  destruct (crossing_wrong F F' HS ke hi lo Hke Hlo Hhi) as (z & Hz & C).
  destruct (full_ts_ibp Box 1 lo hi) as (r & E & U & L).
  unfold backward_s. cbn [sp_dc]. rewrite andb_false_r, E. cbn [bind]. eexists. exists z. split; [reflexivity|]. split; auto.
  unfold hull_bb. cbn [bb_wu bb_bu bb_wl bb_bl]. rewrite !aff_diag by lia. rewrite U, L. destruct C; [left|right]; lra.
Qed.

(** softplus: the hull was computed from softsign values; at 0 the upper bound is 0 *)
Lemma bsoftplus_wrong : forall ke sl, 0 < ke -> sl <> A_SLOPE ->
  exists B, backward_activation ke (mk_spec false IBP Box 1) ActSoftplus sl None 1 (ts_ibp (-1) 0) = Ok B /\
    aff 1 (bb_wu B) (bb_bu B) (fun _ => 0) 0%nat < ln (1 + exp 0).
Proof.
  intros ke sl Hke Hsl. unfold backward_activation, backward_softplus. cbn [sp_dc].
  destruct (full_ts_ibp Box 1 (-1) 0) as (r & E & U & L). rewrite E. cbn [bind hulls option_map]. rewrite U, L.
  assert (G : exists h, hull_softplus ke sl None 0 (-1) = Ok h /\ h_wu h = 0 /\ h_bu h = 0).
  { unfold hull_softplus. rewrite index_dead_1 by lra.
    destruct sl; try congruence; eexists; (split; [reflexivity|]); cbn; split; ring. }
  destruct G as (h & Eh & W & Bb). rewrite Eh. cbn [bind app]. eexists. split; [reflexivity|].
  unfold hull_bb. cbn [bb_wu bb_bu]. rewrite aff_diag by lia. cbn [nth]. rewrite W, Bb, exp_0.
  pose proof ln_lt_2. replace (1 + 1) with 2 by lra. lra.
Qed.

Lemma bsoftplus_A : forall ke sp ft S m f ts, (0 < sp_n sp)%nat -> dom_ok (sp_dom sp) (sp_mode sp) -> sp_dc sp = false -> (0 < m)%nat ->
  op_sp sp S m f ts -> backward_activation ke sp ActSoftplus A_SLOPE ft m ts = Err ValueError.
Proof.
  intros ke sp ft S m f ts Hn Hd Hdc Hm H. destruct (full_boxes sp S m f ts Hn Hd H) as (r & E & _).
  unfold backward_activation, backward_softplus. rewrite Hdc, E. cbn [bind].
  destruct m as [|k]; [lia|].
  assert (G : forall k, hulls (fun j => hull_softplus ke A_SLOPE (option_map (fun p : vec * vec => (fst p j, snd p j)) ft) (f_uc r 0%nat j) (f_lc r 0%nat j)) (Datatypes.S k) = Err ValueError).
  { induction k0; [reflexivity|]. cbn [hulls] in *. destruct (hulls _ k0) as [q|e]; cbn [bind] in *; [reflexivity|rewrite IHk0; reflexivity]. }
  rewrite G. reflexivity.
Qed.

Lemma blinear : forall ke sp sl ft m ts, backward_activation ke sp ActLinear sl ft m ts = Ok identity_lirpa.
Proof. reflexivity. Qed.

(** shapes of the activation weights *)
Lemma act_shape_flat : forall a n, act_w_shape a [n] = [n; n].
Proof. intros [] n; cbn; rewrite ?Nat.mul_1_r; reflexivity. Qed.
Lemma act_shape_ok : forall a s, a = ActRelu \/ a = ActSoftsign \/ a = ActLinear -> act_w_shape a s = [prodn s; prodn s].
Proof. intros a s [-> | [-> | ->]]; reflexivity. Qed.
Lemma act_shape_bad : forall a s, a = ActSigmoid \/ a = ActTanh \/ a = ActSoftplus -> length s <> 1%nat -> act_w_shape a s = s.
Proof. intros a s Ha H. destruct Ha as [-> | [-> | ->]]; destruct s as [|k [|k' s]]; cbn in *; congruence. Qed.
(** the shape is the right one only for a square block of one entry *)
Lemma act_shape_wrong : forall a s, a = ActSigmoid \/ a = ActTanh \/ a = ActSoftplus -> length s <> 1%nat ->
  (1 < prodn s)%nat -> act_w_shape a s <> [prodn s; prodn s].
Proof.
  intros a s Ha H Hp E. rewrite act_shape_bad in E by auto. destruct s as [|k [|k' [|x s]]]; try discriminate E.
  cbn [prodn] in *. rewrite Nat.mul_1_r in *. injection E; intros E2 E1. assert (k <> 0 /\ k' <> 0)%nat by (split; intros ->; lia). nia.
Qed.

(** ** merges *)
Lemma aff_add : forall m w b u v j, aff m w b (fun i => u i + v i) j = dot m (fun i => w i j) u + aff m w b v j.
Proof. intros. unfold aff. rewrite dot_plus_r. lra. Qed.
Lemma aff_dot : forall m w b u j, aff m w b u j = dot m (fun i => w i j) u + b j.
Proof. reflexivity. Qed.

Lemma operand_ext : forall (S : vec -> Prop) m k fi g g' out B, (forall z i, S z -> (i < m)%nat -> g z i = g' z i) ->
  operand_ok S m k fi g out B -> operand_ok S m k fi g' out B.
Proof.
  intros S m k fi g g' out B E H z j Hz Hj. specialize (H z j Hz Hj).
  assert (G : forall w b, aff m w b (g' z) j = aff m w b (g z) j).
  { intros. unfold aff. f_equal. apply dot_ext; intros; auto. symmetry. auto. }
  rewrite !G. auto.
Qed.

Lemma badd_sound : forall sp S m k f0 f1 in0 in1 out,
  (0 < sp_n sp)%nat -> dom_ok (sp_dom sp) (sp_mode sp) ->
  op_sp sp S m f0 in0 -> op_sp sp S m f1 in1 ->
  exists B0 B1, backward_add sp m in0 in1 out = Ok (B0, B1) /\
    operand_ok S m k f0 (fun z j => f0 z j + f1 z j) out B0 /\ operand_ok S m k f1 (fun z j => f0 z j + f1 z j) out B1 /\
    (bb_wu B0 = bb_wu out /\ bb_wl B0 = bb_wl out /\ bb_wu B1 = bb_wu out /\ bb_wl B1 = bb_wl out).
Proof.
  intros sp S m k f0 f1 in0 in1 out Hn Hd H0 H1.
  destruct (full_boxes sp S m f0 in0 Hn Hd H0) as (r0 & E0 & C0).
  destruct (full_boxes sp S m f1 in1 Hn Hd H1) as (r1 & E1 & C1).
  unfold backward_add. rewrite E0, E1. cbn [bind]. do 2 eexists. split; [reflexivity|].
  assert (B0 : forall z, S z -> in_box m (f_lc r0 0%nat) (f_uc r0 0%nat) (f0 z)) by (intros z Hz i Hi; apply C0; auto).
  assert (B1 : forall z, S z -> in_box m (f_lc r1 0%nat) (f_uc r1 0%nat) (f1 z)) by (intros z Hz i Hi; apply C1; auto).
  split; [|split]; [| |auto]; intros z j Hz Hj; cbn [bb_wu bb_bu bb_wl bb_bl].
  - rewrite !aff_add, !(aff_dot m _ (get_upper_box _ _ _ _ _ _)), !(aff_dot m _ (get_lower_box _ _ _ _ _ _)).
    pose proof (get_upper_box_sound m _ _ (bb_wu out) (bb_bu out) _ j (B1 z Hz)).
    pose proof (get_lower_box_sound m _ _ (bb_wl out) (bb_bl out) _ j (B1 z Hz)). lra.
  - assert (Sw : forall w b, aff m w b (fun i => f0 z i + f1 z i) j = dot m (fun i => w i j) (f1 z) + aff m w b (f0 z) j).
    { intros. unfold aff. rewrite dot_plus_r. lra. }
    rewrite !Sw, !(aff_dot m _ (get_upper_box _ _ _ _ _ _)), !(aff_dot m _ (get_lower_box _ _ _ _ _ _)).
    pose proof (get_upper_box_sound m _ _ (bb_wu out) (bb_bu out) _ j (B0 z Hz)).
    pose proof (get_lower_box_sound m _ _ (bb_wl out) (bb_bl out) _ j (B0 z Hz)). lra.
Qed.

Lemma aff_mopp : forall m w b y j, aff m (mopp w) b y j = aff m w b (fun i => - y i) j.
Proof.
  intros. unfold aff, mopp. f_equal. unfold dot. apply rsum_ext. intros; ring.
Qed.

Lemma bsub_sound : forall sp S m k f0 f1 in0 in1 out,
  (0 < sp_n sp)%nat -> dom_ok (sp_dom sp) (sp_mode sp) ->
  op_sp sp S m f0 in0 -> op_sp sp S m f1 in1 ->
  exists B0 B1, backward_subtract sp m in0 in1 out = Ok (B0, B1) /\
    operand_ok S m k f0 (fun z j => f0 z j - f1 z j) out B0 /\ operand_ok S m k f1 (fun z j => f0 z j - f1 z j) out B1.
Proof.
  intros sp S m k f0 f1 in0 in1 out Hn Hd H0 H1.
  destruct (minus_sound sp S m f1 in1 Hn Hd H1) as (n1 & E1 & V1).
  destruct (badd_sound sp S m k f0 _ in0 n1 out Hn Hd H0 V1) as (B0 & B1 & E & P0 & P1 & _).
  unfold backward_subtract. rewrite E1. cbn [bind]. rewrite E. cbn [bind fst snd]. do 2 eexists. split; [reflexivity|]. split.
  - eapply operand_ext; [|exact P0]. intros; cbn; ring.
  - intros z j Hz Hj. cbn [bb_wu bb_bu bb_wl bb_bl]. rewrite !aff_mopp.
    apply (operand_ext S m k _ _ (fun z j => f0 z j - f1 z j) out B1) in P1; [|intros; cbn; ring]. exact (P1 z j Hz Hj).
Qed.

(** width conditions of the two relus of backward_maximum *)
Definition bmax_gaps (ke : R) (sp : spec) (m : nat) (in0 in1 : list tensor) : Prop :=
  max_gaps_ok ke sp m in1 in0 /\ max_gaps_ok ke sp m in0 in1.

Lemma bmax_sound : forall ke sp S m k f0 f1 in0 in1 out,
  0 < ke -> (0 < sp_n sp)%nat -> dom_ok (sp_dom sp) (sp_mode sp) ->
  op_sp sp S m f0 in0 -> op_sp sp S m f1 in1 -> bmax_gaps ke sp m in0 in1 ->
  exists B0 B1, backward_maximum ke sp m in0 in1 out = Ok (B0, B1) /\
    operand_ok S m k f0 (fun z j => Rmax (f0 z j) (f1 z j)) out B0 /\ operand_ok S m k f1 (fun z j => Rmax (f0 z j) (f1 z j)) out B1.
Proof.
  intros ke sp S m k f0 f1 in0 in1 out Hke Hn Hd H0 H1 [G0 G1]. unfold backward_maximum.
  destruct (subtract_sound sp S m f0 f1 in0 in1 Hn Hd H0 H1) as (d0 & Ed0 & Vd0). rewrite Ed0. cbn [bind].
  destruct (relu_sound ke sp V_SLOPE None S m _ d0 Hke Hn Hd I Vd0 (G0 d0 Ed0)) as (s0 & Es0 & Vs0). rewrite Es0. cbn [bind].
  destruct (badd_sound sp S m k _ f1 s0 in1 out Hn Hd Vs0 H1) as (X0 & B1 & E1 & _ & P1 & _). rewrite E1. cbn [bind].
  destruct (subtract_sound sp S m f1 f0 in1 in0 Hn Hd H1 H0) as (d1 & Ed1 & Vd1). rewrite Ed1. cbn [bind].
  destruct (relu_sound ke sp V_SLOPE None S m _ d1 Hke Hn Hd I Vd1 (G1 d1 Ed1)) as (s1 & Es1 & Vs1). rewrite Es1. cbn [bind].
  destruct (badd_sound sp S m k _ f0 s1 in0 out Hn Hd Vs1 H0) as (X1 & B0 & E0 & _ & P0 & _). rewrite E0. cbn [bind fst snd].
  do 2 eexists. split; [reflexivity|]. split.
  - eapply operand_ext; [|exact P0]. intros z j _ _. cbn. unfold Rrelu. rcases.
  - eapply operand_ext; [|exact P1]. intros z j _ _. cbn. unfold Rrelu. rcases.
Qed.

Lemma bmax_gaps_ibp : forall ke sp m in0 in1, sp_mode sp = IBP -> bmax_gaps ke sp m in0 in1.
Proof. intros ke sp m in0 in1 H. split; intros d _; apply gaps_ok_ibp; auto. Qed.

(** backward_minus: bounds of the opposite of what follows, at the same point *)
Lemma bminus_reads : forall m out y j,
  aff m (bb_wu (backward_minus out)) (bb_bu (backward_minus out)) y j = - aff m (bb_wl out) (bb_bl out) y j /\
  aff m (bb_wl (backward_minus out)) (bb_bl (backward_minus out)) y j = - aff m (bb_wu out) (bb_bu out) y j.
Proof. intros. unfold backward_minus, mopp, vopp. cbn. split; apply aff_opp. Qed.

(** right for a linear map without bias that is exact *)
Lemma bminus_exact : forall m k out, (forall i j, bb_wu out i j = bb_wl out i j) -> (forall j, bb_bu out j = 0 /\ bb_bl out j = 0) ->
  follows (fun _ => True) m m k (fun y i => - y i) out (backward_minus out).
Proof.
  intros m k out Hw Hb y j _ Hj. destruct (bminus_reads m out y j) as [E1 E2]. rewrite E1, E2.
  assert (G : forall w b, b j = 0 -> aff m w b (fun i => - y i) j = - aff m w b y j).
  { intros w b H. rewrite <- aff_mopp. rewrite <- aff_opp. unfold aff, mopp. rewrite H. lra. }
  destruct (Hb j) as [B1 B2]. rewrite (G (bb_wl out) (bb_bl out)), (G (bb_wu out) (bb_bu out)) by auto.
  assert (Q : aff m (bb_wu out) (bb_bu out) y j = aff m (bb_wl out) (bb_bl out) y j).
  { unfold aff. rewrite B1, B2. f_equal. apply dot_ext; intros; auto. }
  lra.
Qed.

Lemma bminus_wrong : exists out y, 
  aff 1 (bb_wu (backward_minus out)) (bb_bu (backward_minus out)) y 0%nat < aff 1 (bb_wl out) (bb_bl out) (fun i => - y i) 0%nat.
Proof. exists (mk_bb (fun _ _ => 1) (fun _ => 1) (fun _ _ => 1) (fun _ => 1)), (fun _ => 0). cbv -[Rplus Rmult Ropp Rlt IZR]. lra. Qed.

Lemma bmin_is_max : forall ke sp S m k f0 f1 in0 in1 out,
  0 < ke -> (0 < sp_n sp)%nat -> dom_ok (sp_dom sp) (sp_mode sp) ->
  op_sp sp S m f0 in0 -> op_sp sp S m f1 in1 -> bmax_gaps ke sp m in0 in1 ->
  exists B0 B1, backward_minimum ke sp m in0 in1 out = Ok (B0, B1) /\
    operand_ok S m k f0 (fun z j => Rmax (f0 z j) (f1 z j)) out B0 /\ operand_ok S m k f1 (fun z j => Rmax (f0 z j) (f1 z j)) out B1.
Proof.
  intros ke sp S m k f0 f1 in0 in1 out Hke Hn Hd H0 H1 G. unfold backward_minimum.
  destruct (bmax_sound ke sp S m k f0 f1 in0 in1 (backward_minus out) Hke Hn Hd H0 H1 G) as (B0 & B1 & E & P0 & P1).
  rewrite E. cbn [bind fst snd]. do 2 eexists. split; [reflexivity|].
  split; intros z j Hz Hj; [specialize (P0 z j Hz Hj); rename P0 into P|specialize (P1 z j Hz Hj); rename P1 into P];
  [destruct (bminus_reads m B0 (f0 z) j) as [E1 E2]|destruct (bminus_reads m B1 (f1 z) j) as [E1 E2]]; rewrite E1, E2;
  destruct (bminus_reads m out (fun i => Rmax (f0 z i) (f1 z i)) j) as [E3 E4]; cbv beta in P; rewrite E3, E4 in P; lra.
Qed.

(** two constants 0 and 1: the lower bound claimed for their minimum is 1 *)
Lemma bmin_wrong : forall ke, exists B0 B1,
  backward_minimum ke (mk_spec false IBP Box 1) 1 (ts_ibp 0 0) (ts_ibp 1 1) identity_lirpa = Ok (B0, B1) /\
  Rmin 0 1 < aff 1 (bb_wl B0) (bb_bl B0) (fun _ => 0) 0%nat.
Proof.
  intros ke. do 2 eexists. split; [reflexivity|].
  cbv -[Rmax Rmin Rplus Rmult Rminus Ropp IZR Rlt Rle Rdiv Rinv].
  repeat (match goal with |- context [Rmax ?a ?b] => first [rewrite (Rmax_left a b) by lra | rewrite (Rmax_right a b) by lra]
    | |- context [Rmin ?a ?b] => first [rewrite (Rmin_left a b) by lra | rewrite (Rmin_right a b) by lra] end). lra.
Qed.

(** backward_scale *)
Lemma aff_mscal : forall m c w b y j, aff m (mscal c w) b y j = aff m w b (fun i => c * y i) j.
Proof. intros. unfold aff, mscal. f_equal. unfold dot. apply rsum_ext. intros; ring. Qed.

Lemma bscale_pos : forall Y m k c out, 0 <= c -> follows Y m m k (fun y i => c * y i) out (backward_scale c out).
Proof.
  intros Y m k c out Hc y j _ _. unfold backward_scale. destruct (Rle_dec 0 c); [|lra]. cbn. rewrite !aff_mscal. lra.
Qed.
Lemma bscale_neg_wrong : forall c, c < 0 -> exists out, 
  (forall y, aff 1 (bb_wl out) (bb_bl out) y 0%nat < aff 1 (bb_wu out) (bb_bu out) y 0%nat) /\
  ~ follows (fun _ => True) 1 1 1 (fun y i => c * y i) out (backward_scale c out).
Proof.
  intros c Hc. exists (mk_bb (fun _ _ => 0) (fun _ => 1) (fun _ _ => 0) (fun _ => 0)). split.
  - intros y. unfold aff, dot. cbn. lra.
  - intros H. specialize (H (fun _ => 0) 0%nat I ltac:(lia)). revert H. unfold backward_scale. destruct (Rle_dec 0 c); [lra|].
    unfold aff, dot, mscal. cbn. lra.
Qed.
(** for c < 0 the two bounds are exchanged *)
Lemma bscale_neg : forall m c out y j, c < 0 ->
  aff m (bb_wu (backward_scale c out)) (bb_bu (backward_scale c out)) y j = aff m (bb_wl out) (bb_bl out) (fun i => c * y i) j /\
  aff m (bb_wl (backward_scale c out)) (bb_bl (backward_scale c out)) y j = aff m (bb_wu out) (bb_bu out) (fun i => c * y i) j.
Proof. intros m c out y j Hc. unfold backward_scale. destruct (Rle_dec 0 c); [lra|]. cbn. rewrite !aff_mscal. auto. Qed.

(** backward_multiply *)
Lemma mult_sound : forall u0 l0 u1 l1 y0 y1, l0 <= y0 <= u0 -> l1 <= y1 <= u1 ->
  let c := mult_coeffs u0 l0 u1 l1 in
  fst (snd c) * y0 + snd (snd c) <= y0 * y1 <= fst (fst c) * y0 + snd (fst c).
Proof.
  intros u0 l0 u1 l1 y0 y1 H0 H1. unfold mult_coeffs. cbn [fst snd].
  destruct (Rle_dec 0 l0); [rewrite Rmax_left, Rmin_right by lra|rewrite Rmax_right, Rmin_left by lra]; split; nra.
Qed.

Lemma mult_shape : forall batch n k,
  mult_w_shape batch n k =
  (if Nat.eqb n 1 then Ok [batch; batch; n; k] else if Nat.eqb batch n then Ok [batch; n; n; k]
   else if Nat.eqb batch 1 then Ok [batch; n; n; k] else Err ValueError).
Proof.
  intros. unfold mult_w_shape, bc_shape. cbn [rev app bc_rev].
  destruct (Nat.eq_dec n 1) as [->|Hn].
  - rewrite !Nat.eqb_refl. destruct (Nat.eqb_spec k 1) as [->|Hk]; cbn [Nat.eqb]; rewrite ?Nat.eqb_refl;
    destruct (Nat.eqb_spec batch 1) as [->|Hb]; cbn [Nat.eqb]; rewrite ?Nat.eqb_refl; try reflexivity;
    repeat match goal with |- context [Nat.eqb 1 ?x] => destruct (Nat.eqb_spec 1 x); try congruence end; reflexivity.
  - destruct (Nat.eqb_spec n 1); [congruence|].
    destruct (Nat.eqb_spec k 1) as [->|Hk]; cbn [Nat.eqb];
    destruct (Nat.eqb_spec batch n) as [->|Hbn]; cbn [Nat.eqb]; rewrite ?Nat.eqb_refl; try reflexivity;
    destruct (Nat.eqb_spec batch 1) as [->|Hb]; cbn [Nat.eqb]; rewrite ?Nat.eqb_refl; try reflexivity;
    repeat match goal with |- context [Nat.eqb ?y ?x] => destruct (Nat.eqb_spec y x); try congruence end; reflexivity.
Qed.

Lemma mult_shape_bad : forall batch n k s, mult_w_shape batch n k = Ok s -> length s = 4%nat.
Proof.
  intros batch n k s. rewrite mult_shape. destruct (Nat.eqb n 1); [intros E; injection E; intros <-; auto|].
  destruct (Nat.eqb batch n); [intros E; injection E; intros <-; auto|]. destruct (Nat.eqb batch 1); [intros E; injection E; intros <-; auto|discriminate].
Qed.
