(** Proofs about M_Ops: product, reductions, exp, log. *)
From Coq Require Import Reals Lra Lia Psatz List Arith Bool ZArith.
From Verif Require Import RLib Spec M_Core M_Utils M_MergeLayers M_Ops P_Core P_Utils P_MergeLayers P_Axis.
Import ListNotations.
Local Open Scope R_scope.

(** ** generic packing *)
Lemma finish_sound : forall sp (S : vec -> Prop) m g r, sp_dc sp = false ->
  vfull (sp_dom sp) (get_ibp (sp_mode sp)) (get_affine (sp_mode sp)) S (sp_n sp) m g r ->
  exists out, finish sp r = Ok out /\ op_sp sp S m g out.
Proof.
  intros sp S m g r Hdc H. unfold finish. rewrite Hdc. eexists. split; [reflexivity|].
  unfold op_sp. rewrite Hdc. apply vfull_valid. exact H.
Qed.

Lemma hull_out_sound : forall sp (S : vec -> Prop) m (f g : vec -> vec) (uc lc : tensor) hl r, sp_dc sp = false ->
  (get_ibp (sp_mode sp) = true -> const_ok S m g (uc 0%nat) (lc 0%nat)) ->
  (get_affine (sp_mode sp) = true ->
     (forall z, S z -> in_dom (sp_dom sp) (sp_n sp) (f_x r) z) /\
     affine_ok S (sp_n sp) m f (f_wu r) (f_bu r 0%nat) (f_wl r) (f_bl r 0%nat) /\
     forall z j, S z -> (j < m)%nat ->
       0 <= h_wu (hl j) /\ 0 <= h_wl (hl j) /\
       h_wl (hl j) * f z j + h_bl (hl j) <= g z j <= h_wu (hl j) * f z j + h_bu (hl j)) ->
  exists out, finish sp (hull_out sp uc lc hl r) = Ok out /\ op_sp sp S m g out.
Proof.
  intros sp S m f g uc lc hl r Hdc Hc Ha. apply finish_sound; auto. split.
  - intros Hi. unfold hull_out. rewrite Hi. cbn. auto.
  - intros Hi. destruct (Ha Hi) as (X & A & Hh). unfold hull_out. rewrite Hi. cbn [when f_x f_wu f_bu f_wl f_bl].
    split; auto.
    apply (hull_affine_sound S (sp_n sp) m f g (f_wu r) (f_bu r 0%nat) (f_wl r) (f_bl r 0%nat) hl); auto.
Qed.

(** ** product *)
Lemma pn_upper : forall c v A B, B <= v <= A -> c * v <= Rmax c 0 * A + Rmin c 0 * B.
Proof.
  intros. destruct (Rle_dec 0 c).
  - rewrite Rmax_left, Rmin_right by lra. nra.
  - rewrite Rmax_right, Rmin_left by lra. nra.
Qed.
Lemma pn_lower : forall c v A B, B <= v <= A -> Rmax c 0 * B + Rmin c 0 * A <= c * v.
Proof.
  intros. destruct (Rle_dec 0 c).
  - rewrite Rmax_left, Rmin_right by lra. nra.
  - rewrite Rmax_right, Rmin_left by lra. nra.
Qed.

Lemma aff_comb4 : forall n (a b c d e : vec) (w1 w2 w3 w4 : mat) (b1 b2 b3 b4 : vec) z j,
  aff n (fun i j => a j * w1 i j + b j * w2 i j + c j * w3 i j + d j * w4 i j)
        (fun j => a j * b1 j + b j * b2 j + c j * b3 j + d j * b4 j - e j) z j =
  a j * aff n w1 b1 z j + b j * aff n w2 b2 z j + c j * aff n w3 b3 z j + d j * aff n w4 b4 z j - e j.
Proof.
  intros. unfold aff.
  rewrite (dot_plus_l n (fun i => a j * w1 i j + b j * w2 i j + c j * w3 i j) (fun i => d j * w4 i j)).
  rewrite (dot_plus_l n (fun i => a j * w1 i j + b j * w2 i j) (fun i => c j * w3 i j)).
  rewrite (dot_plus_l n (fun i => a j * w1 i j) (fun i => b j * w2 i j)).
  rewrite !dot_scal_l. ring.
Qed.

Lemma seg_max : forall c a b v, a <= v <= b -> c * v <= Rmax (c * b) (c * a).
Proof. intros. destruct (Rle_dec 0 c).
  - eapply Rle_trans; [|apply Rmax_l]. nra.
  - eapply Rle_trans; [|apply Rmax_r]. nra. Qed.
Lemma seg_min : forall c a b v, a <= v <= b -> Rmin (c * a) (c * b) <= c * v.
Proof. intros. destruct (Rle_dec 0 c).
  - eapply Rle_trans; [apply Rmin_l|]. nra.
  - eapply Rle_trans; [apply Rmin_r|]. nra. Qed.

Lemma multiply_sound : forall sp S m f0 f1 in0 in1,
  (0 < sp_n sp)%nat -> dom_ok (sp_dom sp) (sp_mode sp) -> sp_dc sp = false ->
  op_sp sp S m f0 in0 -> op_sp sp S m f1 in1 ->
  exists out, multiply sp in0 in1 = Ok out /\ op_sp sp S m (fun z j => f0 z j * f1 z j) out.
Proof.
  intros sp S m f0 f1 in0 in1 Hn Hd Hdc H0 H1.
  destruct (get_full_sound sp true true S m f0 in0 Hn Hd H0) as (r0 & E0 & C0 & A0).
  destruct (get_full_sound sp true true S m f1 in1 Hn Hd H1) as (r1 & E1 & C1 & A1).
  unfold multiply. rewrite E0, E1. cbn [bind].
  rewrite orb_true_r in *. specialize (C0 eq_refl). specialize (C1 eq_refl).
  apply finish_sound; auto. split.
  - intros Hi. unfold mul_full. rewrite Hi. cbn [when f_uc f_lc]. intros z j Hz Hj.
    specialize (C0 z j Hz Hj). specialize (C1 z j Hz Hj).
    set (u0 := f_uc r0 0%nat j) in *. set (l0 := f_lc r0 0%nat j) in *.
    set (u1 := f_uc r1 0%nat j) in *. set (l1 := f_lc r1 0%nat j) in *.
    set (x := f0 z j) in *. set (y := f1 z j) in *. split.
    + pose proof (seg_min l0 l1 u1 y ltac:(lra)) as P. pose proof (seg_min l1 l0 u0 x ltac:(lra)) as Q.
      rewrite (Rmult_comm l1 l0), (Rmult_comm l1 u0) in Q.
      assert (0 <= (x - l0) * (y - l1)) by (apply Rmult_le_pos; lra). nra.
    + apply Rmin_glb.
      * pose proof (seg_max u0 l1 u1 y ltac:(lra)) as P. pose proof (seg_max l1 l0 u0 x ltac:(lra)) as Q.
        rewrite (Rmult_comm l1 l0), (Rmult_comm l1 u0) in Q.
        assert (0 <= (u0 - x) * (y - l1)) by (apply Rmult_le_pos; lra). nra.
      * pose proof (seg_max u1 l0 u0 x ltac:(lra)) as P. pose proof (seg_max l0 l1 u1 y ltac:(lra)) as Q.
        rewrite (Rmult_comm l0 l1), (Rmult_comm l0 u1) in Q.
        assert (0 <= (x - l0) * (u1 - y)) by (apply Rmult_le_pos; lra). nra.
  - intros Ha. destruct (A0 Ha) as [X0 B0]. destruct (A1 Ha) as [X1 B1]. unfold mul_full. rewrite Ha.
    cbn [when f_x f_wu f_bu f_wl f_bl]. split; [exact X0|]. intros z j Hz Hj.
    specialize (C0 z j Hz Hj). specialize (C1 z j Hz Hj). specialize (B0 z j Hz Hj). specialize (B1 z j Hz Hj).
    rewrite (aff_comb4 _ (fun j => Rmax (f_lc r0 0%nat j) 0) (fun j => Rmin (f_lc r0 0%nat j) 0)
      (fun j => Rmax (f_lc r1 0%nat j) 0) (fun j => Rmin (f_lc r1 0%nat j) 0)
      (fun j => f_lc r0 0%nat j * f_lc r1 0%nat j) (f_wl r1) (f_wu r1) (f_wl r0) (f_wu r0)
      (f_bl r1 0%nat) (f_bu r1 0%nat) (f_bl r0 0%nat) (f_bu r0 0%nat)).
    rewrite (aff_comb4 _ (fun j => Rmax (f_uc r0 0%nat j) 0) (fun j => Rmin (f_uc r0 0%nat j) 0)
      (fun j => Rmax (f_lc r1 0%nat j) 0) (fun j => Rmin (f_lc r1 0%nat j) 0)
      (fun j => f_uc r0 0%nat j * f_lc r1 0%nat j) (f_wu r1) (f_wl r1) (f_wu r0) (f_wl r0)
      (f_bu r1 0%nat) (f_bl r1 0%nat) (f_bu r0 0%nat) (f_bl r0 0%nat)).
    set (u0 := f_uc r0 0%nat j) in *. set (l0 := f_lc r0 0%nat j) in *.
    set (l1 := f_lc r1 0%nat j) in *. set (x := f0 z j) in *. set (y := f1 z j) in *.
    pose proof (pn_upper u0 y _ _ B1). pose proof (pn_upper l1 x _ _ B0).
    pose proof (pn_lower l0 y _ _ B1). pose proof (pn_lower l1 x _ _ B0).
    assert (0 <= (x - l0) * (y - l1)) by (apply Rmult_le_pos; lra).
    assert (0 <= (u0 - x) * (y - l1)) by (apply Rmult_le_pos; lra). nra.
Qed.

Lemma pow_sound : forall sp S m f ts,
  (0 < sp_n sp)%nat -> dom_ok (sp_dom sp) (sp_mode sp) -> sp_dc sp = false ->
  op_sp sp S m f ts ->
  exists out, op_pow sp ts = Ok out /\ op_sp sp S m (fun z j => f z j ^ 2) out.
Proof.
  intros. unfold op_pow. destruct (multiply_sound sp S m f f ts ts) as (o & E & V); auto.
  exists o. split; auto. eapply op_sp_ext; [|exact V]. intros; cbn; ring.
Qed.

Definition prod_list (l : list R) : R := fold_right Rmult 1 l.
Lemma foldR_multiply_sound : forall sp (S : vec -> Prop) m fs ls,
  (0 < sp_n sp)%nat -> dom_ok (sp_dom sp) (sp_mode sp) -> sp_dc sp = false ->
  Forall2 (op_sp sp S m) fs ls -> forall f0 o, op_sp sp S m f0 o ->
  exists out, foldR (multiply sp) ls o = Ok out /\
    op_sp sp S m (fun z j => f0 z j * prod_list (vals fs z j)) out.
Proof.
  intros sp S m fs ls Hn Hd Hdc HF. induction HF; intros f0 o Ho; cbn [foldR].
  - exists o. split; auto. eapply op_sp_ext; [|exact Ho]. intros; cbn; ring.
  - destruct (multiply_sound sp S m f0 x o y Hn Hd Hdc Ho H) as (o' & E & V). rewrite E. cbn [bind].
    destruct (IHHF _ o' V) as (out & E' & V'). exists out. split; auto.
    eapply op_sp_ext; [|exact V']. intros; cbn. unfold prod_list, vals. ring.
Qed.

Lemma decomon_multiply_sound : forall sp (S : vec -> Prop) m fs ls,
  (0 < sp_n sp)%nat -> dom_ok (sp_dom sp) (sp_mode sp) -> sp_dc sp = false ->
  Forall2 (op_sp sp S m) fs ls -> ls <> [] ->
  exists out, decomon_multiply sp (concat ls) = Ok out /\
    op_sp sp S m (fun z j => prod_list (vals fs z j)) out.
Proof.
  intros sp S m fs ls Hn Hd Hdc HF Hne. unfold decomon_multiply.
  pose proof (split_valid sp S m fs ls HF) as Es. rewrite Es. clear Es. rewrite Hdc.
  destruct HF as [|f0 l0 fs ls H0 HF]; [congruence|]. destruct HF as [|f1 l1 fs ls H1 HF].
  - cbn [concat]. rewrite app_nil_r. exists l0. split; auto.
    eapply op_sp_ext; [|exact H0]. intros; cbn; ring.
  - destruct (multiply_sound sp S m f0 f1 l0 l1 Hn Hd Hdc H0 H1) as (o & E & V). rewrite E. cbn [bind].
    destruct (foldR_multiply_sound sp S m fs ls Hn Hd Hdc HF _ o V) as (out & E' & V').
    exists out. split; auto. eapply op_sp_ext; [|exact V']. intros; cbn. unfold prod_list, vals. ring.
Qed.

(** ** reductions *)

(** Python axes accepted for the axis between pre and post: the positive one, -1 when it is last, and
    any negative one when no weight is involved *)
Definition axis_ok (mode : fmode) (pre post : list nat) (axis : Z) : Prop :=
  axis = pos_axis pre \/ (axis = neg_axis post /\ (post = [] \/ mode = IBP)).

Lemma axis_ok_b : forall mode pre k post axis, axis_ok mode pre post axis ->
  b_axis (pre ++ k :: post) axis = Ok (length pre).
Proof. intros mode pre k post axis [->|[-> _]]; [apply b_axis_pos | apply b_axis_neg]. Qed.
Lemma axis_ok_w : forall mode pre k post axis, axis_ok mode pre post axis -> get_affine mode = true ->
  w_axis (pre ++ k :: post) (shift_axis axis) = Ok (length pre).
Proof.
  intros mode pre k post axis [->|[-> [-> | ->]]] H; [apply w_axis_pos | apply w_axis_last | discriminate].
Qed.

Lemma rsum_aff : forall n k (w : nat -> nat -> nat -> R) (b : nat -> nat -> R) z j,
  aff n (fun i j => rsum k (fun c => w c i j)) (fun j => rsum k (fun c => b c j)) z j =
  rsum k (fun c => aff n (w c) (b c) z j).
Proof.
  intros. unfold aff. rewrite (dot_sum_l n k (fun i c => w c i j) z). rewrite rsum_plus. reflexivity.
Qed.

Lemma slice_aff : forall n pre k post c (w b : tensor) z p q, in_shape pre p -> in_shape post q ->
  aff n (slice (pre ++ k :: post) (length pre) c w) (slice (pre ++ k :: post) (length pre) c b 0%nat) z (ravel (pre ++ post) (p ++ q)) =
  aff n w (b 0%nat) z (ravel (pre ++ k :: post) (p ++ c :: q)).
Proof.
  intros. unfold aff. rewrite slice_at by auto. f_equal. apply dot_ext; auto.
  intros. apply slice_at; auto.
Qed.

Lemma sum_sound : forall sp S pre k post axis f g ts,
  (0 < sp_n sp)%nat -> dom_ok (sp_dom sp) (sp_mode sp) -> sp_dc sp = false ->
  axis_ok (sp_mode sp) pre post axis -> along_axis rsum pre k post f g ->
  op_sp sp S (prodn (pre ++ k :: post)) f ts ->
  exists out, op_sum sp (pre ++ k :: post) axis ts = Ok out /\ op_sp sp S (prodn (pre ++ post)) g out.
Proof.
  intros sp S pre k post axis f g ts Hn Hd Hdc Hax Hg H.
  destruct (get_full_sound sp false true S _ f ts Hn Hd H) as (r & E & C & A).
  unfold op_sum. rewrite E. cbn [bind]. cbv zeta. rewrite (axis_ok_b _ _ k _ _ Hax). cbn [bind].
  rewrite orb_false_r in C.
  destruct (get_affine (sp_mode sp)) eqn:Ea.
  2:{ cbn [bind]. apply finish_sound; auto. split; [|rewrite Ea; discriminate].
      intros Hi. rewrite Hi. cbn [when f_uc f_lc]. intros z j Hz Hj.
      destruct (position_split _ _ _ Hj) as (p & q & Ip & Iq & ->). rewrite Hg by auto.
      unfold red_axis. rewrite ax_len_mid. split; apply rsum_le; intros c Hc; rewrite slice_at by auto;
      apply (C Hi); auto; apply position_mid_lt; auto. }
  rewrite (axis_ok_w _ _ k _ _ Hax Ea). cbn [bind]. apply finish_sound; auto. split.
  - intros Hi. rewrite Hi. cbn [when f_uc f_lc]. intros z j Hz Hj.
    destruct (position_split _ _ _ Hj) as (p & q & Ip & Iq & ->). rewrite Hg by auto.
    unfold red_axis. rewrite ax_len_mid. split; apply rsum_le; intros c Hc; rewrite slice_at by auto;
    apply (C Hi); auto; apply position_mid_lt; auto.
  - intros _. destruct (A eq_refl) as [X B]. cbn [when f_x f_wu f_bu f_wl f_bl]. split; [exact X|].
    intros z j Hz Hj.
    destruct (position_split _ _ _ Hj) as (p & q & Ip & Iq & ->). rewrite Hg by auto.
    unfold red_axis. rewrite ax_len_mid.
    rewrite (rsum_aff (sp_n sp) k (fun c => slice (pre ++ k :: post) (length pre) c (f_wl r)) (fun c => slice (pre ++ k :: post) (length pre) c (f_bl r) 0%nat)).
    rewrite (rsum_aff (sp_n sp) k (fun c => slice (pre ++ k :: post) (length pre) c (f_wu r)) (fun c => slice (pre ++ k :: post) (length pre) c (f_bu r) 0%nat)).
    split; apply rsum_le; intros c Hc; rewrite slice_aff by auto;
    apply B; auto; apply position_mid_lt; auto.
Qed.

(** one slice *)
Definition slice_fun (pre : list nat) (k : nat) (post : list nat) (c : nat) (f : vec -> vec) : vec -> vec :=
  fun z => slice (pre ++ k :: post) (length pre) c (vt (f z)) 0%nat.

Lemma slice_full_sound : forall sp S pre k post c f r ibp affine,
  (c < k)%nat ->
  vfull (sp_dom sp) ibp affine S (sp_n sp) (prodn (pre ++ k :: post)) f r ->
  vfull (sp_dom sp) ibp affine S (sp_n sp) (prodn (pre ++ post)) (slice_fun pre k post c f)
    (slice_full (pre ++ k :: post) (length pre) (length pre) c r).
Proof.
  intros sp S pre k post c f r ibp affine Hc [C A]. split.
  - intros Hi z j Hz Hj. destruct (position_split _ _ _ Hj) as (p & q & Ip & Iq & ->).
    cbn [slice_full f_uc f_lc]. unfold slice_fun. rewrite !slice_at by auto.
    apply (C Hi); auto. apply position_mid_lt; auto.
  - intros Ha. destruct (A Ha) as [X B]. split; [exact X|].
    intros z j Hz Hj. destruct (position_split _ _ _ Hj) as (p & q & Ip & Iq & ->).
    cbn [slice_full f_wu f_bu f_wl f_bl]. rewrite !slice_aff by auto. unfold slice_fun. rewrite !slice_at by auto.
    apply B; auto. apply position_mid_lt; auto.
Qed.

(** width conditions along the loop of max_ *)
Fixpoint max_loop_gaps (ke : R) (sp : spec) (m : nat) (ft : nat -> option vec) (ins : nat -> list tensor) (is : list nat) (o : list tensor) : Prop :=
  match is with
  | [] => True
  | i :: q => max_gaps_ok ke sp m o (ins i) /\
      forall o', maximum ke sp (ft i) o (ins i) = Ok o' -> max_loop_gaps ke sp m ft ins q o'
  end.

Lemma max_loop_sound : forall ke sp (S : vec -> Prop) m ft ins fs is,
  0 < ke -> (0 < sp_n sp)%nat -> dom_ok (sp_dom sp) (sp_mode sp) ->
  (forall i, In i is -> ft_ok m (ft i)) ->
  (forall i, In i is -> op_sp sp S m (fs i) (ins i)) -> forall f0 o,
  op_sp sp S m f0 o -> max_loop_gaps ke sp m ft ins is o ->
  exists out, max_loop ke sp ft ins is o = Ok out /\
    op_sp sp S m (fun z j => max_list (f0 z j) (map (fun i => fs i z j) is)) out.
Proof.
  intros ke sp S m ft ins fs is Hke Hn Hd. induction is as [|i q IH]; intros Hft Hv f0 o Ho Hg; cbn [max_loop].
  - exists o. split; auto.
  - destruct Hg as [G1 G2].
    destruct (maximum_sound ke sp (ft i) S m f0 (fs i) o (ins i) Hke Hn Hd (Hft i (or_introl eq_refl)) Ho (Hv i (or_introl eq_refl)) G1) as (o' & E & V).
    rewrite E. cbn [bind]. destruct (IH ltac:(intros; apply Hft; right; auto) ltac:(intros; apply Hv; right; auto) _ o' V (G2 o' E)) as (out & E' & V').
    exists out. split; auto.
Qed.

Lemma fold_max_ge : forall l a, a <= fold_left Rmax l a /\ (forall x, In x l -> x <= fold_left Rmax l a).
Proof.
  induction l as [|b l IH]; intros a; cbn [fold_left]; [split; [lra|intros x []]|].
  destruct (IH (Rmax a b)) as [I1 I2]. split.
  - eapply Rle_trans; [apply (Rmax_l a b)|auto].
  - intros x [<-|Hx]; auto. eapply Rle_trans; [apply (Rmax_r a b)|auto].
Qed.
Lemma fold_max_in : forall l a, fold_left Rmax l a = a \/ In (fold_left Rmax l a) l.
Proof.
  induction l as [|b l IH]; intros a; cbn [fold_left]; [left; auto|].
  destruct (IH (Rmax a b)) as [I|I].
  - rewrite I. destruct (Rmax_case_lra a b) as [[_ E]|[_ E]]; rewrite E; [right; left; auto | left; auto].
  - right; right; auto.
Qed.
Lemma max_list_rmax : forall k (v : nat -> R), (0 < k)%nat ->
  max_list (v 0%nat) (map v (seq 1 (k - 1))) = rmax k v.
Proof.
  intros k v Hk. apply Rle_antisym.
  - unfold max_list. destruct (fold_max_in (map v (seq 1 (k - 1))) (v 0%nat)) as [->|H].
    + apply rmax_ge; auto.
    + apply in_map_iff in H. destruct H as (i & E & Hi). rewrite <- E. apply in_seq in Hi. apply rmax_ge. lia.
  - apply rmax_lub; auto. intros i Hi. destruct (fold_max_ge (map v (seq 1 (k - 1))) (v 0%nat)) as [H1 H2].
    destruct i; [exact H1|]. apply H2. apply in_map. apply in_seq. lia.
Qed.

(** width conditions of max_ *)
Definition op_max_gaps (ke : R) (sp : spec) (s : list nat) (axis : Z) (ft : option vec) (ts : list tensor) (m' : nat) : Prop :=
  sp_mode sp <> IBP ->
  forall r ab aw, get_fullinputs sp false false ts = Ok r -> b_axis s axis = Ok ab -> w_axis s (shift_axis axis) = Ok aw ->
  let ins c := extract (sp_mode sp) false (slice_full s ab aw c r) in
  max_loop_gaps ke (no_dc sp) m' (fun c => option_map (fun v : vec => slice s ab c (vt v) 0%nat) ft)
    ins (seq 1 (ax_len s ab - 1)) (ins 0%nat).

Lemma max_loop_gaps_ibp : forall ke sp m ft ins is o, sp_mode sp = IBP -> max_loop_gaps ke sp m ft ins is o.
Proof.
  intros ke sp m ft ins is. induction is; intros o H; cbn; auto. split; auto. apply max_gaps_ibp; auto.
Qed.

Lemma red_max_ok : forall sp S pre k post f g (r : full tensor), (0 < k)%nat ->
  along_axis rmax pre k post f g ->
  const_ok S (prodn (pre ++ k :: post)) f (f_uc r 0%nat) (f_lc r 0%nat) ->
  valid (sp_dom sp) IBP false S (sp_n sp) (prodn (pre ++ post)) g
    [red_axis rmax (pre ++ k :: post) (length pre) (f_uc r); red_axis rmax (pre ++ k :: post) (length pre) (f_lc r)].
Proof.
  intros sp S pre k post f g r Hk Hg C. split; [reflexivity|]. intros z j Hz Hj.
  destruct (position_split _ _ _ Hj) as (p & q & Ip & Iq & ->). rewrite Hg by auto.
  unfold red_axis. rewrite ax_len_mid.
  split; apply rmax_le; auto; intros c Hc; rewrite slice_at by auto; apply C; auto; apply position_mid_lt; auto.
Qed.

Lemma max_sound : forall ke sp S pre k post axis ft f g ts,
  0 < ke -> (0 < sp_n sp)%nat -> dom_ok (sp_dom sp) (sp_mode sp) -> (0 < k)%nat ->
  axis_ok (sp_mode sp) pre post axis -> along_axis rmax pre k post f g ->
  ft_ok (prodn (pre ++ k :: post)) ft ->
  op_sp sp S (prodn (pre ++ k :: post)) f ts ->
  op_max_gaps ke sp (pre ++ k :: post) axis ft ts (prodn (pre ++ post)) ->
  exists out, op_max ke sp (pre ++ k :: post) axis ft ts = Ok out /\ op_sp sp S (prodn (pre ++ post)) g out.
Proof.
  intros ke sp S pre k post axis ft f g ts Hke Hn Hd Hk Hax Hg Hft H Hgap.
  destruct (get_full_sound sp false false S _ f ts Hn Hd H) as (r & E & C & A).
  unfold op_max. rewrite E. cbn [bind]. rewrite (axis_ok_b _ _ k _ _ Hax). cbn [bind]. cbv zeta.
  rewrite orb_false_r in C.
  destruct (mode_eqb (sp_mode sp) IBP && negb (sp_dc sp))%bool eqn:Em.
  { apply andb_true_iff in Em. destruct Em as [Em Ed].
    assert (Hm : sp_mode sp = IBP) by (destruct (sp_mode sp); auto; discriminate).
    assert (Hdc : sp_dc sp = false) by (destruct (sp_dc sp); auto; discriminate).
    eexists. split; [reflexivity|]. unfold op_sp. rewrite Hm, Hdc. rewrite Hm in C.
    apply (red_max_ok sp S pre k post f g r); auto. }
  assert (Eaw : (if get_affine (sp_mode sp) then w_axis (pre ++ k :: post) (shift_axis axis) else Ok (length pre)) = Ok (length pre)).
  { destruct (get_affine (sp_mode sp)) eqn:Ea; auto. apply (axis_ok_w _ _ k _ _ Hax Ea). }
  rewrite Eaw. cbn [bind]. rewrite !ax_len_mid. rewrite Nat.eqb_refl. cbn [negb].
  set (s := pre ++ k :: post) in *.
  set (ins := fun c => extract (sp_mode sp) false (slice_full s (length pre) (length pre) c r)).
  set (fts := fun c => if get_affine (sp_mode sp) then option_map (fun v : vec => slice s (length pre) c (vt v) 0%nat) ft else None).
  assert (Vins : forall c, (c < k)%nat -> op_sp (no_dc sp) S (prodn (pre ++ post)) (slice_fun pre k post c f) (ins c)).
  { intros c Hc. unfold op_sp, no_dc. cbn [sp_dom sp_mode sp_dc sp_n]. apply vfull_valid.
    apply slice_full_sound; auto. split; auto. }
  assert (Hfts : forall c, (c < k)%nat -> ft_ok (prodn (pre ++ post)) (fts c)).
  { intros c Hc. unfold fts. destruct (get_affine (sp_mode sp)); cbn; auto. destruct ft as [v|]; cbn; auto.
    intros j Hj. destruct (position_split _ _ _ Hj) as (p & q & Ip & Iq & ->). unfold s. rewrite slice_at by auto.
    unfold vt. apply Hft. apply position_mid_lt; auto. }
  assert (Hmg : max_loop_gaps ke (no_dc sp) (prodn (pre ++ post)) fts ins (seq 1 (k - 1)) (ins 0%nat)).
  { destruct (sp_mode sp) eqn:Esm.
    - apply max_loop_gaps_ibp. cbn. auto.
    - specialize (Hgap ltac:(congruence) r (length pre) (length pre) E (axis_ok_b _ _ k _ _ Hax) Eaw). cbv zeta in Hgap.
      unfold s in Hgap. rewrite ax_len_mid in Hgap. rewrite Esm in Hgap. exact Hgap.
    - specialize (Hgap ltac:(congruence) r (length pre) (length pre) E (axis_ok_b _ _ k _ _ Hax) Eaw). cbv zeta in Hgap.
      unfold s in Hgap. rewrite ax_len_mid in Hgap. rewrite Esm in Hgap. exact Hgap. }
  destruct (max_loop_sound ke (no_dc sp) S (prodn (pre ++ post)) fts ins (fun c => slice_fun pre k post c f) (seq 1 (k - 1))
    Hke Hn Hd ltac:(intros i Hi; apply in_seq in Hi; apply Hfts; lia) ltac:(intros i Hi; apply in_seq in Hi; apply Vins; lia)
    (slice_fun pre k post 0 f) (ins 0%nat) (Vins 0%nat Hk) Hmg) as (o & Eo & Vo).
  change (extract (sp_mode sp) false (slice_full s (length pre) (length pre) 0 r)) with (ins 0%nat). rewrite Eo. cbn [bind].
  destruct (get_full_sound (no_dc sp) true (negb (mode_eqb (sp_mode sp) AFFINE)) S _ _ o Hn Hd Vo) as (ro & Ero & Co & Ao).
  rewrite Ero. cbn [bind]. cbn [no_dc sp_dom sp_mode sp_dc sp_n] in Co, Ao.
  assert (G : vfull (sp_dom sp) (get_ibp (sp_mode sp)) (get_affine (sp_mode sp)) S (sp_n sp) (prodn (pre ++ post)) g
    (mk_full (f_x r) (f_uc ro) (f_wu ro) (f_bu ro) (f_lc ro) (f_wl ro) (f_bl ro) empty_tensor empty_tensor)).
  { assert (Eg : forall z j, (j < prodn (pre ++ post))%nat ->
      max_list (slice_fun pre k post 0 f z j) (map (fun i => slice_fun pre k post i f z j) (seq 1 (k - 1))) = g z j).
    { intros z j Hj. rewrite (max_list_rmax k (fun i => slice_fun pre k post i f z j) Hk).
      destruct (position_split _ _ _ Hj) as (p & q & Ip & Iq & ->). rewrite Hg by auto.
      apply rmax_ext; auto. intros c Hc. unfold slice_fun. rewrite slice_at by auto. reflexivity. }
    split; cbn [f_x f_uc f_wu f_bu f_lc f_wl f_bl].
    - intros Hi. intros z j Hz Hj. rewrite <- Eg by auto. apply Co; auto. rewrite Hi; auto.
    - intros Ha. split; [apply A; auto|]. intros z j Hz Hj. rewrite <- Eg by auto. apply Ao; auto. }
  destruct (sp_dc sp) eqn:Edc; cbv beta iota; eexists; (split; [reflexivity|]); unfold op_sp; rewrite Edc;
  apply vfull_valid; exact G.
Qed.

Lemma minus_full_sound_neg : forall sp (S : vec -> Prop) m f ts,
  (0 < sp_n sp)%nat -> dom_ok (sp_dom sp) (sp_mode sp) ->
  op_sp sp S m (fun z j => - f z j) ts ->
  exists out, minus sp ts = Ok out /\ op_sp sp S m f out.
Proof.
  intros. destruct (minus_sound sp S m _ ts H H0 H1) as (o & E & V). exists o. split; auto.
  eapply op_sp_ext; [|exact V]. intros; cbn; ring.
Qed.

Definition op_min_gaps (ke : R) (sp : spec) (s : list nat) (axis : Z) (ft : option vec) (ts : list tensor) (m' : nat) : Prop :=
  forall t, minus (no_dc sp) ts = Ok t -> op_max_gaps ke sp s axis ft t m'.

Lemma no_dc_id : forall sp, sp_dc sp = false -> no_dc sp = sp.
Proof. intros [dc mode D n] H. cbn in *. subst. reflexivity. Qed.

Lemma min_sound : forall ke sp S pre k post axis ft f g ts,
  0 < ke -> (0 < sp_n sp)%nat -> dom_ok (sp_dom sp) (sp_mode sp) -> sp_dc sp = false -> (0 < k)%nat ->
  axis_ok (sp_mode sp) pre post axis -> along_axis rmin pre k post f g ->
  ft_ok (prodn (pre ++ k :: post)) ft ->
  op_sp sp S (prodn (pre ++ k :: post)) f ts ->
  op_min_gaps ke sp (pre ++ k :: post) axis ft ts (prodn (pre ++ post)) ->
  exists out, op_min ke sp (pre ++ k :: post) axis ft ts = Ok out /\ op_sp sp S (prodn (pre ++ post)) g out.
Proof.
  intros ke sp S pre k post axis ft f g ts Hke Hn Hd Hdc Hk Hax Hg Hft H Hgap.
  unfold op_min. unfold op_min_gaps in Hgap. rewrite (no_dc_id sp Hdc) in *.
  destruct (minus_sound sp S _ f ts Hn Hd H) as (t & Et & Vt). rewrite Et. cbn [bind].
  destruct (max_sound ke sp S pre k post axis ft (fun z j => - f z j) (fun z j => - g z j) t Hke Hn Hd Hk Hax) as (o & Eo & Vo); auto.
  - intros z p q Ip Iq. rewrite Hg by auto. rewrite rmin_opp. rewrite Ropp_involutive. reflexivity.
  - rewrite Eo. cbn [bind]. apply minus_full_sound_neg; auto.
Qed.

(** with dc_decomp, min_ loses h and g in its first step and fails *)
Lemma min_dc : forall ke sp S m s axis ft f ts,
  (0 < sp_n sp)%nat -> dom_ok (sp_dom sp) (sp_mode sp) -> sp_dc sp = true ->
  op_sp sp S m f ts -> op_min ke sp s axis ft ts = Err ValueError.
Proof.
  intros ke sp S m s axis ft f ts Hn Hd Hdc H. unfold op_min.
  destruct H as [Hl _]. destruct sp as [dc mode D n]. cbn [sp_dc sp_mode sp_dom sp_n no_dc] in *. subst dc.
  unfold minus, get_fullinputs, op_max.
  destruct mode; cbn [spec_nb Nat.add] in Hl; do 9 (try (destruct ts as [|? ts]; cbn [length] in Hl; try discriminate Hl)); reflexivity.
Qed.
