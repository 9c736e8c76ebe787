(** Backward layers: sort, max over an axis, merges of several inputs, refutations *)
From Coq Require Import Reals List Arith Bool ZArith Lra Lia Psatz Permutation.
From Verif Require Import RLib Spec Spec_Layers Spec_Backward M_Core M_Utils M_MergeLayers M_Ops M_Layers M_Pool M_Backward
  P_Core P_Merge P_Utils P_MergeLayers P_Axis P_Ops P_Sort P_Act P_SShape P_Layers P_Move P_Hull P_Backward P_BackwardOps.
Import ListNotations.
Local Open Scope R_scope.

(** ** backward_sort *)
Lemma sort_shape_1 : forall batch k, sort_w_shape batch 1 k = Ok [batch; 1%nat; k].
Proof.
  intros. unfold sort_w_shape, reshape_nn. rewrite !Nat.mul_1_r, Nat.mod_1_r, Nat.div_1_r. cbn [Nat.eqb bind app].
  unfold bc_shape. cbn [rev app bc_rev].
  destruct (Nat.eqb_spec k 1) as [->|Hk]; cbn [Nat.eqb]; rewrite ?Nat.eqb_refl;
  destruct (Nat.eqb_spec batch 1) as [->|Hb]; cbn [Nat.eqb]; rewrite ?Nat.eqb_refl; try reflexivity;
  repeat match goal with |- context [Nat.eqb 1 ?x] => destruct (Nat.eqb_spec 1 x); try congruence end; reflexivity.
Qed.

Lemma sort_shape : forall batch n k s, (0 < batch)%nat -> (1 < n)%nat -> sort_w_shape batch n k = Ok s ->
  batch = n /\ s = [1%nat; n; k].
Proof.
  intros batch n k s Hb Hn. unfold sort_w_shape, reshape_nn.
  destruct (Nat.eqb_spec ((batch * n) mod (n * n)) 0) as [E|]; [|discriminate].
  assert (D : (batch * n / (n * n) = batch / n)%nat) by (rewrite Nat.div_mul_cancel_r; lia).
  rewrite Nat.mul_mod_distr_r in E by lia. assert (E' : (batch mod n = 0)%nat) by nia.
  rewrite D. cbn [bind app]. unfold bc_shape. cbn [rev app bc_rev].
  destruct (Nat.eqb_spec batch n) as [->|Hbn].
  - rewrite Nat.div_same by lia. destruct (Nat.eqb_spec k 1) as [->|Hk]; cbn [Nat.eqb]; rewrite ?Nat.eqb_refl;
    (destruct (Nat.eqb_spec 1 k); [congruence|] || idtac); cbn; rewrite ?Nat.eqb_refl; cbn; intros Q; injection Q; intros <-; auto.
  - destruct (Nat.eqb_spec batch 1) as [->|H1]; [rewrite Nat.mod_small in E'; lia|].
    destruct (Nat.eqb_spec k 1) as [->|Hk]; cbn [Nat.eqb]; rewrite ?Nat.eqb_refl;
    (destruct (Nat.eqb_spec 1 k); [congruence|] || idtac);
    repeat match goal with |- context [Nat.eqb ?a ?b] => destruct (Nat.eqb_spec a b); try lia; try discriminate end; cbn; try discriminate.
Qed.

Lemma sort_shape_bad : forall batch n k, (0 < batch)%nat -> (1 < n)%nat -> sort_w_shape batch n k <> Ok [batch; n; k].
Proof. intros batch n k Hb Hn E. destruct (sort_shape _ _ _ _ Hb Hn E) as [-> Q]. injection Q. lia. Qed.

(** ** backward_max_ *)

(** a width condition for each pair of slices, in the order of the loop *)
Fixpoint pairs_gaps (ke : R) (sp : spec) (tmp : list tensor) (rest : list (list tensor)) : Prop :=
  match rest with
  | [] => True
  | o :: q => bmax_gaps ke sp 1 tmp o /\ forall t, maximum ke sp None tmp o = Ok t -> pairs_gaps ke sp t q
  end.

Inductive rchain (sp : spec) (S : vec -> Prop) : (vec -> vec) -> list (list tensor * list tensor) -> (vec -> vec) -> list (vec -> vec) -> Prop :=
| RNil : forall g, rchain sp S g [] g []
| RCons : forall g f t o l g0 fs, op_sp sp S 1 g t -> op_sp sp S 1 f o -> rchain sp S g l g0 fs ->
    rchain sp S (fun z j => Rmax (g z j) (f z j)) ((t, o) :: l) g0 (f :: fs).

Lemma rchain_snoc : forall sp S g l g' fs, rchain sp S g l g' fs ->
  forall g0 f0 t o, g' = (fun z j => Rmax (g0 z j) (f0 z j)) -> op_sp sp S 1 g0 t -> op_sp sp S 1 f0 o ->
  rchain sp S g (l ++ [(t, o)]) g0 (fs ++ [f0]).
Proof.
  intros sp S g l g' fs H. induction H; intros; subst; cbn [app].
  - constructor; auto. constructor.
  - constructor; auto.
Qed.

Definition gaps_of (ke : R) (sp : spec) (p : list tensor * list tensor) : Prop := bmax_gaps ke sp 1 (fst p) (snd p).

Lemma max_pairs_ok : forall ke sp S rest fs tmp g,
  0 < ke -> (0 < sp_n sp)%nat -> dom_ok (sp_dom sp) (sp_mode sp) ->
  op_sp sp S 1 g tmp -> Forall2 (op_sp sp S 1) fs rest -> pairs_gaps ke sp tmp rest ->
  exists pairs, max_pairs ke sp tmp rest = Ok pairs /\ length pairs = length rest /\ Forall (gaps_of ke sp) pairs /\
    rchain sp S (fun z j => fold_left Rmax (map (fun f : vec -> vec => f z j) fs) (g z j)) (rev pairs) g (rev fs).
Proof.
  intros ke sp S rest fs tmp g Hke Hn Hd Hg HF. revert tmp g Hg.
  induction HF as [|f o fs rest Hf HF IH]; intros tmp g Hg Hgap; cbn [max_pairs rev map fold_left length].
  - eexists. split; [reflexivity|]. repeat split; auto. constructor.
  - destruct Hgap as [G1 G2].
    destruct (maximum_sound ke sp None S 1 g f tmp o Hke Hn Hd I Hg Hf (proj2 G1)) as (t & Et & Vt).
    rewrite Et. cbn [bind]. destruct (IH t _ Vt (G2 t Et)) as (l & El & Ll & Gl & Cl). rewrite El. cbn [bind].
    eexists. split; [reflexivity|]. split; [cbn; auto|]. split; [constructor; auto|].
    cbn [rev]. eapply rchain_snoc; [exact Cl|reflexivity|auto|auto].
Qed.

Lemma operand_trans : forall (S : vec -> Prop) m k f g top out0 out B,
  operand_ok S m k g top out0 out -> operand_ok S m k f g out B -> operand_ok S m k f top out0 B.
Proof.
  intros S m k f g top out0 out B H1 H2 z j Hz Hj. specialize (H1 z j Hz Hj). specialize (H2 z j Hz Hj). lra.
Qed.

Lemma max_bounds_ok : forall ke sp S k g l g0 fs, rchain sp S g l g0 fs ->
  0 < ke -> (0 < sp_n sp)%nat -> dom_ok (sp_dom sp) (sp_mode sp) -> Forall (gaps_of ke sp) l ->
  forall top out0 out, operand_ok S 1 k g top out0 out ->
  exists L, max_bounds ke sp l out = Ok L /\ Forall2 (fun f B => operand_ok S 1 k f top out0 B) (fs ++ [g0]) L.
Proof.
  intros ke sp S k g l g0 fs H Hke Hn Hd. induction H as [g|g f t o l g0 fs Vt Vo H IH]; intros HG top out0 out HO; cbn [max_bounds].
  - eexists. split; [reflexivity|]. cbn. constructor; auto.
  - inversion HG as [|? ? G1 G2]; subst.
    destruct (bmax_sound ke sp S 1 k g f t o out Hke Hn Hd Vt Vo G1) as (B0 & B1 & E & P0 & P1).
    rewrite E. cbn [bind fst snd].
    destruct (IH G2 top out0 B0 (operand_trans _ _ _ _ _ _ _ _ _ HO P0)) as (L & EL & FL). rewrite EL. cbn [bind].
    eexists. split; [reflexivity|]. cbn [app]. constructor; auto. apply (operand_trans _ _ _ _ _ _ _ _ _ HO P1).
Qed.

Lemma rows_aff : forall (w : bb -> mat) (b : bb -> vec) d L y j,
  rsum (length L) (fun i => rows (map w L) i j * y i) + sum_v (map b L) j =
  rsum (length L) (fun i => w (nth i L d) 0%nat j * y i + b (nth i L d) j).
Proof.
  intros w b d L. induction L as [|B L IH]; intros y j; [cbn; lra|].
  cbn [length map]. change (Datatypes.S (length L)) with (1 + length L)%nat. rewrite !rsum_app. 
  cbn [sum_v fold_right]. cbn [rsum nth Nat.add]. specialize (IH (fun i => y (1 + i)%nat) j). cbn [Nat.add] in IH.
  unfold rows in *. cbn [nth]. unfold sum_v in *. lra.
Qed.

Lemma slice_1 : forall k c f z j, (c < k)%nat -> (j < 1)%nat -> slice_fun [] k [] c f z j = f z c.
Proof.
  intros k c f z j Hc Hj. unfold slice_fun. replace j with (ravel ([] ++ []) ([] ++ [])) by (cbn; lia).
  rewrite slice_at by (constructor). unfold vt. f_equal. cbn. lia.
Qed.

(** what backward_max_ bounds: k times what it should *)
Lemma bmaxred_sum : forall ke sp S m k f ts out,
  0 < ke -> (0 < sp_n sp)%nat -> sp_dc sp = false -> sp_dom sp = Box -> (1 < m)%nat ->
  op_sp sp S m f ts ->
  (forall r, get_fullinputs sp false false ts = Ok r ->
     let sl i := extract (sp_mode sp) false (slice_full [m] 0 0 i r) in
     pairs_gaps ke sp (sl 0%nat) (map sl (seq 1 (m - 1)))) ->
  exists B, backward_max_ ke sp m ts out = Ok B /\
    forall z j, S z -> (j < k)%nat ->
      aff m (bb_wl B) (bb_bl B) (f z) j <= INR m * aff 1 (bb_wl out) (bb_bl out) (fun _ => rmax m (f z)) j /\
      INR m * aff 1 (bb_wu out) (bb_bu out) (fun _ => rmax m (f z)) j <= aff m (bb_wu B) (bb_bu B) (f z) j.
Proof.
  intros ke sp S m k f ts out Hke Hn Hdc HD Hm H Hg.
  assert (Hd : dom_ok (sp_dom sp) (sp_mode sp)) by (rewrite HD; destruct (sp_mode sp); cbn; auto; intros; exact I).
  assert (Esp : mk_spec (sp_dc sp) (sp_mode sp) Box (sp_n sp) = sp) by (destruct sp; cbn in *; subst; auto).
  destruct (get_full_sound sp false false S m f ts Hn Hd H) as (r & E & C & A). rewrite orb_false_r in C.
  unfold backward_max_. assert (Hif : forall (A : Type) (a b : A), (if sp_dc sp then a else b) = b) by (intros; rewrite Hdc; auto). rewrite Hif.
  rewrite E. cbn [bind]. cbv zeta. rewrite Esp. specialize (Hg r E). cbv zeta in Hg.
  set (sl := fun i => extract (sp_mode sp) false (slice_full [m] 0 0 i r)) in *.
  set (fi := fun i => slice_fun [] m [] i f).
  assert (Vs : forall c, (c < m)%nat -> op_sp sp S 1 (fi c) (sl c)).
  { intros c Hc. unfold op_sp. rewrite Hdc. apply vfull_valid.
    assert (V : vfull (sp_dom sp) (get_ibp (sp_mode sp)) (get_affine (sp_mode sp)) S (sp_n sp) (prodn ([] ++ m :: [])) f r).
    { cbn [app prodn]. rewrite Nat.mul_1_r. split; auto. }
    apply (slice_full_sound sp S [] m [] c f r _ _ Hc V). }
  assert (VF : Forall2 (op_sp sp S 1) (map fi (seq 1 (m - 1))) (map sl (seq 1 (m - 1)))).
  { assert (Q : forall l, (forall i, In i l -> (i < m)%nat) -> Forall2 (op_sp sp S 1) (map fi l) (map sl l)).
    { induction l; intros Hl; cbn; constructor; [apply Vs, Hl; left; auto|apply IHl; intros; apply Hl; right; auto]. }
    apply Q. intros i Hi. apply in_seq in Hi. lia. }
  destruct (max_pairs_ok ke sp S _ _ (sl 0%nat) (fi 0%nat) Hke Hn Hd (Vs 0%nat ltac:(lia)) VF Hg) as (pairs & Ep & Lp & Gp & Cp).
  change (extract (sp_mode sp) false (slice_full [m] 0 0 0 r)) with (sl 0%nat). rewrite Ep. cbn [bind].
  set (top := fun z j => fold_left Rmax (map (fun h : vec -> vec => h z j) (map fi (seq 1 (m - 1)))) (fi 0%nat z j)) in *.
  assert (O0 : operand_ok S 1 k top top out out) by (intros z j _ _; lra).
  destruct (max_bounds_ok ke sp S k _ _ _ _ Cp Hke Hn Hd (Forall_rev Gp) top out out O0) as (L & EL & FL).
  rewrite EL. cbn [bind].
  rewrite map_length, seq_length in Lp. destruct pairs as [|p pairs]; [cbn in Lp; lia|].
  eexists. split; [reflexivity|]. intros z j Hz Hj. cbn [bb_wu bb_bu bb_wl bb_bl].
  assert (FR : Forall2 (fun f B => operand_ok S 1 k f top out B) (map fi (seq 0 m)) (rev L)).
  { replace (map fi (seq 0 m)) with (rev (rev (map fi (seq 1 (m - 1))) ++ [fi 0%nat])).
    - clear - FL. revert FL. generalize (rev (map fi (seq 1 (m - 1))) ++ [fi 0%nat]). intros l FL.
      induction FL; cbn; auto. apply Forall2_app; auto.
    - rewrite rev_app_distr, rev_involutive. destruct m; [lia|]. cbn. rewrite Nat.sub_0_r. auto. }
  assert (LL : length (rev L) = m).
  { rewrite <- (Forall2_length' _ _ _ _ _ FR), map_length, seq_length. auto. }
  assert (Tp : forall q, (q < 1)%nat -> top z q = rmax m (f z)).
  { intros q Hq. unfold top. rewrite map_map. rewrite <- (max_list_rmax m (f z)) by lia. unfold max_list, fi. rewrite slice_1 by lia.
    f_equal. apply map_ext_in. intros i Hi. apply in_seq in Hi. apply slice_1; lia. }
  assert (P : forall i, (i < m)%nat -> operand_ok S 1 k (fi i) top out (nth i (rev L) out)).
  { intros i Hi. 
    assert (Q : nth_error (rev L) i = Some (nth i (rev L) out)) by (apply nth_error_nth'; lia).
    pose proof (Forall2_nth_error _ _ _ _ _ FR i _ (fi 0%nat) Q) as W. rewrite map_nth, seq_nth in W by lia. exact W. }
  assert (T1 : forall w b, aff 1 w b (top z) j = aff 1 w b (fun _ => rmax m (f z)) j).
  { intros. unfold aff. f_equal. apply dot_ext; auto. }
  assert (F1 : forall i w b, (i < m)%nat -> aff 1 w b (fi i z) j = w 0%nat j * f z i + b j).
  { intros i w b Hi. unfold aff, dot. cbn [rsum]. unfold fi. rewrite slice_1 by lia. ring. }
  assert (RA : forall w b, aff m (rows (map w (rev L))) (sum_v (map b (rev L))) (f z) j =
    rsum m (fun i => w (nth i (rev L) out) 0%nat j * f z i + b (nth i (rev L) out) j)).
  { intros w b. pose proof (rows_aff w b out (rev L) (f z) j) as Q. rewrite LL in Q. exact Q. }
  rewrite !RA.
  assert (K : forall c, INR m * c = rsum m (fun _ => c)) by (intros; rewrite rsum_const; auto).
  rewrite !K. split; apply rsum_le; intros i Hi; specialize (P i Hi z j Hz Hj); rewrite !T1, !F1 in P by auto; lra.
Qed.

Ltac rminmax := repeat (match goal with
  | |- context [Rmax ?a ?b] => first [rewrite (Rmax_left a b) by lra | rewrite (Rmax_right a b) by lra]
  | |- context [Rmin ?a ?b] => first [rewrite (Rmin_left a b) by lra | rewrite (Rmin_right a b) by lra] end).

Lemma bmaxred_wrong : forall ke, exists B,
  backward_max_ ke (mk_spec false IBP Box 1) 2 (ts_ibp (-1) (-1)) identity_lirpa = Ok B /\
  aff 2 (bb_wu B) (bb_bu B) (fun _ => -1) 0%nat = -2 /\ rmax 2 (fun _ => -1) = -1.
Proof.
  intros ke. eexists. split; [reflexivity|]. split.
  - cbv -[Rmax Rmin Rplus Rmult Rminus Ropp IZR Rlt Rle Rdiv Rinv]. rminmax. lra.
  - cbn. rminmax. lra.
Qed.

Lemma bmaxred_one : forall ke sp S f ts out, (0 < sp_n sp)%nat -> dom_ok (sp_dom sp) (sp_mode sp) -> sp_dc sp = false ->
  op_sp sp S 1 f ts -> backward_max_ ke sp 1 ts out = Err ValueError.
Proof.
  intros ke sp S f ts out Hn Hd Hdc H. destruct (get_full_sound sp false false S 1 f ts Hn Hd H) as (r & E & _).
  unfold backward_max_. rewrite Hdc, E. reflexivity.
Qed.

(** ** layers with several inputs *)
Lemma split_two : forall sp S m0 m1 f0 f1 in0 in1, op_sp sp S m0 f0 in0 -> op_sp sp S m1 f1 in1 -> split_in sp (in0 ++ in1) = [in0; in1].
Proof.
  intros sp S m0 m1 f0 f1 in0 in1 V0 V1. unfold split_in.
  replace (in0 ++ in1) with (concat [in0; in1]) by (cbn; rewrite app_nil_r; auto).
  rewrite nb_tensors_spec. apply split_to_merge_concat.
  - destruct (sp_mode sp), (sp_dc sp); cbn; lia.
  - intros l [<-|[<-|[]]]; [apply V0 | apply V1].
Qed.

Lemma identity_aff : forall m y j, (j < m)%nat -> aff m id_mat zero_vec y j = y j.
Proof. intros m y j Hj. apply (identity_map m y j Hj). Qed.

(** downstream identity: the bounds enclose the merged value *)
Lemma operand_id : forall S m fi merged B, operand_ok S m m fi merged identity_lirpa B <->
  forall z j, S z -> (j < m)%nat -> aff m (bb_wl B) (bb_bl B) (fi z) j <= merged z j <= aff m (bb_wu B) (bb_bu B) (fi z) j.
Proof.
  intros S m fi merged B. split; intros H z j Hz Hj; specialize (H z j Hz Hj); cbn [identity_lirpa bb_wu bb_bu bb_wl bb_bl] in *;
  rewrite ?identity_aff in * by auto; auto.
Qed.

Lemma badd_layer_sound : forall sp S m f0 f1 in0 in1,
  (0 < sp_n sp)%nat -> dom_ok (sp_dom sp) (sp_mode sp) -> op_sp sp S m f0 in0 -> op_sp sp S m f1 in1 ->
  exists B0 B1, backward_add_layer sp m (in0 ++ in1) = Ok [B0; B1] /\
    forall z j, S z -> (j < m)%nat ->
      aff m (bb_wl B0) (bb_bl B0) (f0 z) j <= f0 z j + f1 z j <= aff m (bb_wu B0) (bb_bu B0) (f0 z) j /\
      aff m (bb_wl B1) (bb_bl B1) (f1 z) j <= f0 z j + f1 z j <= aff m (bb_wu B1) (bb_bu B1) (f1 z) j.
Proof.
  intros sp S m f0 f1 in0 in1 Hn Hd V0 V1. unfold backward_add_layer. rewrite (split_two _ _ _ _ _ _ _ _ V0 V1).
  destruct (badd_sound sp S m m f0 f1 in0 in1 identity_lirpa Hn Hd V0 V1) as (B0 & B1 & E & P0 & P1 & _). rewrite E.
  exists B0, B1. split; [reflexivity|]. rewrite operand_id in P0, P1. auto.
Qed.

Lemma bsub_layer_sound : forall sp S m f0 f1 in0 in1,
  (0 < sp_n sp)%nat -> dom_ok (sp_dom sp) (sp_mode sp) -> op_sp sp S m f0 in0 -> op_sp sp S m f1 in1 ->
  exists B0 B1, backward_subtract_layer sp m (in0 ++ in1) = Ok [B0; B1] /\
    forall z j, S z -> (j < m)%nat ->
      aff m (bb_wl B0) (bb_bl B0) (f0 z) j <= f0 z j - f1 z j <= aff m (bb_wu B0) (bb_bu B0) (f0 z) j /\
      aff m (bb_wl B1) (bb_bl B1) (f1 z) j <= f0 z j - f1 z j <= aff m (bb_wu B1) (bb_bu B1) (f1 z) j.
Proof.
  intros sp S m f0 f1 in0 in1 Hn Hd V0 V1. unfold backward_subtract_layer, backward_merge2. rewrite (split_two _ _ _ _ _ _ _ _ V0 V1).
  destruct (bsub_sound sp S m m f0 f1 in0 in1 identity_lirpa Hn Hd V0 V1) as (B0 & B1 & E & P0 & P1). rewrite E.
  exists B0, B1. split; [reflexivity|]. rewrite operand_id in P0, P1. auto.
Qed.

Lemma bmax_layer_sound : forall ke sp S m f0 f1 in0 in1, 0 < ke ->
  (0 < sp_n sp)%nat -> dom_ok (sp_dom sp) (sp_mode sp) -> op_sp sp S m f0 in0 -> op_sp sp S m f1 in1 ->
  bmax_gaps ke sp m in0 in1 ->
  exists B0 B1, backward_maximum_layer ke sp m (in0 ++ in1) = Ok [B0; B1] /\
    forall z j, S z -> (j < m)%nat ->
      aff m (bb_wl B0) (bb_bl B0) (f0 z) j <= Rmax (f0 z j) (f1 z j) <= aff m (bb_wu B0) (bb_bu B0) (f0 z) j /\
      aff m (bb_wl B1) (bb_bl B1) (f1 z) j <= Rmax (f0 z j) (f1 z j) <= aff m (bb_wu B1) (bb_bu B1) (f1 z) j.
Proof.
  intros ke sp S m f0 f1 in0 in1 Hke Hn Hd V0 V1 G. unfold backward_maximum_layer, backward_merge2. rewrite (split_two _ _ _ _ _ _ _ _ V0 V1).
  destruct (bmax_sound ke sp S m m f0 f1 in0 in1 identity_lirpa Hke Hn Hd V0 V1 G) as (B0 & B1 & E & P0 & P1). rewrite E.
  exists B0, B1. split; [reflexivity|]. rewrite operand_id in P0, P1. auto.
Qed.

(** the minimum layer returns the bounds of the maximum *)
Lemma bmin_layer_max : forall ke sp S m f0 f1 in0 in1, 0 < ke ->
  (0 < sp_n sp)%nat -> dom_ok (sp_dom sp) (sp_mode sp) -> op_sp sp S m f0 in0 -> op_sp sp S m f1 in1 ->
  bmax_gaps ke sp m in0 in1 ->
  exists B0 B1, backward_minimum_layer ke sp m (in0 ++ in1) = Ok [B0; B1] /\
    forall z j, S z -> (j < m)%nat ->
      aff m (bb_wl B0) (bb_bl B0) (f0 z) j <= Rmax (f0 z j) (f1 z j) <= aff m (bb_wu B0) (bb_bu B0) (f0 z) j /\
      aff m (bb_wl B1) (bb_bl B1) (f1 z) j <= Rmax (f0 z j) (f1 z j) <= aff m (bb_wu B1) (bb_bu B1) (f1 z) j.
Proof.
  intros ke sp S m f0 f1 in0 in1 Hke Hn Hd V0 V1 G. unfold backward_minimum_layer, backward_merge2. rewrite (split_two _ _ _ _ _ _ _ _ V0 V1).
  destruct (bmin_is_max ke sp S m m f0 f1 in0 in1 identity_lirpa Hke Hn Hd V0 V1 G) as (B0 & B1 & E & P0 & P1). rewrite E.
  exists B0, B1. split; [reflexivity|]. rewrite operand_id in P0, P1. auto.
Qed.

Lemma merge2_arity : forall op sp ts, (forall a b, split_in sp ts <> [a; b]) -> backward_merge2 op sp ts = Err NotImplementedError.
Proof. intros op sp ts H. unfold backward_merge2. destruct (split_in sp ts) as [|a [|b [|c l]]]; auto. destruct (H a b eq_refl). Qed.
Lemma add_arity : forall sp m ts, (forall a, split_in sp ts <> [a]) -> (forall a b, split_in sp ts <> [a; b]) ->
  backward_add_layer sp m ts = Err NotImplementedError.
Proof. intros sp m ts H1 H2. unfold backward_add_layer. destruct (split_in sp ts) as [|a [|b [|c l]]]; auto; [destruct (H1 a eq_refl)|destruct (H2 a b eq_refl)]. Qed.

(** *** average *)
Lemma badd_fst : forall sp S m k f0 f1 in0 in1 out B0 B1,
  (0 < sp_n sp)%nat -> dom_ok (sp_dom sp) (sp_mode sp) -> op_sp sp S m f0 in0 -> op_sp sp S m f1 in1 ->
  backward_add sp m in0 in1 out = Ok (B0, B1) ->
  forall h, operand_ok S m k h (fun z j => h z j + f1 z j) out B0.
Proof.
  intros sp S m k f0 f1 in0 in1 out B0 B1 Hn Hd H0 H1 E h.
  destruct (badd_sound sp S m k f0 f1 in0 in1 out Hn Hd H0 H1) as (C0 & C1 & E' & P0 & _ & (W1 & W2 & _)).
  rewrite E in E'. injection E'; intros <- <-. clear E' E.
  intros z j Hz Hj. specialize (P0 z j Hz Hj). rewrite !aff_add in *. rewrite !(aff_dot m _ _ (h z)), !(aff_dot m _ _ (f0 z)) in *.
  rewrite W1, W2 in *. rewrite !aff_add in P0. lra.
Qed.

Definition psum (fs : list (vec -> vec)) (j : nat) : vec -> vec := fun z i => rsum (Datatypes.S j) (fun k => nth k fs f_dflt z i).

Lemma Forall2_firstn : forall A B (P : A -> B -> Prop) k la lb, Forall2 P la lb -> Forall2 P (firstn k la) (firstn k lb).
Proof. intros A B P k. induction k; intros la lb H; cbn; auto. destruct H; constructor; auto. Qed.

Lemma average_loop_ok : forall sp S m total fs ls, (0 < sp_n sp)%nat -> dom_ok (sp_dom sp) (sp_mode sp) -> sp_dc sp = false ->
  Forall2 (op_sp sp S m) fs ls ->
  forall j out acc, (0 < j)%nat -> (j < length ls)%nat -> operand_ok S m m (psum fs j) total identity_lirpa out ->
  exists B0 B1 q, average_loop sp m ls j out acc = Ok (B0 :: B1 :: q) /\ length (B0 :: B1 :: q) = (Datatypes.S j + length acc)%nat /\
    operand_ok S m m (nth 0 fs f_dflt) total identity_lirpa B0 /\ operand_ok S m m (nth 1 fs f_dflt) total identity_lirpa B1.
Proof.
  intros sp S m total fs ls Hn Hd Hdc HF. pose proof (Forall2_length' _ _ _ _ _ HF) as HL.
  assert (Esp : no_dc sp = sp) by (unfold no_dc; destruct sp; cbn in *; subst; auto).
  assert (V : forall i, (i < length ls)%nat -> op_sp sp S m (nth i fs f_dflt) (nth i ls [])).
  { intros i Hi. apply (Forall2_nth_error _ _ _ _ _ HF i _ f_dflt). apply nth_error_nth'. auto. }
  induction j as [|j IH]; intros out acc Hj Hlt HO; [lia|]. cbn [average_loop]. rewrite Esp.
  destruct (Nat.eq_dec j 0) as [->|Hj0].
  - cbn [Nat.eqb bind].
    destruct (badd_sound sp S m m _ _ _ _ out Hn Hd (V 0%nat ltac:(lia)) (V 1%nat ltac:(lia))) as (B0 & B1 & E & P0 & P1 & _).
    rewrite E. cbn [bind fst snd average_loop]. exists B0, B1, acc. split; [reflexivity|]. split; [cbn; lia|].
    assert (T : operand_ok S m m (fun z j => nth 0 fs f_dflt z j + nth 1 fs f_dflt z j) total identity_lirpa out).
    { intros z j Hz Hj'. specialize (HO z j Hz Hj'). 
      assert (G : forall w b, aff m w b (psum fs 1 z) j = aff m w b (fun i => nth 0 fs f_dflt z i + nth 1 fs f_dflt z i) j).
      { intros. unfold aff. f_equal. apply dot_ext; auto. intros. unfold psum. cbn. ring. }
      rewrite !G in HO. exact HO. }
    split; eapply operand_trans; eauto.
  - replace (Nat.eqb (Datatypes.S j) 1) with false by (symmetry; apply Nat.eqb_neq; lia).
    destruct (decomon_add_sound sp S m (firstn (Datatypes.S j - 1) fs) (firstn (Datatypes.S j - 1) ls) Hn Hd Hdc (Forall2_firstn _ _ _ _ _ _ HF)) as (o & Eo & Vo).
    { intros Q. assert (length (firstn (Datatypes.S j - 1) ls) = 0%nat) by (rewrite Q; auto). rewrite firstn_length in H. lia. }
    rewrite Eo. cbn [bind].
    destruct (badd_sound sp S m m _ _ _ _ out Hn Hd Vo (V (Datatypes.S j) ltac:(lia))) as (B0 & B1 & E & _ & _ & _).
    rewrite E. cbn [bind fst snd].
    pose proof (badd_fst sp S m m _ _ _ _ out B0 B1 Hn Hd Vo (V (Datatypes.S j) ltac:(lia)) E (psum fs j)) as P0.
    destruct (IH B0 (B1 :: acc) ltac:(lia) ltac:(lia)) as (C0 & C1 & q & EQ & LQ & R0 & R1).
    + eapply operand_trans; [exact HO|]. exact P0.
    + exists C0, C1, q. split; [exact EQ|]. split; [rewrite LQ; cbn; lia|]. auto.
Qed.

Lemma aff_bb_scale : forall m c w b y j, aff m (mscal c w) (vscal c b) y j = c * aff m w b y j.
Proof. intros. unfold aff, mscal, vscal, dot. rewrite Rmult_plus_distr_l. rewrite <- rsum_scal. f_equal. apply rsum_ext. intros; ring. Qed.

(** the bounds of the first two inputs are right, for any number of inputs *)
Lemma baverage_two : forall sp S m fs ls, (0 < sp_n sp)%nat -> dom_ok (sp_dom sp) (sp_mode sp) -> sp_dc sp = false ->
  Forall2 (op_sp sp S m) fs ls -> (1 < length ls)%nat ->
  exists B0 B1 q, backward_average_layer sp m (concat ls) = Ok (B0 :: B1 :: q) /\ length (B0 :: B1 :: q) = length ls /\
    forall z j, S z -> (j < m)%nat ->
      aff m (bb_wl B0) (bb_bl B0) (nth 0 fs f_dflt z) j <= sum_list (vals fs z j) / INR (length fs) <= aff m (bb_wu B0) (bb_bu B0) (nth 0 fs f_dflt z) j /\
      aff m (bb_wl B1) (bb_bl B1) (nth 1 fs f_dflt z) j <= sum_list (vals fs z j) / INR (length fs) <= aff m (bb_wu B1) (bb_bu B1) (nth 1 fs f_dflt z) j.
Proof.
  intros sp S m fs ls Hn Hd Hdc HF Hl. pose proof (Forall2_length' _ _ _ _ _ HF) as HL.
  set (total := fun z j => sum_list (vals fs z j)).
  assert (HO : operand_ok S m m (psum fs (length ls - 1)) total identity_lirpa identity_lirpa).
  { apply operand_id. intros z j Hz Hj. cbn [identity_lirpa bb_wu bb_bu bb_wl bb_bl]. rewrite identity_aff by auto.
    unfold psum, total. rewrite sum_vals, HL. replace (Datatypes.S (length ls - 1)) with (length ls) by lia. lra. }
  destruct (average_loop_ok sp S m total fs ls Hn Hd Hdc HF (length ls - 1) identity_lirpa [] ltac:(lia) ltac:(lia) HO) as (B0 & B1 & q & E & L & P0 & P1).
  unfold backward_average_layer, split_in. rewrite (split_valid _ _ _ _ _ HF). cbv zeta.
  destruct ls as [|l0 [|l1 ls]]; try (cbn in Hl; lia). rewrite E. cbn [bind map].
  set (c := 1 / INR (length (l0 :: l1 :: ls))).
  exists (bb_scale c B0), (bb_scale c B1), (map (bb_scale c) q). split; [reflexivity|]. split.
  { cbn [length] in *. rewrite map_length. lia. }
  rewrite operand_id in P0, P1. intros z j Hz Hj. specialize (P0 z j Hz Hj). specialize (P1 z j Hz Hj).
  cbn [bb_scale bb_wu bb_bu bb_wl bb_bl]. rewrite !aff_bb_scale. rewrite HL.
  assert (0 < INR (length (l0 :: l1 :: ls))) by (apply lt_0_INR; cbn; lia).
  assert (Hc : 0 <= c) by (unfold c, Rdiv; rewrite Rmult_1_l; left; apply Rinv_0_lt_compat; auto).
  assert (Ec : sum_list (vals fs z j) / INR (length (l0 :: l1 :: ls)) = c * total z j) by (unfold c, total; field; lra).
  rewrite Ec. repeat split; apply Rmult_le_compat_l; lra.
Qed.

Lemma baverage_wrong : exists B0 B1 B2,
  backward_average_layer (mk_spec false IBP Box 1) 1 (ts_ibp 1 1 ++ ts_ibp 1 1 ++ ts_ibp 1 1) = Ok [B0; B1; B2] /\
  aff 1 (bb_wu B2) (bb_bu B2) (fun _ => 1) 0%nat < (1 + 1 + 1) / 3.
Proof.
  do 3 eexists. split; [reflexivity|].
  cbv -[Rmax Rmin Rplus Rmult Rminus Ropp IZR Rlt Rle Rdiv Rinv]. rminmax.
  replace (1 / (1 + 1 + 1)) with (/ 3) by field. lra.
Qed.

(** *** concatenate *)
Lemma split_sizes_le : forall len cuts from c, In c (split_sizes len cuts from) -> (c <= len)%nat.
Proof. intros len cuts. induction cuts; intros from c [<-|H]; try lia; [destruct H|eapply IHcuts; eauto]. Qed.

(** the layer never returns weights of the size of the concatenated block *)
Lemma bconcat_shape : forall ns s, (1 < length ns)%nat -> Forall (fun k => (0 < k)%nat) ns ->
  In s (backward_concat_shapes ns) -> forall n, s <> [n; fold_right Nat.add 0%nat ns].
Proof.
  intros ns s Hl HP Hs n E. unfold backward_concat_shapes in Hs. apply in_map_iff in Hs. destruct Hs as (c & E' & Hc).
  apply split_sizes_le in Hc. rewrite E in E'. injection E'; intros Ec _. subst c.
  assert (Q : ns <> []) by (intros ->; cbn in Hl; lia).
  rewrite (app_removelast_last O Q) in Hc at 1. rewrite fold_right_app in Hc.
  assert (HR : (0 < length (removelast ns))%nat).
  { assert (length ns = length (removelast ns) + 1)%nat by (rewrite (app_removelast_last O Q) at 1; rewrite app_length; auto). lia. }
  assert (HP' : Forall (fun k => (0 < k)%nat) (removelast ns)).
  { rewrite (app_removelast_last O Q) in HP. apply Forall_app in HP. apply HP. }
  destruct (removelast ns) as [|a l]; [cbn in HR; lia|]. inversion HP'; subst. cbn [fold_right] in Hc.
  assert (G : forall l x, (x <= fold_right Nat.add x l)%nat) by (induction l0; intros; cbn; [lia|specialize (IHl0 x); lia]).
  specialize (G l (last ns 0 + 0)%nat). lia.
Qed.

(** ** refutations for the linear layers *)
Definition e_vec (i : nat) : vec := fun j => if Nat.eqb i j then 1 else 0.

Lemma permute_wrong : forall f, is_permute [2%nat; 3%nat] [1%nat; 0%nat] f ->
  aff 6 (bb_wu (backward_permute [2%nat; 3%nat] [2%nat; 1%nat])) (bb_bu (backward_permute [2%nat; 3%nat] [2%nat; 1%nat])) (e_vec 1) 2%nat < f (e_vec 1) 2%nat.
Proof.
  intros f Hf. specialize (Hf (e_vec 1) [0%nat; 1%nat] ltac:(repeat constructor)). cbn in Hf. rewrite Hf.
  cbv -[Rmax Rmin Rplus Rmult Rminus Ropp IZR Rlt Rle Rdiv Rinv]. lra.
Qed.

Lemma flatten_cf_wrong : forall f, is_flatten_cf 2 3 f ->
  aff 6 (bb_wu backward_identity) (bb_bu backward_identity) (e_vec 3) 1%nat < f (e_vec 3) 1%nat.
Proof.
  intros f Hf. specialize (Hf (e_vec 3) 1%nat 0%nat ltac:(lia) ltac:(lia)). cbn in Hf. rewrite Hf.
  cbv -[Rmax Rmin Rplus Rmult Rminus Ropp IZR Rlt Rle Rdiv Rinv]. lra.
Qed.

Definition cf_geo : conv_geo := mk_geo false (mk_win 1 1 1 1 false) (mk_win 2 1 1 1 false) 2 1.
Definition cf_kernel : kernel4 := fun _ _ ci _ => INR ci.
Lemma conv_first_wrong : exists B, backward_conv2d cf_geo cf_kernel None = Ok B /\
  aff 4 (bb_wu B) (bb_bu B) (e_vec 2) 0%nat < keras_conv2d cf_geo cf_kernel (fun _ => 0) (e_vec 2) 0%nat.
Proof.
  eexists. split; [reflexivity|]. cbv -[Rmax Rmin Rplus Rmult Rminus Ropp IZR Rlt Rle Rdiv Rinv]. lra.
Qed.

Lemma conv_first_stride : forall g kernel bias, cg_last g = false ->
  (wn_out (win1 (cg_y g)) * wn_out (win1 (cg_x g)) <> wn_out (cg_y g) * wn_out (cg_x g))%nat ->
  backward_conv2d g kernel bias = Err ValueError.
Proof.
  intros g kernel bias Hl H. unfold backward_conv2d, get_toeplitz. rewrite Hl.
  destruct (Nat.eqb _ (wn_k (cg_y g) * wn_k (cg_y g))); [|reflexivity]. cbn [negb].
  destruct (Nat.eqb_spec (wn_out (win1 (cg_y g)) * wn_out (win1 (cg_x g))) (wn_out (cg_y g) * wn_out (cg_x g))); [contradiction|reflexivity].
Qed.

(** ** activations: errors *)
Lemma bact_dc : forall ke sp a sl ft m ts, sp_dc sp = true -> a <> ActLinear -> a <> ActSoftsign ->
  backward_activation ke sp a sl ft m ts = Err NotImplementedError.
Proof.
  intros ke sp a sl ft m ts H H1 H2. destruct a; try congruence; try reflexivity; unfold backward_activation, backward_softplus, backward_s, backward_relu;
  rewrite H; reflexivity.
Qed.
Lemma bact_unsupported : forall ke sp a sl ft m ts, In a [ActSoftmax; ActElu; ActSelu; ActExponential] ->
  backward_activation ke sp a sl ft m ts = Err NotImplementedError.
Proof. intros ke sp a sl ft m ts [<-|[<-|[<-|[<-|[]]]]]; reflexivity. Qed.
Lemma brelu_args : forall ke sp alpha mv th sl grid ft ts, alpha <> 0 \/ mv <> None \/ th <> 0 \/ sp_dc sp = true ->
  backward_relu ke sp alpha mv th sl grid ft ts = Err NotImplementedError.
Proof.
  intros ke sp alpha mv th sl grid ft ts H. unfold backward_relu. destruct (sp_dc sp); [reflexivity|].
  destruct (Req_EM_T th 0); [|reflexivity]. destruct (Req_EM_T alpha 0); [|reflexivity]. destruct mv; [reflexivity|].
  destruct H as [H|[H|[H|H]]]; congruence.
Qed.
