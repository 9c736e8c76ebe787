(** Statements and examples for the backward layers (C28-C34). *)
From Coq Require Import Reals List Arith Bool ZArith Lra Lia Psatz Permutation.
From Verif Require Import RLib Spec Spec_Layers Spec_Backward M_Core M_Utils M_MergeLayers M_Ops M_Layers M_Pool M_Backward M_Crown
  P_Core P_Merge P_Utils P_MergeLayers P_UtilsThm P_Axis P_Ops P_SShape P_OpsThm P_Layers P_Move P_Backward P_BackwardOps P_BackwardMore P_Crown.
Import ListNotations.
Local Open Scope R_scope.

Lemma ts_ibp_valid : forall a b D n m (S : vec -> Prop) f, (forall z j, S z -> (j < m)%nat -> a <= f z j <= b) ->
  valid D IBP false S n m f (ts_ibp a b).
Proof. intros a b D n m S f H. split; [reflexivity|]. exact H. Qed.

(** relu: an interval around 0 shorter than epsilon *)
Lemma brelu_wrong : forall ke sl, 0 < ke ->
  exists B z, backward_activation ke (mk_spec false IBP Box 1) ActRelu sl None 1 (ts_ibp (- (ke / 4)) (ke / 4)) = Ok B /\
    - (ke / 4) <= z <= ke / 4 /\ aff 1 (bb_wu B) (bb_bu B) (fun _ => z) 0%nat < Rrelu z.
Proof.
  intros ke sl Hke. unfold backward_activation, backward_relu. cbn [sp_dc].
  destruct (Req_EM_T 0 0) as [_|N]; [|congruence].
  destruct (full_ts_ibp Box 1 (- (ke / 4)) (ke / 4)) as (r & E & U & L). rewrite E. cbn [bind].
  eexists. exists (ke / 4). split; [reflexivity|]. split; [lra|].
  unfold hull_bb. cbn [bb_wu bb_bu]. rewrite aff_diag by lia. rewrite U, L. apply hull_relu_gap_unsound; auto; cbn; lra.
Qed.

(** C28 *)
Lemma ex_merge : exists B D : bb,
  relaxes (fun y => -1 <= y 0%nat <= 1) 1 1 (fun y j => Rrelu (y j)) B /\
  relaxes (fun y => 0 <= y 0%nat <= 1) 1 1 (fun y j => - y j) D /\
  (forall z, -1 <= z 0%nat <= 1 -> 0 <= Rrelu (z 0%nat) <= 1) /\
  ~ is_map 1 1 (fun y j => Rrelu (y j)) B.
Proof.
  exists (mk_bb (fun _ _ => 1/2) (fun _ => 1/2) (fun _ _ => 0) (fun _ => 0)), (mk_bb (fun _ _ => -1) (fun _ => 0) (fun _ _ => -1) (fun _ => 0)).
  split; [|split; [|split]].
  - intros y j Hy Hj. replace j with 0%nat by lia. unfold aff, dot. cbn. unfold Rrelu. rcases.
  - intros y j Hy Hj. replace j with 0%nat by lia. unfold aff, dot. cbn. lra.
  - intros z Hz. unfold Rrelu. rcases.
  - intros H. destruct (H (fun _ => 0) 0%nat ltac:(lia)) as [E _]. revert E. unfold aff, dot, Rrelu. cbn. rcases.
Qed.

(** C29 *)
Lemma ex_brelu : valid Box IBP false (fun z => -1 <= z 0%nat <= 1) 1 1 (fun z => z) (ts_ibp (-1) 1) /\
  boxes (gap_free (1/10)) (mk_spec false IBP Box 1) 1 (ts_ibp (-1) 1).
Proof.
  split.
  - apply ts_ibp_valid. intros z j Hz Hj. replace j with 0%nat by lia. auto.
  - intros r E j Hj. replace j with 0%nat by lia. destruct (full_ts_ibp Box 1 (-1) 1) as (r' & E' & U & L).
    rewrite E' in E. injection E; intros <-. rewrite U, L. right. right. lra.
Qed.

Lemma ex_bs : valid Box IBP false (fun z => 1 <= z 0%nat <= 2) 1 1 (fun z => z) (ts_ibp 1 2).
Proof. apply ts_ibp_valid. intros z j Hz Hj. replace j with 0%nat by lia. auto. Qed.

(** sigmoid, tanh and softsign are the layers obtained from the common hull *)
Lemma bact_s : forall ke sp sl ft S m f ts,
  0 < ke -> (0 < sp_n sp)%nat -> dom_ok (sp_dom sp) (sp_mode sp) -> sp_dc sp = false -> op_sp sp S m f ts ->
  (boxes (both_sides sigmoid sigmoid_prime ke) sp m ts ->
     exists B, backward_activation ke sp ActSigmoid sl ft m ts = Ok B /\ relaxes (image S f) m m (fun y j => sigmoid (y j)) B) /\
  (boxes (both_sides tanh tanh_prime ke) sp m ts ->
     exists B, backward_activation ke sp ActTanh sl ft m ts = Ok B /\ relaxes (image S f) m m (fun y j => tanh (y j)) B) /\
  (boxes (both_sides softsign softsign_prime ke) sp m ts ->
     exists B, backward_activation ke sp ActSoftsign sl ft m ts = Ok B /\ relaxes (image S f) m m (fun y j => softsign (y j)) B).
Proof.
  intros ke sp sl ft S m f ts Hke Hn Hd Hdc H. split; [|split]; intros HB; unfold backward_activation.
  - destruct (bs_sound _ _ sigmoid_s ke sp true S m f ts Hke Hn Hd Hdc H HB) as (hl & E & Q). rewrite E. eexists. split; [reflexivity|exact Q].
  - destruct (bs_sound _ _ tanh_s ke sp true S m f ts Hke Hn Hd Hdc H HB) as (hl & E & Q). rewrite E. eexists. split; [reflexivity|exact Q].
  - destruct (bs_sound _ _ softsign_s ke sp false S m f ts Hke Hn Hd Hdc H HB) as (hl & E & Q). rewrite E. eexists. split; [reflexivity|exact Q].
Qed.

Lemma bact_s_wrong : forall ke sl ft lo hi, 0 < ke -> ke <= - lo -> ke <= hi ->
  let wrong (F : R -> R) (B : bb) (z : R) :=
    aff 1 (bb_wu B) (bb_bu B) (fun _ => z) 0%nat < F z \/ F z < aff 1 (bb_wl B) (bb_bl B) (fun _ => z) 0%nat in
  let sp := mk_spec false IBP Box 1 in
  (exists B z, backward_activation ke sp ActSigmoid sl ft 1 (ts_ibp lo hi) = Ok B /\ lo <= z <= hi /\ wrong sigmoid B z) /\
  (exists B z, backward_activation ke sp ActTanh sl ft 1 (ts_ibp lo hi) = Ok B /\ lo <= z <= hi /\ wrong tanh B z) /\
  (exists B z, backward_activation ke sp ActSoftsign sl ft 1 (ts_ibp lo hi) = Ok B /\ lo <= z <= hi /\ wrong softsign B z).
Proof.
  intros ke sl ft lo hi Hke Hlo Hhi wrong sp. unfold backward_activation.
  destruct (bs_crossing _ _ sigmoid_s ke true lo hi Hke Hlo Hhi) as (h1 & z1 & E1 & Z1 & W1).
  destruct (bs_crossing _ _ tanh_s ke true lo hi Hke Hlo Hhi) as (h2 & z2 & E2 & Z2 & W2).
  destruct (bs_crossing _ _ softsign_s ke false lo hi Hke Hlo Hhi) as (h3 & z3 & E3 & Z3 & W3).
  unfold sp. rewrite E1, E2, E3. cbn [bind].
  split; [exists (hull_bb h1), z1; auto|split; [exists (hull_bb h2), z2; auto|exists (hull_bb h3), z3; auto]].
Qed.

(** C30 *)
Lemma ex_conv_square : let g := mk_geo true (mk_win 3 2 1 1 true) (mk_win 4 2 1 1 true) 2 3 in
  cg_last g = true /\ wn_k (cg_y g) = wn_k (cg_x g) /\ im_size (cg_in g) = 24%nat /\ im_size (cg_out g) = 36%nat.
Proof. cbv. auto. Qed.

(** C31 *)
Lemma ex_permute : Permutation [2; 1]%nat (seq 1 2) /\ permuted [1; 0]%nat [3; 3]%nat = [3; 3]%nat.
Proof. split; [apply perm_swap|reflexivity]. Qed.

(** C34 *)
Lemma crown_sound : forall sp (S : vec -> Prop) g0 its fmap g ops v (P : nat -> list tensor -> Prop) outs,
  (0 < sp_n sp)%nat -> norm_ok (sp_dom sp) -> sp_dc sp = false ->
  (sp_mode sp = IBP -> sp_dom sp = Box /\ forall z i, S z -> (i < sp_n sp)%nat -> g0 z i = z i) ->
  op_sp sp S (sp_n sp) g0 its ->
  well_formed (sp_n sp) g -> no_merge g -> models_last g ->
  map snd ops = map snd g -> network_value ops v ->
  (forall i L ps f, nth_error g i = Some (L, ps) -> nth_error ops i = Some (f, ps) -> bwd_sound sp (P i) L (fun y => f [y])) ->
  (forall i L ps ts, nth_error g i = Some (L, ps) -> fmap i = Some ts -> op_sp sp S (ly_out L) (fun z => v i (g0 z)) ts) ->
  (forall i L ps imap ts, nth_error g i = Some (L, ps) ->
     get_input_nodes (sp_mode sp) (sp_dom sp) (sp_n sp) its fmap g (firstn i g) [] = Ok imap ->
     node_inputs (sp_mode sp) (sp_dom sp) (sp_n sp) its fmap g imap ps = Ok ts -> P i ts) ->
  (forall o, In o outs -> (o < length g)%nat) ->
  exists res, crown_model (sp_mode sp) (sp_dom sp) (sp_n sp) g outs None fmap its = Ok res /\
    Forall2 (fun o ts => exists L ps, nth_error g o = Some (L, ps) /\ op_sp sp S (ly_out L) (fun z => v o (g0 z)) ts) outs res.
Proof.
  intros sp S g0 its fmap g ops v P outs Hn HD Hdc Hi Hits Hwf Hnm Hml Hops Hv Hlay Hf HP Ho.
  assert (Hnth : forall i L ps, nth_error g i = Some (L, ps) -> exists f, nth_error ops i = Some (f, ps)).
  { intros i L ps H. assert (Q : nth_error (map snd ops) i = Some ps) by (rewrite Hops, nth_error_map, H; reflexivity).
    rewrite nth_error_map in Q. destruct (nth_error ops i) as [[f ps']|] eqn:E; [|discriminate Q]. injection Q; intros <-. eauto. }
  apply (crown_model_sound sp S g0 its fmap g v (fun i => match nth_error ops i with Some (f, _) => fun y => f [y] | None => fun y => y end) P); auto.
  - intros y i L ps H. destruct (Hnth i L ps H) as (f & Ef). rewrite Ef. rewrite (Hv y i f ps Ef).
    pose proof (Hnm i L ps H) as Hl. destruct ps as [|p [|]]; [reflexivity|reflexivity|cbn in Hl; lia].
  - intros i L ps H. destruct (Hnth i L ps H) as (f & Ef). rewrite Ef. apply (Hlay i L ps f H Ef).
Qed.

Lemma crown_back_sound : forall sp (S : vec -> Prop) g0 its fmap g ops v (P : nat -> list tensor -> Prop) o L0 ps0 C k F,
  (0 < sp_n sp)%nat -> norm_ok (sp_dom sp) -> sp_dc sp = false ->
  (sp_mode sp = IBP -> sp_dom sp = Box /\ forall z i, S z -> (i < sp_n sp)%nat -> g0 z i = z i) ->
  op_sp sp S (sp_n sp) g0 its ->
  well_formed (sp_n sp) g -> no_merge g -> models_last g ->
  map snd ops = map snd g -> network_value ops v ->
  (forall i L ps f, nth_error g i = Some (L, ps) -> nth_error ops i = Some (f, ps) -> bwd_sound sp (P i) L (fun y => f [y])) ->
  (forall i L ps ts, nth_error g i = Some (L, ps) -> fmap i = Some ts -> op_sp sp S (ly_out L) (fun z => v i (g0 z)) ts) ->
  (forall i L ps imap ts, nth_error g i = Some (L, ps) ->
     get_input_nodes (sp_mode sp) (sp_dom sp) (sp_n sp) its fmap g (firstn i g) [] = Ok imap ->
     node_inputs (sp_mode sp) (sp_dom sp) (sp_n sp) its fmap g imap ps = Ok ts -> P i ts) ->
  nth_error g o = Some (L0, ps0) -> ly_model L0 = false ->
  relaxes (image S (fun z => v o (g0 z))) (ly_out L0) k F C ->
  exists t, crown_model (sp_mode sp) (sp_dom sp) (sp_n sp) g [o] (Some C) fmap its = Ok [t] /\ op_sp sp S k (fun z => F (v o (g0 z))) t.
Proof.
  intros sp S g0 its fmap g ops v P o L0 ps0 C k F Hn HD Hdc Hi Hits Hwf Hnm Hml Hops Hv Hlay Hf HP Ho Hm HC.
  assert (Hnth : forall i L ps, nth_error g i = Some (L, ps) -> exists f, nth_error ops i = Some (f, ps)).
  { intros i L ps H. assert (Q : nth_error (map snd ops) i = Some ps) by (rewrite Hops, nth_error_map, H; reflexivity).
    rewrite nth_error_map in Q. destruct (nth_error ops i) as [[f ps']|] eqn:E; [|discriminate Q]. injection Q; intros <-. eauto. }
  apply (crown_model_back_sound sp S g0 its fmap g v (fun i => match nth_error ops i with Some (f, _) => fun y => f [y] | None => fun y => y end) P) with (L := L0) (ps := ps0); auto.
  - intros y i L ps H. destruct (Hnth i L ps H) as (f & Ef). rewrite Ef. rewrite (Hv y i f ps Ef).
    pose proof (Hnm i L ps H) as Hl. destruct ps as [|p [|]]; [reflexivity|reflexivity|cbn in Hl; lia].
  - intros i L ps H. destruct (Hnth i L ps H) as (f & Ef). rewrite Ef. apply (Hlay i L ps f H Ef).
Qed.

(** the back bounds built from one matrix denote the product by this matrix *)
Lemma back_matrix : forall m k C, is_map m k (fun y j => dot m (fun i => C i j) y) (back_of_matrix C).
Proof. intros m k C y j Hj. unfold back_of_matrix, aff, zero_vec. cbn. split; ring. Qed.

Lemma crown_nested : forall sp m k sub ops out v P L0 ps0, (0 < sp_n sp)%nat -> dom_ok (sp_dom sp) (sp_mode sp) -> (0 < m)%nat ->
  well_formed m sub -> no_merge sub -> models_last sub ->
  map snd ops = map snd sub -> network_value ops v ->
  (forall i L ps f, nth_error sub i = Some (L, ps) -> nth_error ops i = Some (f, ps) ->
     bwd_sound (mk_spec false (sp_mode sp) Box m) (P i) L (fun y => f [y])) ->
  nth_error sub out = Some (L0, ps0) -> ly_out L0 = k ->
  bwd_sound sp (sub_cond sp m sub P) (nested sp m k sub out) (v out).
Proof.
  intros sp m k sub ops out v P L0 ps0 Hn Hd Hm Hwf Hnm Hml Hops Hv Hlay Ho Hk.
  assert (Hnth : forall i L ps, nth_error sub i = Some (L, ps) -> exists f, nth_error ops i = Some (f, ps)).
  { intros i L ps H. assert (Q : nth_error (map snd ops) i = Some ps) by (rewrite Hops, nth_error_map, H; reflexivity).
    rewrite nth_error_map in Q. destruct (nth_error ops i) as [[f ps']|] eqn:E; [|discriminate Q]. injection Q; intros <-. eauto. }
  apply (nested_sound sp m k sub out v (fun i => match nth_error ops i with Some (f, _) => fun y => f [y] | None => fun y => y end) P L0 ps0); auto.
  - intros y i L ps H. destruct (Hnth i L ps H) as (f & Ef). rewrite Ef. rewrite (Hv y i f ps Ef).
    pose proof (Hnm i L ps H) as Hl. destruct ps as [|p [|]]; [reflexivity|reflexivity|cbn in Hl; lia].
  - intros i L ps H. destruct (Hnth i L ps H) as (f & Ef). rewrite Ef. apply (Hlay i L ps f H Ef).
Qed.

(** input -> Dense (x 2) -> relu -> Dense (x 2), on [-1, 1] *)
Definition ex_sp : spec := mk_spec false IBP Box 1.
Definition ex_graph : graph :=
  [(input_layer 1, []); (dense_layer 1 1 1 two None, [0%nat]); (act_layer (1/10) ex_sp ActRelu V_SLOPE None 1, [1%nat]);
   (dense_layer 1 1 1 two None, [2%nat])].
Definition kd : vec -> vec := keras_dense 1 1 two (fun _ => 0).
Definition hd_vec (l : list vec) : vec := hd (fun _ => 0) l.
Definition ex_ops : list ((list vec -> vec) * list nat) :=
  [(hd_vec, []); (fun l => kd (hd_vec l), [0%nat]); (fun l j => Rrelu (hd_vec l j), [1%nat]); (fun l => kd (hd_vec l), [2%nat])].
Definition ex_v (i : nat) (y : vec) : vec :=
  match i with O => y | 1%nat => kd y | 2%nat => fun j => Rrelu (kd y j) | _ => kd (fun j => Rrelu (kd y j)) end.

Ltac four := match goal with H : nth_error _ ?i = Some _ |- _ =>
  destruct i as [|[|[|[|i]]]]; cbn in H; [..|destruct i; discriminate H] end.

Lemma ex_crown : exists u l, crown_model IBP Box 1 ex_graph [3%nat] None (fun _ => None) (ts_ibp (-1) 1) = Ok [[u; l]] /\
  forall z, -1 <= z 0%nat <= 1 -> l 0%nat 0%nat <= kd (fun j => Rrelu (kd z j)) 0%nat <= u 0%nat 0%nat.
Proof.
  set (S := fun z : vec => -1 <= z 0%nat <= 1).
  destruct (crown_sound ex_sp S (fun z => z) (ts_ibp (-1) 1) (fun _ => None) ex_graph ex_ops ex_v
    (fun i => match i with 2%nat => boxes (gap_free (1/10)) ex_sp 1 | _ => fun _ => True end) [3%nat]) as (res & E & F).
  - cbn. lia.
  - exact I.
  - reflexivity.
  - intros _. split; auto.
  - apply ts_ibp_valid. intros z j Hz Hj. cbn in Hj. replace j with 0%nat by lia. exact Hz.
  - intros i L ps H. four; injection H; intros <- <-;
    (split; [intros Q; try discriminate Q; reflexivity|split;
      [intros p Hp; cbn in Hp; lia|
       intros p L' ps' Q; try discriminate Q; injection Q; intros <-; cbn; intros R; injection R; intros <- <-; reflexivity]]).
  - intros i L ps H. four; injection H; intros <- <-; cbn; lia.
  - intros i L ps p L' ps' H Hp H'. destruct i as [|[|[|[|i]]]]; cbn in H; [..|destruct i; discriminate H]; injection H; intros <- <-; cbn in Hp; try destruct Hp as [<-|[]]; try destruct Hp;
    cbn in H'; injection H'; intros <- <-; reflexivity.
  - reflexivity.
  - intros y i f ps H. four; injection H; intros <- <-; reflexivity.
  - intros i L ps f H H'. four; cbn in H'; injection H; intros <- <-; injection H'; intros <-.
    + apply input_layer_sound.
    + apply dense_layer_sound. lia.
    + apply relu_layer_sound; cbn; auto; try lra.
    + apply dense_layer_sound. lia.
  - intros; discriminate.
  - intros i L ps imap ts H E1 E2. four; injection H; intros <- <-; auto.
    cbv -[Rmax Rmin Rplus Rmult Rminus Ropp IZR Rlt Rle Rdiv Rinv] in E1. injection E1; intros <-.
    cbv -[Rmax Rmin Rplus Rmult Rminus Ropp IZR Rlt Rle Rdiv Rinv] in E2. injection E2; intros <-.
    intros r Er j Hj. replace j with 0%nat by lia.
    cbv -[Rmax Rmin Rplus Rmult Rminus Ropp IZR Rlt Rle Rdiv Rinv] in Er. injection Er; intros <-.
    cbn [f_uc f_lc]. rminmax. right. right. lra.
  - intros o [<-|[]]. cbn. lia.
  - inversion F as [|o ts ? ? (L & ps & Hg & Vt) F']; subst. inversion F'; subst. cbn in Hg. injection Hg; intros <- <-.
    cbn [dense_layer n_layer ly_out] in Vt. destruct Vt as [Hl Vt]. cbn in Hl.
    destruct ts as [|u [|l [|]]]; try discriminate Hl. exists u, l. split; [exact E|].
    intros z Hz. cbn in Vt. apply (Vt z 0%nat Hz). lia.
Qed.

(** the network computes 2 at its only input 1, the returned bounds are [1, 1] *)
Lemma crown_nested_refuted : exists (L : layer) u l,
  bwd_sound ex_sp (fun _ => True) (input_layer 1) (fun y => y) /\
  bwd_sound ex_sp (fun _ => True) L (fun y => y) /\
  bwd_sound ex_sp (fun _ => True) (dense_layer 1 1 1 two None) kd /\
  valid Box IBP false (fun z => z 0%nat = 1) 1 1 (fun z => z) id_ibp /\
  crown_model IBP Box 1 [(input_layer 1, []); (L, [0%nat]); (dense_layer 1 1 1 two None, [1%nat])] [2%nat] None (fun _ => None) id_ibp = Ok [[u; l]] /\
  u 0%nat 0%nat = 1 /\ kd (fun _ => 1) 0%nat = 2.
Proof.
  destruct crown_nested_wrong as (u & l & E & U & _).
  exists (nested ex_sp 1 1 [(input_layer 1, [])] 0), u, l.
  split; [apply input_layer_sound|]. split.
  { intros S g ts Hts _.
    apply (crown_nested ex_sp 1 1 [(input_layer 1, [])] [(hd_vec, [])] 0 (fun _ y => y) (fun _ _ => True) (input_layer 1) []).
    - cbn; lia.
    - cbn. auto.
    - lia.
    - intros i L ps H. destruct i as [|i]; [|destruct i; discriminate H]. injection H; intros <- <-.
      split; [auto|split]; [intros p []|intros; discriminate].
    - intros i L ps H. destruct i as [|i]; [|destruct i; discriminate H]. injection H; intros <- <-. cbn; lia.
    - intros i L ps p L' ps' H Hp. destruct i as [|i]; [|destruct i; discriminate H]. injection H; intros <- <-. destruct Hp.
    - reflexivity.
    - intros y i f ps H. destruct i as [|i]; [|destruct i; discriminate H]. injection H; intros <- <-. reflexivity.
    - intros i L ps f H H'. destruct i as [|i]; [|destruct i; discriminate H]. injection H; intros <- <-. injection H'; intros <-.
      apply (input_layer_sound (mk_spec false IBP Box 1) 1).
    - reflexivity.
    - reflexivity.
    - exact Hts.
    - intros its i L ps imap t _ _ _ _. exact I. }
  split; [apply (dense_layer_sound ex_sp 1 1 1 two None); lia|]. split.
  { split; [reflexivity|]. intros z j Hz Hj. replace j with 0%nat by lia. rewrite Hz. cbn. lra. }
  split; [exact E|]. split; [exact U|]. unfold kd, keras_dense. cbn. unfold two. lra.
Qed.
