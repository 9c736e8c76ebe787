(** The backward pass on a batch: theorems on networks, blocks that it refuses. *)
From Coq Require Import Reals List Arith Bool ZArith Lia Lra Sorting.Permutation.
From Verif Require Import RLib Spec M_Core M_Utils M_MergeLayers M_Ops M_Layers Spec_Backward M_Backward M_Crown Spec_Convert M_Convert M_Network P_Core P_Merge P_Graph P_Convert P_Network P_NetworkForward P_NetworkCrown.
From Verif Require Import P_NetworkSpec Spec_Network Spec_Near P_Near P_NearCrown Spec_Batch M_Batch M_BatchCrown P_Batch P_BatchLayers P_BatchNet P_BatchBN P_BatchClone P_BatchCrown.
Import ListNotations.
Local Open Scope R_scope.

(** the forward conversion whose bounds are used by crown-forward-xxx, on one sample *)
Definition fwd_graph (ke : R) (D : domain) (mode : fmode) (n : nat) (fwd : bool) (net : tnetwork) (shape : nat -> list nat) : option (fgraph tensor) :=
  if fwd then Some (decomon_net ke (mk_spec false mode D n) (tnet_opts net) (tnet_network shape net)) else None.

Lemma batch_crown : forall ke D B b n mode final fwd bo net shape o z x,
  (b < B)%nat -> (0 < n)%nat -> norm_ok D -> (mode = IBP -> D = Box) -> (mode = IBP -> final = IBP) ->
  tnet_ok n net shape -> tnet_chain net -> tnet_blocks fwd (fun i => snd (bo i)) net shape -> single_output (tnet_network shape net) o -> sample_dom D B b n z x ->
  exists T ts, t_clone_backward ke D mode final fwd bo net [o] z = Ok T /\
    clone_backward D n mode final (fwd_graph ke D mode n fwd net shape) (seq 0 (length net))
      (backward_net ke (mk_spec false mode D n) (tbo_opts bo) n (tnet_network shape net)) [o] None x = Ok ts /\
    sample D final B b n [prodn (shape o)] T ts.
Proof. intros. apply clone_backward_rel; assumption. Qed.

Lemma batch_crown_independent : forall ke D n mode final fwd bo net shape o B B' b b' z z' x,
  (b < B)%nat -> (b' < B')%nat -> (0 < n)%nat -> norm_ok D -> (mode = IBP -> D = Box) -> (mode = IBP -> final = IBP) ->
  tnet_ok n net shape -> tnet_chain net -> tnet_blocks fwd (fun i => snd (bo i)) net shape -> single_output (tnet_network shape net) o ->
  sample_dom D B b n z x -> sample_dom D B' b' n z' x ->
  exists T T' ts, t_clone_backward ke D mode final fwd bo net [o] z = Ok T /\ t_clone_backward ke D mode final fwd bo net [o] z' = Ok T' /\
    sample D final B b n [prodn (shape o)] T ts /\ sample D final B' b' n [prodn (shape o)] T' ts.
Proof.
  intros ke D n mode final fwd bo net shape o B B' b b' z z' x Hb Hb' Hn HD HB Hf Hnet Hch Hbl Ho H H'.
  destruct (batch_crown ke D B b n mode final fwd bo net shape o z x) as (T & ts & ET & Et & HS); auto.
  destruct (batch_crown ke D B' b' n mode final fwd bo net shape o z' x) as (T' & ts' & ET' & Et' & HS'); auto.
  exists T, T', ts. rewrite Et in Et'. injection Et'; intros <-. auto.
Qed.

Lemma tnet_blayers_ok : forall n bo net shape, tnet_ok n net shape -> tnet_chain net -> tbo_ok bo net shape -> tnet_square net shape -> blayers_ok (tbo_opts bo) (tnet_network shape net).
Proof.
  intros n bo net shape Hnet Hch Hbo Hsq i L' ps E. unfold tnet_network in E. rewrite nth_error_map in E. destruct (nth_error net i) as [[o qs]|] eqn:En; [|discriminate E]. cbn in E. injection E; intros -> EL.
  destruct o as [L|]; [|discriminate EL]. injection EL; intros <-. destruct (Hnet i (Some L) ps En) as [_ [Hps HL]]. pose proof (Hch i L ps En) as HU. unfold tbo_opts. cbn [bo_ft].
  assert (Hout : nl_out (tl_layer (map shape ps) L) = prodn (shape i)).
  { pose proof (tnet_dim n net shape Hnet i ltac:(apply nth_error_Some; congruence)) as Q. unfold net_dim in Q. rewrite (s_nth net shape i _ ps En) in Q. exact Q. }
  split.
  - destruct L as [kernel bias|sl ft| | | |target|axis gamma beta mean var eps|dims| | | | |]; try contradiction HU; cbn [tl_layer bl_ok]; auto.
    + destruct (map shape ps) as [|s [|? ?]]; try contradiction HL. destruct HL as (pre & d & u & _ & _ & _ & Hu & Ek & _). rewrite Ek. exact Hu.
    + destruct (map shape ps) as [|s [|? ?]]; try contradiction HL. destruct HL as (_ & pre & k & post & -> & Hax & _ & _ & _ & _ & Hv).
      enough (bl_ok (tl_layer [pre ++ k :: post] (TBatchNorm axis gamma beta mean var eps))) as Q by exact Q.
      rewrite bn_layer_eq by exact Hax. split; assumption.
    + pose proof (Hsq i dims ps En) as Q. rewrite Q in HL |- *. cbn [hd]. destruct HL as [E1 E2]. split; [exact E2|symmetry; exact E1].
  - cbn [bo_ft]. rewrite Hout. destruct (snd (bo i)) as [a|] eqn:Ea; cbn [option_map snd ft_ok]; [|exact I]. apply (Hbo i a); [apply nth_error_Some; congruence|exact Ea].
Qed.
Lemma tnet_blocks_square : forall fwd ft net shape, tnet_blocks fwd ft net shape -> tnet_square net shape.
Proof. intros fwd ft net shape H i dims ps E. exact (proj1 (H i _ ps E)). Qed.
Lemma tnet_piecewise : forall net shape i L ps, nth_error (tnet_network shape net) i = Some (Some L, ps) -> nl_piecewise L.
Proof.
  intros net shape i L ps E. unfold tnet_network in E. rewrite nth_error_map in E. destruct (nth_error net i) as [[o qs]|] eqn:En; [|discriminate E]. cbn in E. injection E; intros -> EL.
  destruct o as [L0|]; [|discriminate EL]. injection EL; intros <-. destruct L0; cbn; auto.
Qed.

(** every sample is enclosed up to the margin of C68, C69, which depends on the weights only *)
Lemma batch_near : forall ke D n mode final net shape o B z v,
  0 < ke -> (0 < n)%nat -> norm_ok D -> (mode = IBP -> final = IBP) -> tnet_ok n net shape -> tnet_ft net -> single_output (tnet_network shape net) o ->
  net_value (tnet_network shape net) v -> (0 < B)%nat -> nd_shape z = dom_shape D B n ->
  exists T, t_clone_forward ke D mode final net [o] z = Ok T /\
    forall b, (b < B)%nat -> exists ts, sample D final B b n (shape o) T ts /\
      near D final (in_dom D n (batch_dom D n z b)) n (prodn (shape o)) (net_slack (tnet_network shape net) * ke) (v o) ts.
Proof.
  intros ke D n mode final net shape o B z v Hke Hn HD Hf Hnet Hft Ho Hv HB Ez.
  destruct (clone_rel ke D B 0 n mode net shape HB Hn HD Hnet o Ho final z _ Hf (batch_dom_sample D B 0 n z Ez)) as (T & _ & ET & _ & _).
  exists T. split; [exact ET|]. intros b Hb.
  destruct (clone_rel ke D B b n mode net shape Hb Hn HD Hnet o Ho final z _ Hf (batch_dom_sample D B b n z Ez)) as (T' & ts & ET' & Et & HS).
  rewrite ET in ET'. injection ET'; intros <-. exists ts. split; [exact HS|].
  rewrite <- (tnet_dim n net shape Hnet o) by (destruct Ho as [Q _]; rewrite s_length in Q; exact Q).
  destruct (net_clone_near ke D n mode final (batch_dom D n z b) (tnet_opts net) (tnet_network shape net) v o Hke Hn HD Hf (tnet_net_ok n net shape Hnet) Hv
    (tnet_layers_ok n mode net shape Hnet Hft) Ho (tnet_piecewise net shape)) as (ts' & E' & V).
  rewrite Et in E'. injection E'; intros <-. exact V.
Qed.
Lemma batch_crown_near : forall ke D n mode final fwd bo net shape o B z v,
  0 < ke -> (0 < n)%nat -> norm_ok D -> (mode = IBP -> D = Box) -> (mode = IBP -> final = IBP) ->
  tnet_ok n net shape -> tnet_ft net -> tbo_ok bo net shape -> tnet_chain net -> tnet_blocks fwd (fun i => snd (bo i)) net shape -> single_output (tnet_network shape net) o ->
  net_value (tnet_network shape net) v -> (0 < B)%nat -> nd_shape z = dom_shape D B n ->
  exists T, t_clone_backward ke D mode final fwd bo net [o] z = Ok T /\
    forall b, (b < B)%nat -> exists ts, sample D final B b n [prodn (shape o)] T ts /\
      near D final (in_dom D n (batch_dom D n z b)) n (prodn (shape o)) (net_slack (tnet_network shape net) * ke) (v o) ts.
Proof.
  intros ke D n mode final fwd bo net shape o B z v Hke Hn HD HB Hf Hnet Hft Hbo Hch Hbl Ho Hv HBp Ez.
  destruct (batch_crown ke D B 0 n mode final fwd bo net shape o z _ HBp Hn HD HB Hf Hnet Hch Hbl Ho (batch_dom_sample D B 0 n z Ez)) as (T & _ & ET & _ & _).
  exists T. split; [exact ET|]. intros b Hb.
  destruct (batch_crown ke D B b n mode final fwd bo net shape o z _ Hb Hn HD HB Hf Hnet Hch Hbl Ho (batch_dom_sample D B b n z Ez)) as (T' & ts & ET' & Et & HS).
  rewrite ET in ET'. injection ET'; intros <-. exists ts. split; [exact HS|].
  rewrite <- (tnet_dim n net shape Hnet o) by (destruct Ho as [Q _]; rewrite s_length in Q; exact Q).
  assert (Hl : length (seq 0 (length net)) = length (tnet_network shape net)) by (rewrite seq_length, s_length; reflexivity).
  unfold fwd_graph in Et. destruct fwd.
  - destruct (net_clone_crown_forward_near ke D n mode final (batch_dom D n z b) (seq 0 (length net)) (tnet_opts net) (tbo_opts bo) (tnet_network shape net) v o Hke Hn HD HB
      (tnet_net_ok n net shape Hnet) Hv (tnet_layers_ok n mode net shape Hnet Hft) (tnet_blayers_ok n bo net shape Hnet Hch Hbo (tnet_blocks_square _ _ net shape Hbl)) Ho Hl (seq_NoDup _ _) (tnet_piecewise net shape)) as (ts' & E' & V).
    rewrite Et in E'. injection E'; intros <-. exact V.
  - destruct (net_clone_crown_near ke D n mode final (batch_dom D n z b) (seq 0 (length net)) (tbo_opts bo) (tnet_network shape net) v o Hke Hn HD HB
      (tnet_net_ok n net shape Hnet) Hv (tnet_blayers_ok n bo net shape Hnet Hch Hbo (tnet_blocks_square _ _ net shape Hbl)) Ho Hl (seq_NoDup _ _) (tnet_piecewise net shape)) as (ts' & E' & V).
    rewrite Et in E'. injection E'; intros <-. exact V.
Qed.
(** constant bounds, entry by entry *)
Lemma batch_crown_constants : forall ke D n mode fwd bo net shape o B z v,
  0 < ke -> (0 < n)%nat -> norm_ok D -> (mode = IBP -> D = Box) ->
  tnet_ok n net shape -> tnet_ft net -> tbo_ok bo net shape -> tnet_chain net -> tnet_blocks fwd (fun i => snd (bo i)) net shape -> single_output (tnet_network shape net) o ->
  net_value (tnet_network shape net) v -> (0 < B)%nat -> nd_shape z = dom_shape D B n ->
  exists U L, t_clone_backward ke D mode IBP fwd bo net [o] z = Ok [U; L] /\ nd_shape U = [B; prodn (shape o)] /\ nd_shape L = [B; prodn (shape o)] /\
    forall b y j, (b < B)%nat -> in_dom D n (batch_dom D n z b) y -> (j < prodn (shape o))%nat ->
      nd_data L (b * prodn (shape o) + j) - net_slack (tnet_network shape net) * ke <= v o y j <= nd_data U (b * prodn (shape o) + j) + net_slack (tnet_network shape net) * ke.
Proof.
  intros ke D n mode fwd bo net shape o B z v Hke Hn HD HB Hnet Hft Hbo Hch Hbl Ho Hv HBp Ez.
  destruct (batch_crown_near ke D n mode IBP fwd bo net shape o B z v Hke Hn HD HB (fun _ => eq_refl) Hnet Hft Hbo Hch Hbl Ho Hv HBp Ez) as (T & ET & HV).
  destruct (HV O HBp) as (ts & HS & _). unfold sample in HS. cbn [kinds] in HS.
  inversion HS as [|k1 U u1 ks1 T1 q1 H1 R1]; subst. inversion R1 as [|k2 L l1 ks2 T2 q2 H2 R2]; subst. inversion R2; subst.
  exists U, L. split; [exact ET|]. split; [exact (proj1 H1)|]. split; [exact (proj1 H2)|]. intros b y j Hb Hy Hj.
  destruct (HV b Hb) as (ts & HS' & V). unfold sample in HS'. cbn [kinds] in HS'.
  inversion HS' as [|k3 U' u ks3 T3 q3 H3 R3]; subst. inversion R3 as [|k4 L' l ks4 T4 q4 H4 R4]; subst. inversion R4; subst.
  cbn [near] in V. specialize (V y j Hy Hj). cbn [sample_kind] in *. destruct H3 as [_ H3]. destruct H4 as [_ H4]. cbn [prodn fold_right] in H3, H4. rewrite Nat.mul_1_r in *.
  rewrite (H3 j Hj), (H4 j Hj). exact V.
Qed.

Lemma bind_inv : forall {A B} (r : result A) (k : A -> result B) b, bind r k = Ok b -> exists a, r = Ok a /\ k a = Ok b.
Proof. intros A B [a|e] k b E; [eauto|discriminate E]. Qed.
(** from ibp to a mode with weights: the box of the input, the constants of ibp as offsets, and zero weights of the
    dimension of the output *)
Lemma from_ibp_tensors : forall ke final fwd bo net o B n m z U L, final <> IBP -> (0 < n)%nat -> nd_shape z = [B; 2%nat; n] ->
  t_clone_backward ke Box IBP IBP fwd bo net [o] z = Ok [U; L] -> nd_shape U = [B; m] -> nd_shape L = [B; m] ->
  exists x w, t_clone_backward ke Box IBP final fwd bo net [o] z = Ok (if mode_eqb final AFFINE then [x; w; U; w; L] else [x; U; w; U; L; w; L]) /\
    nd_shape x = [B; 2%nat; n] /\ (forall q, (q < B * (2 * n))%nat -> nd_data x q = nd_data z q) /\ nd_shape w = [B; m; m] /\ forall q, nd_data w q = 0.
Proof.
  intros ke final fwd bo net o B n m z U L Hf Hn Ez E EU EL. unfold t_clone_backward in *.
  assert (Ei : t_input_tensors Box IBP z = Ok [mk_nd [B; n] (fun q => nd_data z ((q / (n * 1) * 2 + 1) * (n * 1) + q mod (n * 1))%nat); mk_nd [B; n] (fun q => nd_data z ((q / (n * 1) * 2 + 0) * (n * 1) + q mod (n * 1))%nat)]).
  { unfold t_input_tensors, k_index. rewrite Ez. reflexivity. }
  rewrite Ei in *. cbn [bind] in *. set (iu := mk_nd [B; n] (fun q => nd_data z ((q / (n * 1) * 2 + 1) * (n * 1) + q mod (n * 1))%nat)) in *.
  set (il := mk_nd [B; n] (fun q => nd_data z ((q / (n * 1) * 2 + 0) * (n * 1) + q mod (n * 1))%nat)) in *.
  apply bind_inv in E as (fm & -> & E). cbn [bind]. apply bind_inv in E as (l & -> & E). cbn [bind]. unfold t_convert_backward in *.
  apply bind_inv in E as (im & -> & E). cbn [bind]. apply bind_inv in E as (r & -> & E). cbn [bind]. apply bind_inv in E as (c & Ec & E). cbn in E. injection E; intros ->.
  assert (Er : exists rest, concat r = U :: L :: rest).
  { unfold t_convert2mode in Ec. cbn [mode_eqb andb negb] in Ec. apply bind_inv in Ec as (fr & Efr & Ec). cbn [bind] in Ec. injection Ec; intros E1 E2.
    unfold t_fullinputs in Efr. cbn [unpack] in Efr. destruct (concat r) as [|u0 [|l0 rest]]; cbn in Efr; try discriminate Efr. injection Efr; intros <-. cbn in E1, E2. subst. eauto. }
  destruct Er as [rest Er]. rewrite Er. unfold t_convert2mode. replace (mode_eqb final IBP) with false by (destruct final; [contradiction|reflexivity|reflexivity]). cbn [mode_eqb andb negb].
  assert (Efr : exists r', t_fullinputs Box IBP false false (U :: L :: rest) = Ok r' /\ f_uc r' = U /\ f_lc r' = L) by (eexists; split; [reflexivity|split; reflexivity]).
  destruct Efr as (r' & -> & Eu & El). cbn [bind]. rewrite Eu, El.
  unfold k_pair at 1. unfold k_expand. cbn [nd_shape nd_data]. rewrite EU, EL. cbn [firstn skipn app length Nat.eqb].
  exists (mk_nd [B; 2%nat; n] (fun q => nd_data (if Nat.eqb ((q / (n * 1)) mod 2) 0 then k_expand il 1 else k_expand iu 1) (q / (n * 1) / 2 * (n * 1) + q mod (n * 1))%nat)), (k1 (fun v => 0 * v) (k_identity L)). split.
  - destruct final; [contradiction|reflexivity|reflexivity].
  - split; [|split; [|split]].
    + reflexivity.
    + intros q Hq. cbn [nd_data]. rewrite !Nat.mul_1_r. set (a := (q / n)%nat). set (d := (q mod n)%nat).
      assert (Eq : q = (a * n + d)%nat) by (unfold a, d; rewrite (Nat.div_mod_eq q n) at 1; lia). assert (Hd : (d < n)%nat) by (apply Nat.mod_upper_bound; lia).
      pose proof (Nat.mod_upper_bound a 2 ltac:(lia)) as H2. pose proof (Nat.div_mod_eq a 2) as Ea.
      assert (Q1 : (((a / 2 * n + d) / n) = a / 2)%nat) by (rewrite Nat.div_add_l by lia; rewrite (Nat.div_small d n Hd); lia).
      assert (Q2 : ((a / 2 * n + d) mod n = d)%nat) by (rewrite Nat.add_comm, Nat.mod_add by lia; apply Nat.mod_small; exact Hd).
      destruct (Nat.eqb_spec (a mod 2) 0) as [E0|E0]; cbn [nd_data il iu k_expand]; rewrite !Nat.mul_1_r, Q1, Q2; f_equal; rewrite Eq; nia.
    + cbn [nd_shape k1 k_identity]. rewrite EL. reflexivity.
    + intros q. cbn [nd_data k1]. lra.
Qed.
Lemma crown_from_ibp : forall ke n final fwd bo net shape o B z v, final <> IBP ->
  0 < ke -> (0 < n)%nat -> tnet_ok n net shape -> tnet_ft net -> tbo_ok bo net shape -> tnet_chain net -> tnet_blocks fwd (fun i => snd (bo i)) net shape -> single_output (tnet_network shape net) o ->
  net_value (tnet_network shape net) v -> (0 < B)%nat -> nd_shape z = dom_shape Box B n ->
  exists U L x w, t_clone_backward ke Box IBP final fwd bo net [o] z = Ok (if mode_eqb final AFFINE then [x; w; U; w; L] else [x; U; w; U; L; w; L]) /\
    nd_shape x = dom_shape Box B n /\ (forall q, (q < B * (2 * n))%nat -> nd_data x q = nd_data z q) /\
    nd_shape w = [B; prodn (shape o); prodn (shape o)] /\ (forall q, nd_data w q = 0) /\ nd_shape U = [B; prodn (shape o)] /\ nd_shape L = [B; prodn (shape o)] /\
    forall b y j, (b < B)%nat -> in_dom Box n (batch_dom Box n z b) y -> (j < prodn (shape o))%nat ->
      nd_data L (b * prodn (shape o) + j) - net_slack (tnet_network shape net) * ke <= v o y j <= nd_data U (b * prodn (shape o) + j) + net_slack (tnet_network shape net) * ke.
Proof.
  intros ke n final fwd bo net shape o B z v Hf Hke Hn Hnet Hft Hbo Hch Hbl Ho Hv HBp Ez.
  destruct (batch_crown_constants ke Box n IBP fwd bo net shape o B z v Hke Hn I (fun _ => eq_refl) Hnet Hft Hbo Hch Hbl Ho Hv HBp Ez) as (U & L & E & EU & EL & H).
  destruct (from_ibp_tensors ke final fwd bo net o B n _ z U L Hf Hn Ez E EU EL) as (x & w & E' & Ex & Hx & Ew & Hw).
  exists U, L, x, w. repeat (split; [assumption|]). exact H.
Qed.

(** the computation on one sample succeeds, with valid bounds, whatever the blocks *)
Lemma single_crown : forall ke D n mode final fwd bo net shape o z,
  0 < ke -> (0 < n)%nat -> norm_ok D -> (mode = IBP -> D = Box) ->
  tnet_ok n net shape -> tnet_ft net -> tbo_ok bo net shape -> tnet_chain net -> tnet_square net shape -> single_output (tnet_network shape net) o ->
  exists ts, clone_backward D n mode final (fwd_graph ke D mode n fwd net shape) (seq 0 (length net)) (backward_net ke (mk_spec false mode D n) (tbo_opts bo) n (tnet_network shape net)) [o] None z = Ok ts /\
    exists v, net_value (tnet_network shape net) v /\ near D final (in_dom D n z) n (net_dim n (tnet_network shape net) o) (net_slack (tnet_network shape net) * ke) (v o) ts.
Proof.
  intros ke D n mode final fwd bo net shape o z Hke Hn HD HB Hnet Hft Hbo Hch Hsq Ho.
  assert (Hl : length (seq 0 (length net)) = length (tnet_network shape net)) by (rewrite seq_length, s_length; reflexivity).
  pose proof (tnet_layers_ok n mode net shape Hnet Hft) as Hlay.
  assert (Hv : net_value (tnet_network shape net) (net_fn (tnet_network shape net))).
  { apply (net_value_exists n); [exact (tnet_net_ok n net shape Hnet)|]. intros i L ps E. exists mode. eexists. exact (proj1 (Hlay i L ps E)). }
  unfold fwd_graph. destruct fwd.
  - destruct (net_clone_crown_forward_near ke D n mode final z (seq 0 (length net)) (tnet_opts net) (tbo_opts bo) (tnet_network shape net) _ o Hke Hn HD HB
      (tnet_net_ok n net shape Hnet) Hv Hlay (tnet_blayers_ok n bo net shape Hnet Hch Hbo Hsq) Ho Hl (seq_NoDup _ _) (tnet_piecewise net shape)) as (ts' & E' & V).
    exists ts'. split; [exact E'|]. eexists. split; [exact Hv|exact V].
  - destruct (net_clone_crown_near ke D n mode final z (seq 0 (length net)) (tbo_opts bo) (tnet_network shape net) _ o Hke Hn HD HB
      (tnet_net_ok n net shape Hnet) Hv (tnet_blayers_ok n bo net shape Hnet Hch Hbo Hsq) Ho Hl (seq_NoDup _ _) (tnet_piecewise net shape)) as (ts' & E' & V).
    exists ts'. split; [exact E'|]. eexists. split; [exact Hv|exact V].
Qed.

(** ** blocks that the backward pass refuses *)
Definition plain_bo (i : nat) : slope * option nd := (V_SLOPE, None).
(** Reshape to a column, then Dense *)
Definition column_net (k : R) : tnetwork := [(None, []); (Some (TReshape [2%nat; 1%nat]), [0%nat]); (Some (TDense (nd_of [1%nat; 1%nat] [k]) None), [1%nat])].
Definition column_shape (i : nat) : list nat := match i with O => [2%nat] | _ => [2%nat; 1%nat] end.
Lemma chain3_single : forall (o1 o2 : option nlayer) a, single_output [(a, []); (o1, [0%nat]); (o2, [1%nat])] 2.
Proof.
  intros o1 o2 a. split; [cbn; lia|]. intros j Hj. cbn [length] in Hj. cbn [map snd].
  assert (L2 : leads_to [[]; [0%nat]; [1%nat]] 2 2) by apply leads_self.
  assert (L1 : leads_to [[]; [0%nat]; [1%nat]] 2 1) by (apply (leads_step _ _ 1 2 [1%nat]); [reflexivity|left; reflexivity|exact L2]).
  assert (L0 : leads_to [[]; [0%nat]; [1%nat]] 2 0) by (apply (leads_step _ _ 0 1 [0%nat]); [reflexivity|left; reflexivity|exact L1]).
  destruct j as [|[|[|j]]]; auto; lia.
Qed.
Lemma column_ok : forall k, tnet_ok 2 (column_net k) column_shape /\ tnet_chain (column_net k) /\ tnet_blocks true (fun i => snd (plain_bo i)) (column_net k) column_shape /\
  single_output (tnet_network column_shape (column_net k)) 2.
Proof.
  intros k. split; [|split; [|split]].
  - intros i o ps E. unfold column_net in E. destruct i as [|[|[|i]]]; cbn in E; [| | |destruct i; discriminate E]; injection E; intros <- <-; (split; [intros p Q; cbn in Q; lia|]).
    + split; reflexivity.
    + split; [discriminate|]. split; [reflexivity|]. cbn. lia.
    + split; [discriminate|]. exists [2%nat], 1%nat, 1%nat. repeat split; try lia; auto; intros a Q; discriminate Q.
  - intros i L ps E. unfold column_net in E. destruct i as [|[|[|i]]]; cbn in E; [| | |destruct i; discriminate E]; injection E; intros; subst; try discriminate; exact I.
  - intros i L ps E. unfold column_net in E. destruct i as [|[|[|i]]]; cbn in E; [| | |destruct i; discriminate E]; injection E; intros; subst; try discriminate; exact I.
  - apply chain3_single.
Qed.
(** crown refuses it whatever the values, crown-forward-ibp does not, and the computation on one sample succeeds *)
Lemma dense_block_error : forall ke k z, nd_shape z = [1%nat; 2%nat; 2%nat] -> exists net shape o T ts,
  net = column_net k /\ tnet_ok 2 net shape /\ tnet_chain net /\ single_output (tnet_network shape net) o /\
  t_clone_backward ke Box IBP IBP false plain_bo net [o] z = Err ValueError /\
  t_clone_backward ke Box IBP IBP true plain_bo net [o] z = Ok T /\
  clone_backward Box 2 IBP IBP None (seq 0 (length net)) (backward_net ke (mk_spec false IBP Box 2) (tbo_opts plain_bo) 2 (tnet_network shape net)) [o] None (batch_dom Box 2 z 0) = Ok ts.
Proof.
  intros ke k z Ez. destruct (column_ok k) as (H1 & H2 & H3 & H4).
  destruct (batch_crown ke Box 1 0 2 IBP IBP true plain_bo (column_net k) column_shape 2 z (batch_dom Box 2 z 0)) as (T & ts & ET & Et & _); auto; try lia; [exact I|exact (batch_dom_sample Box 1 0 2 z Ez)|].
  exists (column_net k), column_shape, 2%nat, T. eexists. split; [reflexivity|]. split; [exact H1|]. split; [exact H2|]. split; [exact H4|].
  split; [|split; [exact ET|reflexivity]].
  destruct z as [s f]. cbn in Ez. subst s. reflexivity.
Qed.
(** the general reason: on a vector of m entries a Dense layer of another input dimension d returns d rows *)
Lemma dense_flat_rows : forall kernel bias T B m d u, nd_shape (last_nd T) = [B; m] -> nd_shape kernel = [d; u] -> d <> m ->
  exists C, t_backward_dense kernel bias T = Ok C /\ nd_shape (tb_wu C) = [B; d; u] /\
    forall A i, nd_shape (tb_wu A) = [B; i; m] -> t_merge_bb A C = Err ValueError.
Proof.
  intros kernel bias T B m d u ET Ek Hd. unfold t_backward_dense. rewrite ET, Ek. cbn [removelast prodn fold_right Nat.eqb]. cbv zeta. rewrite !Nat.mul_1_l.
  eexists. split; [reflexivity|]. split; [reflexivity|]. intros A i EA. unfold t_merge_bb, t_merge_previous. cbn [tb_wu tb_wl tb_bu tb_bl]. cbv zeta.
  assert (ER : rank (tb_wu A) = 3%nat) by (unfold rank; rewrite EA; reflexivity). rewrite ER. cbn [Nat.eqb].
  unfold rank at 1. cbn [nd_shape length Nat.eqb]. unfold k_batch_dot at 1. rewrite EA. cbn [k1 nd_shape]. rewrite Nat.eqb_refl. destruct (Nat.eqb_spec m d); [congruence|]. reflexivity.
Qed.

(** a relu with coefficients on a block (2, 2), with the forward bounds *)
Definition square_net : tnetwork := [(None, []); (Some (TReshape [2%nat; 2%nat]), [0%nat]); (Some (TRelu V_SLOPE None), [1%nat])].
Definition square_shape (i : nat) : list nat := match i with O => [4%nat] | _ => [2%nat; 2%nat] end.
Definition square_bo (i : nat) : slope * option nd := (V_SLOPE, Some (mk_nd [4%nat] (fun _ => 1))).
Lemma square_ok : tnet_ok 4 square_net square_shape /\ tnet_chain square_net /\ tnet_blocks false (fun i => snd (square_bo i)) square_net square_shape /\
  single_output (tnet_network square_shape square_net) 2.
Proof.
  split; [|split; [|split]].
  - intros i o ps E. unfold square_net in E. destruct i as [|[|[|i]]]; cbn in E; [| | |destruct i; discriminate E]; injection E; intros <- <-; (split; [intros p Q; cbn in Q; lia|]).
    + split; reflexivity.
    + split; [discriminate|]. split; [reflexivity|]. cbn. lia.
    + split; [discriminate|]. split; [reflexivity|]. intros a Q; discriminate Q.
  - intros i L ps E. unfold square_net in E. destruct i as [|[|[|i]]]; cbn in E; [| | |destruct i; discriminate E]; injection E; intros; subst; try discriminate; exact I.
  - intros i L ps E. unfold square_net in E. destruct i as [|[|[|i]]]; cbn in E; [| | |destruct i; discriminate E]; injection E; intros; subst; try discriminate; try exact I.
    intros a Q. cbn in Q. injection Q; intros <-. split; [reflexivity|]. intros Q'; discriminate Q'.
  - apply chain3_single.
Qed.
Lemma relu_block_error : forall ke z, 0 < ke -> nd_shape z = [1%nat; 2%nat; 4%nat] -> exists shape o T ts,
  tnet_ok 4 square_net shape /\ tnet_chain square_net /\ single_output (tnet_network shape square_net) o /\ tbo_ok square_bo square_net shape /\
  t_clone_backward ke Box IBP IBP true square_bo square_net [o] z = Err ValueError /\
  t_clone_backward ke Box IBP IBP false square_bo square_net [o] z = Ok T /\
  clone_backward Box 4 IBP IBP (fwd_graph ke Box IBP 4 true square_net shape) (seq 0 (length square_net))
    (backward_net ke (mk_spec false IBP Box 4) (tbo_opts square_bo) 4 (tnet_network shape square_net)) [o] None (batch_dom Box 4 z 0) = Ok ts.
Proof.
  intros ke z Hke Ez. destruct square_ok as (H1 & H2 & H3 & H4).
  destruct (batch_crown ke Box 1 0 4 IBP IBP false square_bo square_net square_shape 2 z (batch_dom Box 4 z 0)) as (T & ts & ET & Et & _); auto; try lia; [exact I|exact (batch_dom_sample Box 1 0 4 z Ez)|].
  destruct (single_crown ke Box 4 IBP IBP true square_bo square_net square_shape 2 (batch_dom Box 4 z 0)) as (ts' & Et' & _); auto; try lia; try exact I; try exact (tnet_blocks_square _ _ _ _ H3).
  { intros i sl a ps Q. destruct i as [|[|[|i]]]; cbn in Q; try discriminate Q. destruct i; discriminate Q. }
  { intros i a _ Q j _; cbn in Q; injection Q; intros <-; cbn; lra. }
  exists square_shape, 2%nat, T, ts'. split; [exact H1|]. split; [exact H2|]. split; [exact H4|].
  split; [intros i a _ Q j _; cbn in Q; injection Q; intros <-; cbn; lra|].
  split; [|split; [exact ET|exact Et']].
  destruct z as [s f]. cbn in Ez. subst s. reflexivity.
Qed.

(** BatchNormalization, and Permute, on a block (2, 2) *)
Definition block_net (L : tlayer) : tnetwork := [(None, []); (Some (TReshape [2%nat; 2%nat]), [0%nat]); (Some L, [1%nat])].
Definition demo_bn : tlayer := TBatchNorm (-1) (Some (nd_of [2%nat] [2; -3])) (Some (nd_of [2%nat] [0; 1])) (nd_of [2%nat] [1; 2]) (nd_of [2%nat] [3; 8]) 1.
Lemma block_ok : forall L ft, (L = demo_bn \/ L = TPermute [2%nat; 1%nat]) ->
  tnet_ok 4 (block_net L) square_shape /\ tnet_chain (block_net L) /\ tnet_ft (block_net L) /\ tnet_blocks true ft (block_net L) square_shape /\
  tnet_square (block_net L) square_shape /\ single_output (tnet_network square_shape (block_net L)) 2.
Proof.
  intros L ft HL. split; [|split; [|split; [|split; [|split]]]].
  - intros i o ps E. unfold block_net in E. destruct i as [|[|[|i]]]; cbn in E; [| | |destruct i; discriminate E]; injection E; intros <- <-; (split; [intros p Q; cbn in Q; lia|]).
    + split; reflexivity.
    + split; [discriminate|]. split; [reflexivity|]. cbn. lia.
    + split; [discriminate|]. destruct HL as [-> | ->].
      * split; [reflexivity|]. exists [2%nat], 2%nat, []. split; [reflexivity|]. split; [right; reflexivity|]. repeat split; try (intros a Q; injection Q; intros <-; reflexivity).
        intros c Hc. destruct c as [|[|c]]; [| |lia]; cbn; lra.
      * split; [reflexivity|]. cbn. apply perm_swap.
  - intros i M ps E. unfold block_net in E. destruct i as [|[|[|i]]]; cbn in E; [| | |destruct i; discriminate E]; injection E; intros; subst; try discriminate; destruct HL as [-> | ->]; exact I.
  - intros i sl a ps E. unfold block_net in E. destruct i as [|[|[|i]]]; cbn in E; [| | |destruct i; discriminate E]; try discriminate E. injection E; intros _ Q. destruct HL as [-> | ->]; discriminate Q.
  - intros i M ps E. unfold block_net in E. destruct i as [|[|[|i]]]; cbn in E; [| | |destruct i; discriminate E]; injection E; intros; subst; try discriminate; destruct HL as [-> | ->]; try exact I.
    + intros Q; discriminate Q.
    + split; [reflexivity|]. intros Q; discriminate Q.
  - intros i dims ps E. unfold block_net in E. destruct i as [|[|[|i]]]; cbn in E; try discriminate E; [|destruct i; discriminate E]. injection E; intros <- _. reflexivity.
  - apply chain3_single.
Qed.
Lemma affine_block_error : forall ke z L, 0 < ke -> (L = demo_bn \/ L = TPermute [2%nat; 1%nat]) -> nd_shape z = [1%nat; 2%nat; 4%nat] -> exists shape o T ts,
  tnet_ok 4 (block_net L) shape /\ tnet_chain (block_net L) /\ single_output (tnet_network shape (block_net L)) o /\
  t_clone_backward ke Box IBP IBP false plain_bo (block_net L) [o] z = Err ValueError /\
  t_clone_backward ke Box IBP IBP true plain_bo (block_net L) [o] z = Ok T /\
  clone_backward Box 4 IBP IBP None (seq 0 3) (backward_net ke (mk_spec false IBP Box 4) (tbo_opts plain_bo) 4 (tnet_network shape (block_net L))) [o] None (batch_dom Box 4 z 0) = Ok ts.
Proof.
  intros ke z L Hke HL Ez. destruct (block_ok L (fun i => snd (plain_bo i)) HL) as (H1 & H2 & H3 & H4 & H5 & H6).
  destruct (batch_crown ke Box 1 0 4 IBP IBP true plain_bo (block_net L) square_shape 2 z (batch_dom Box 4 z 0)) as (T & ts & ET & Et & _); auto; try lia; [exact I|exact (batch_dom_sample Box 1 0 4 z Ez)|].
  destruct (single_crown ke Box 4 IBP IBP false plain_bo (block_net L) square_shape 2 (batch_dom Box 4 z 0)) as (ts' & Et' & _); auto; try lia; try exact I.
  { intros i a _ Q; discriminate Q. }
  exists square_shape, 2%nat, T, ts'. split; [exact H1|]. split; [exact H2|]. split; [exact H6|]. split; [|split; [exact ET|exact Et']].
  destruct z as [s f]. cbn in Ez. subst s. destruct HL as [-> | ->]; reflexivity.
Qed.
Lemma bn_block_error : forall ke z, 0 < ke -> nd_shape z = [1%nat; 2%nat; 4%nat] -> exists shape o T ts,
  tnet_ok 4 (block_net demo_bn) shape /\ tnet_chain (block_net demo_bn) /\ single_output (tnet_network shape (block_net demo_bn)) o /\
  t_clone_backward ke Box IBP IBP false plain_bo (block_net demo_bn) [o] z = Err ValueError /\
  t_clone_backward ke Box IBP IBP true plain_bo (block_net demo_bn) [o] z = Ok T /\
  clone_backward Box 4 IBP IBP None (seq 0 3) (backward_net ke (mk_spec false IBP Box 4) (tbo_opts plain_bo) 4 (tnet_network shape (block_net demo_bn))) [o] None (batch_dom Box 4 z 0) = Ok ts.
Proof. intros ke z Hke Ez. apply affine_block_error; auto. Qed.
Lemma permute_block_error : forall ke z, 0 < ke -> nd_shape z = [1%nat; 2%nat; 4%nat] -> exists shape o T ts,
  tnet_ok 4 (block_net (TPermute [2%nat; 1%nat])) shape /\ tnet_chain (block_net (TPermute [2%nat; 1%nat])) /\ single_output (tnet_network shape (block_net (TPermute [2%nat; 1%nat]))) o /\
  t_clone_backward ke Box IBP IBP false plain_bo (block_net (TPermute [2%nat; 1%nat])) [o] z = Err ValueError /\
  t_clone_backward ke Box IBP IBP true plain_bo (block_net (TPermute [2%nat; 1%nat])) [o] z = Ok T /\
  clone_backward Box 4 IBP IBP None (seq 0 3) (backward_net ke (mk_spec false IBP Box 4) (tbo_opts plain_bo) 4 (tnet_network shape (block_net (TPermute [2%nat; 1%nat])))) [o] None (batch_dom Box 4 z 0) = Ok ts.
Proof. intros ke z Hke Ez. apply affine_block_error; auto. Qed.

(** from ibp to hybrid: x is the input box, of dimension 2, the weights are those of the output, of dimension 3 *)
Definition wide_net : tnetwork := [(None, []); (Some (TDense (nd_of [2%nat; 3%nat] [1; 0; 1; 0; 1; 1]) None), [0%nat])].
Definition wide_shape (i : nat) : list nat := match i with O => [2%nat] | _ => [3%nat] end.
Lemma wide_ok : tnet_ok 2 wide_net wide_shape /\ tnet_chain wide_net /\ tnet_blocks false (fun i => snd (plain_bo i)) wide_net wide_shape /\ single_output (tnet_network wide_shape wide_net) 1.
Proof.
  split; [|split; [|split]].
  - intros i o ps E. unfold wide_net in E. destruct i as [|[|i]]; cbn in E; [| |destruct i; discriminate E]; injection E; intros <- <-; (split; [intros p Q; cbn in Q; lia|]).
    + split; reflexivity.
    + split; [discriminate|]. exists [], 2%nat, 3%nat. repeat split; try lia; auto; intros a Q; discriminate Q.
  - intros i L ps E. unfold wide_net in E. destruct i as [|[|i]]; cbn in E; [| |destruct i; discriminate E]; injection E; intros; subst; try discriminate; exact I.
  - intros i L ps E. unfold wide_net in E. destruct i as [|[|i]]; cbn in E; [| |destruct i; discriminate E]; injection E; intros; subst; try discriminate. intros _. exists 2%nat. reflexivity.
  - split; [cbn; lia|]. intros j Hj. cbn [length tnet_network map wide_net] in Hj.
    assert (L1 : leads_to (map snd (tnet_network wide_shape wide_net)) 1 1) by apply leads_self.
    assert (L0 : leads_to (map snd (tnet_network wide_shape wide_net)) 1 0) by (apply (leads_step _ _ 0 1 [0%nat]); [reflexivity|left; reflexivity|exact L1]).
    destruct j as [|[|j]]; auto; lia.
Qed.
Definition shapes_of (r : result (list nd)) : list (list nat) := match r with Ok T => map nd_shape T | Err _ => [] end.
Lemma crown_from_ibp_error : forall ke z, nd_shape z = [1%nat; 2%nat; 2%nat] -> exists x u w b l w' b',
  t_clone_backward ke Box IBP HYBRID false plain_bo wide_net [1%nat] z = Ok [x; u; w; b; l; w'; b'] /\
  nd_shape x = [1%nat; 2%nat; 2%nat] /\ nd_shape w = [1%nat; 3%nat; 3%nat] /\ nd_shape w' = [1%nat; 3%nat; 3%nat] /\
  t_get_upper Box x w b = Err ValueError /\ t_get_lower Box x w' b' = Err ValueError.
Proof.
  intros ke z Ez. destruct z as [s f]. cbn in Ez. subst s.
  assert (HS : shapes_of (t_clone_backward ke Box IBP HYBRID false plain_bo wide_net [1%nat] (mk_nd [1%nat; 2%nat; 2%nat] f))
    = [[1%nat; 2%nat; 2%nat]; [1%nat; 3%nat]; [1%nat; 3%nat; 3%nat]; [1%nat; 3%nat]; [1%nat; 3%nat]; [1%nat; 3%nat; 3%nat]; [1%nat; 3%nat]]) by reflexivity.
  destruct (t_clone_backward ke Box IBP HYBRID false plain_bo wide_net [1%nat] (mk_nd [1%nat; 2%nat; 2%nat] f)) as [T|e]; [|discriminate HS]. cbn [shapes_of] in HS.
  destruct T as [|x [|u [|w [|b [|l [|w' [|b' [|q T]]]]]]]]; try discriminate HS. cbn [map] in HS. injection HS; intros E7 E6 E5 E4 E3 E2 E1.
  exists x, u, w, b, l, w', b'. split; [reflexivity|]. split; [exact E1|]. split; [exact E3|]. split; [exact E6|].
  destruct x as [sx x], w as [sw w], w' as [sw' w'], b as [sb b], b' as [sb' b']. cbn in *. subst. split; reflexivity.
Qed.

(** ** example: Dense, relu with coefficients in both passes, Dense; a batch of two boxes *)
Definition demo_chain : tnetwork :=
  [(None, []); (Some (TDense (nd_of [2%nat; 2%nat] [1; -1; 2; 1]) (Some (nd_of [2%nat] [0; 1]))), [0%nat]);
   (Some (TRelu V_SLOPE (Some (nd_of [2%nat] [1; 0]))), [1%nat]); (Some (TDense (nd_of [2%nat; 1%nat] [1; -1]) None), [2%nat])].
Definition chain_shape (i : nat) : list nat := match i with 3%nat => [1%nat] | _ => [2%nat] end.
Definition chain_bo (i : nat) : slope * option nd := if Nat.eqb i 2 then (V_SLOPE, Some (nd_of [2%nat] [1; 0])) else (V_SLOPE, None).
Definition chain_batch : nd := nd_of [2%nat; 2%nat; 2%nat] [0; 0; 1; 1;  0; 2; 1; 3].
Lemma demo_chain_ok : tnet_ok 2 demo_chain chain_shape /\ tnet_ft demo_chain /\ tnet_chain demo_chain /\ tbo_ok chain_bo demo_chain chain_shape /\
  (forall fwd, tnet_blocks fwd (fun i => snd (chain_bo i)) demo_chain chain_shape) /\ single_output (tnet_network chain_shape demo_chain) 3 /\ nd_shape chain_batch = dom_shape Box 2 2.
Proof.
  split; [|split; [|split; [|split; [|split; [|split; [|reflexivity]]]]]].
  - intros i o ps E. unfold demo_chain in E. destruct i as [|[|[|[|i]]]]; cbn in E; [| | | |destruct i; discriminate E]; injection E; intros <- <-; (split; [intros p Q; cbn in Q; lia|]).
    + split; reflexivity.
    + split; [discriminate|]. exists [], 2%nat, 2%nat. repeat split; try lia; auto; intros a Q; injection Q; intros <-; reflexivity.
    + split; [discriminate|]. split; [reflexivity|]. intros a Q; injection Q; intros <-; reflexivity.
    + split; [discriminate|]. exists [], 2%nat, 1%nat. repeat split; try lia; auto; intros a Q; discriminate Q.
  - intros i sl a ps E. unfold demo_chain in E. destruct i as [|[|[|[|i]]]]; cbn in E; try discriminate E; [|destruct i; discriminate E]. injection E; intros _ <- _. intros j Hj. cbn in Hj.
    destruct j as [|[|j]]; [| |lia]; cbn; lra.
  - intros i L ps E. unfold demo_chain in E. destruct i as [|[|[|[|i]]]]; cbn in E; [| | | |destruct i; discriminate E]; injection E; intros; subst; try discriminate; exact I.
  - intros i a _ Q j Hj. unfold chain_bo in Q. destruct (Nat.eqb_spec i 2) as [->|]; [|discriminate Q]. cbn in Q. injection Q; intros <-. cbn in Hj. destruct j as [|[|j]]; [| |lia]; cbn; lra.
  - intros fwd i L ps E. unfold demo_chain in E. destruct i as [|[|[|[|i]]]]; cbn in E; [| | | |destruct i; discriminate E]; injection E; intros; subst; try discriminate; try exact I.
    + intros _. exists 2%nat. reflexivity.
    + intros a Q. cbn in Q. injection Q; intros <-. split; [reflexivity|]. intros _. exists 2%nat. reflexivity.
    + intros _. exists 2%nat. reflexivity.
  - split; [cbn; lia|]. intros j Hj. cbn in Hj. set (g := map snd (tnet_network chain_shape demo_chain)).
    assert (L3 : leads_to g 3 3) by apply leads_self.
    assert (L2 : leads_to g 3 2) by (apply (leads_step _ _ 2 3 [2%nat]); [reflexivity|left; reflexivity|exact L3]).
    assert (L1 : leads_to g 3 1) by (apply (leads_step _ _ 1 2 [1%nat]); [reflexivity|left; reflexivity|exact L2]).
    assert (L0 : leads_to g 3 0) by (apply (leads_step _ _ 0 1 [0%nat]); [reflexivity|left; reflexivity|exact L1]).
    destruct j as [|[|[|[|j]]]]; auto; lia.
Qed.
(** values: two Dense layers, 2 y1 + y2 - 1 on [0,1] x [0,1] and on [0,1] x [2,3]; forward-ibp returns [-2, 3] for the first box *)
Definition demo_lin : tnetwork :=
  [(None, []); (Some (TDense (nd_of [2%nat; 2%nat] [1; -1; 2; 1]) (Some (nd_of [2%nat] [0; 1]))), [0%nat]); (Some (TDense (nd_of [2%nat; 1%nat] [1; -1]) None), [1%nat])].
Definition entry (r : result (list nd)) (k i : nat) : R := match r with Ok T => nd_data (nth k T none_nd) i | Err _ => 0 end.
Lemma demo_lin_crown : forall ke, exists U L, t_clone_backward ke Box IBP IBP false plain_bo demo_lin [2%nat] chain_batch = Ok [U; L] /\
  nd_data U 0 = 2 /\ nd_data U 1 = 4 /\ nd_data L 0 = -1 /\ nd_data L 1 = 1.
Proof.
  intros ke. set (r := t_clone_backward ke Box IBP IBP false plain_bo demo_lin [2%nat] chain_batch).
  assert (HS : shapes_of r = [[2%nat; 1%nat]; [2%nat; 1%nat]]) by reflexivity.
  assert (V : entry r 0 0 = 2 /\ entry r 0 1 = 4 /\ entry r 1 0 = -1 /\ entry r 1 1 = 1).
  { unfold r. repeat split; lazy -[Rmax Rmin Rplus Rmult Rminus Ropp IZR Rlt Rle Rdiv Rinv]; repeat (unfold Rmax, Rmin; repeat destruct Rle_dec; try lra). }
  destruct r as [T|e]; [|discriminate HS]. destruct T as [|U [|L [|q T]]]; try discriminate HS. exists U, L. split; [reflexivity|exact V].
Qed.
(** BatchNormalization on blocks (2, 2), y - 1 on the first channel and 3 - y on the second; and Permute *)
Definition block_batch : nd := nd_of [2%nat; 2%nat; 4%nat] [0; 0; 0; 0; 1; 2; 3; 4;  1; 1; 1; 1; 2; 2; 2; 2].
Lemma demo_bn_values : forall ke, exists U L, t_clone_forward ke Box IBP IBP (block_net demo_bn) [2%nat] block_batch = Ok [U; L] /\ nd_shape U = [2; 2; 2]%nat /\
  nd_data U 0 = 0 /\ nd_data L 0 = -1 /\ nd_data U 3 = 3 /\ nd_data L 3 = -1 /\ nd_data U 4 = 1 /\ nd_data L 4 = 0 /\ nd_data U 7 = 2 /\ nd_data L 7 = 1.
Proof.
  intros ke. set (r := t_clone_forward ke Box IBP IBP (block_net demo_bn) [2%nat] block_batch).
  assert (HS : shapes_of r = [[2; 2; 2]%nat; [2; 2; 2]%nat]) by reflexivity.
  assert (S4 : sqrt (3 + 0 + 1) = 2) by (replace (3 + 0 + 1) with (2 * 2) by lra; apply sqrt_square; lra).
  assert (S9 : sqrt (8 + 0 + 1) = 3) by (replace (8 + 0 + 1) with (3 * 3) by lra; apply sqrt_square; lra).
  assert (V : entry r 0 0 = 0 /\ entry r 1 0 = -1 /\ entry r 0 3 = 3 /\ entry r 1 3 = -1 /\ entry r 0 4 = 1 /\ entry r 1 4 = 0 /\ entry r 0 7 = 2 /\ entry r 1 7 = 1).
  { unfold r. repeat split; lazy -[Rmax Rmin Rplus Rmult Rminus Ropp IZR Rlt Rle Rdiv Rinv sqrt]; rewrite ?S4, ?S9; repeat (unfold Rmax, Rmin; repeat destruct Rle_dec; try lra). }
  destruct r as [T|e]; [|discriminate HS]. destruct T as [|U [|L [|q T]]]; try discriminate HS. cbn in HS. injection HS; intros _ E. exists U, L. split; [reflexivity|]. split; [exact E|exact V].
Qed.
Lemma demo_permute_values : forall ke, exists U L, t_clone_forward ke Box IBP IBP (block_net (TPermute [2%nat; 1%nat])) [2%nat] block_batch = Ok [U; L] /\ nd_shape U = [2; 2; 2]%nat /\
  nd_data U 1 = 3 /\ nd_data U 2 = 2 /\ nd_data L 1 = 0 /\ nd_data U 5 = 2 /\ nd_data L 5 = 1.
Proof.
  intros ke. set (r := t_clone_forward ke Box IBP IBP (block_net (TPermute [2%nat; 1%nat])) [2%nat] block_batch).
  assert (HS : shapes_of r = [[2; 2; 2]%nat; [2; 2; 2]%nat]) by reflexivity.
  assert (V : entry r 0 1 = 3 /\ entry r 0 2 = 2 /\ entry r 1 1 = 0 /\ entry r 0 5 = 2 /\ entry r 1 5 = 1).
  { unfold r. repeat split; lazy -[Rmax Rmin Rplus Rmult Rminus Ropp IZR Rlt Rle Rdiv Rinv sqrt]; reflexivity. }
  destruct r as [T|e]; [|discriminate HS]. destruct T as [|U [|L [|q T]]]; try discriminate HS. cbn in HS. injection HS; intros _ E. exists U, L. split; [reflexivity|]. split; [exact E|exact V].
Qed.
