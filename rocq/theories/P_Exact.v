(** Linear layers lose nothing: exact affine bounds stay exact, constant bounds are attained. *)
From Coq Require Import Reals Lra Lia Psatz List Arith Bool ZArith Permutation.
From Verif Require Import RLib Spec Spec_Layers M_Core M_Utils M_MergeLayers M_Ops M_Layers.
From Verif Require Import P_Core P_Utils P_MergeLayers P_Axis P_Ops P_Sort P_Layers P_Move.
Import ListNotations.
Local Open Scope R_scope.

Definition ex_full (aff_ : bool) (n m : nat) (r : full tensor) : Prop :=
  aff_ = true -> forall j, (j < m)%nat -> f_bu r 0%nat j = f_bl r 0%nat j /\ forall i, (i < n)%nat -> f_wu r i j = f_wl r i j.

Lemma exact_in : forall sr sp ca ti m ts r, exact_weights (sp_mode sp) (sp_n sp) m ts ->
  get_fullinputs_r sr sp ca ti ts = Ok r -> ex_full (get_affine (sp_mode sp)) (sp_n sp) m r.
Proof.
  intros sr sp ca ti m ts r H E Ha. unfold get_fullinputs_r in E.
  assert (U : exists r0, unpack empty_tensor (sp_mode sp) (sp_dc sp) ts = Ok r0 /\ f_wu r0 = f_wu r /\ f_bu r0 = f_bu r /\ f_wl r0 = f_wl r /\ f_bl r0 = f_bl r).
  { destruct (unpack empty_tensor (sp_mode sp) (sp_dc sp) ts) as [r0|e]; [|discriminate E]. exists r0. split; auto.
    cbn [bind] in E. unfold complete_r in E.
    destruct ((ca && mode_eqb (sp_mode sp) AFFINE) || (ti && mode_eqb (sp_mode sp) HYBRID))%bool; [|injection E; intros <-; auto].
    destruct (get_upper _ _ _ _ _ _ _) as [ua|e]; [|discriminate E]. cbn [bind] in E.
    destruct (get_lower _ _ _ _ _ _ _) as [la|e]; [|discriminate E]. cbn [bind] in E.
    destruct (mode_eqb (sp_mode sp) AFFINE); injection E; intros <-; auto. }
  destruct U as (r0 & U & <- & <- & <- & <-). clear E r.
  unfold exact_weights in H. destruct (sp_mode sp) eqn:Em; cbn in Ha; try discriminate Ha; destruct (sp_dc sp);
    do 9 (try (destruct ts as [|? ts]; [discriminate U|])); cbn in U; injection U; intros <-; exact H.
Qed.

Lemma exact_out : forall mode dc n m r, ex_full (get_affine mode) n m r -> exact_weights mode n m (extract mode dc r).
Proof. intros [] [] n m r H; cbn; auto; apply H; auto. Qed.

Lemma pn_same : forall m mo A Ap An, pn_encl m mo A Ap An -> forall (u l : vec), (forall i, (i < m)%nat -> u i = l i) ->
  forall j, (j < mo)%nat -> Ap u j + An l j = Ap l j + An u j.
Proof.
  intros m mo A Ap An H u l E j Hj.
  pose proof (H u u l ltac:(intros i Hi; rewrite E by auto; lra) j Hj).
  pose proof (H u l u ltac:(intros i Hi; rewrite E by auto; lra) j Hj). lra.
Qed.

Lemma lin_out_exact : forall sp m mo A Ap An ob r o,
  pn_encl m mo A Ap An -> lin_out sp A Ap An ob r o ->
  ex_full (get_affine (sp_mode sp)) (sp_n sp) m r -> ex_full (get_affine (sp_mode sp)) (sp_n sp) mo o.
Proof.
  intros sp m mo A Ap An ob r o H [_ Lo] X Ha j Hj. destruct (Lo Ha) as (_ & Ewu & Ewl & Ebu & Ebl). specialize (X Ha).
  rewrite Ebu, Ebl, Ewu, Ewl. split.
  - pose proof (pn_same m mo A Ap An H (f_bu r 0%nat) (f_bl r 0%nat) ltac:(intros i Hi; apply X; auto) j Hj) as P.
    destruct ob as [b|]; cbn [add_bias]; [rewrite P|]; auto.
  - intros i Hi. apply (pn_same m mo A Ap An H); auto. intros k Hk. apply X; auto.
Qed.

Lemma dense_exact : forall sp rows d units kernel bias ts out, (0 < units)%nat ->
  exact_weights (sp_mode sp) (sp_n sp) (rows * d) ts ->
  decomon_dense sp d units kernel bias false None ts = Ok out ->
  exact_weights (sp_mode sp) (sp_n sp) (rows * units) out.
Proof.
  intros sp rows d units kernel bias ts out Hu H E. unfold decomon_dense in E.
  destruct (get_fullinputs_r false sp false true ts) as [r|e] eqn:Er; [|discriminate E]. cbn [bind] in E.
  destruct (dense_full_out sp d units kernel bias r) as (o & Eo & Lo). rewrite Eo in E. cbn [bind] in E. injection E; intros <-.
  apply exact_out. eapply lin_out_exact; [exact (kdot_encl rows d units kernel Hu)|exact Lo|]. eapply exact_in; eauto.
Qed.

Lemma conv_exact : forall sp g kernel bias ts out, dom_ok (sp_dom sp) (sp_mode sp) ->
  exact_weights (sp_mode sp) (sp_n sp) (im_size (cg_in g)) ts ->
  decomon_conv2d sp g kernel bias false ts = Ok out ->
  exact_weights (sp_mode sp) (sp_n sp) (im_size (cg_out g)) out.
Proof.
  intros sp g kernel bias ts out Hd H E. unfold decomon_conv2d in E.
  destruct (get_fullinputs_r false sp false true ts) as [r|e] eqn:Er; [|discriminate E]. cbn [bind] in E.
  destruct (conv_full_out sp g kernel bias r Hd) as (o & Eo & Lo). rewrite Eo in E. cbn [bind] in E. injection E; intros <-.
  apply exact_out. eapply lin_out_exact; [exact (conv_encl g kernel)|exact Lo|]. eapply exact_in; eauto.
Qed.

(** identity inputs: exact by construction *)
Lemma dense_ident_exact : forall sp units kernel bias ts out,
  decomon_dense sp (sp_n sp) units kernel bias true None ts = Ok out ->
  exact_weights (sp_mode sp) (sp_n sp) units out.
Proof.
  intros sp units kernel bias ts out E. unfold decomon_dense in E.
  destruct (get_fullinputs_r true sp false true ts) as [r|e] eqn:Er; [|discriminate E]. cbn [bind] in E.
  unfold dense_full in E. cbv zeta in E. rewrite andb_false_r in E. 
  assert (X : exists o, Ok o = Ok out /\ exact_weights (sp_mode sp) (sp_n sp) units o); [|destruct X as (o & Eo & X); injection Eo; intros <-; exact X].
  destruct (get_affine (sp_mode sp)) eqn:Ea, (sp_dc sp), bias as [b|]; cbn [bind andb is_some] in E;
    (eexists; split; [exact E|]; apply exact_out; intros Ha j Hj; try congruence; cbn [f_bu f_bl f_wu f_wl when]; auto).
Qed.

Lemma exact_in_raw : forall sp ca ti m ts r, exact_weights (sp_mode sp) (sp_n sp) m ts ->
  get_fullinputs sp ca ti ts = Ok r -> ex_full (get_affine (sp_mode sp)) (sp_n sp) m r.
Proof. intros sp ca ti m ts r H E. rewrite <- get_fullinputs_r_false in E. eapply exact_in; eauto. Qed.

Lemma bn_exact : forall sp s axis gamma beta mean var eps ts out m,
  exact_weights (sp_mode sp) (sp_n sp) m ts ->
  decomon_bn sp s axis gamma beta mean var eps false ts = Ok out ->
  exact_weights (sp_mode sp) (sp_n sp) m out.
Proof.
  intros sp s axis gamma beta mean var eps ts out m H E. unfold decomon_bn in E.
  destruct (get_fullinputs sp false true ts) as [r|e] eqn:Er; [|discriminate E]. cbn [bind] in E.
  destruct (b_axis s axis) as [a|e]; [|discriminate E]. cbn [bind] in E. unfold finish in E.
  destruct (sp_dc sp); [discriminate E|]. injection E; intros <-. apply exact_out.
  pose proof (exact_in_raw _ _ _ _ _ _ H Er) as X. intros Ha j Hj. rewrite Ha. cbn [f_bu f_bl f_wu f_wl when].
  destruct (X Ha j Hj) as [Xb Xw]. rewrite Xb. split; auto. intros i Hi. rewrite Xw by auto. auto.
Qed.

Lemma move_exact : forall sp ca ti m mo idx (op opw : tensor -> tensor) ts r dc,
  (forall j, (j < mo)%nat -> (idx j < m)%nat) ->
  (forall t j, (j < mo)%nat -> op t 0%nat j = t 0%nat (idx j)) ->
  (forall t i j, (i < sp_n sp)%nat -> (j < mo)%nat -> opw t i j = t i (idx j)) ->
  exact_weights (sp_mode sp) (sp_n sp) m ts -> get_fullinputs sp ca ti ts = Ok r ->
  exact_weights (sp_mode sp) (sp_n sp) mo (extract (sp_mode sp) dc (move_full sp op opw r)).
Proof.
  intros sp ca ti m mo idx op opw ts r dc Hi Hop Hw H Er. pose proof (exact_in_raw _ _ _ _ _ _ H Er) as X.
  apply exact_out. intros Ha j Hj. unfold move_full. rewrite Ha. cbn [f_bu f_bl f_wu f_wl when].
  rewrite !Hop by auto. destruct (X Ha (idx j) (Hi j Hj)) as [Xb Xw]. split; auto.
  intros i Hin. rewrite !Hw by auto. auto.
Qed.

Lemma reshape_exact : forall sp m ts out, exact_weights (sp_mode sp) (sp_n sp) m ts ->
  decomon_reshape sp ts = Ok out -> exact_weights (sp_mode sp) (sp_n sp) m out.
Proof.
  intros sp m ts out H E. unfold decomon_reshape in E.
  destruct (get_fullinputs sp false true ts) as [r|e] eqn:Er; [|discriminate E]. cbn [bind] in E. injection E; intros <-.
  eapply (move_exact sp false true m m (fun j => j)); eauto.
Qed.

Lemma permute_exact : forall sp s dims ts out, Permutation dims (seq 1 (length s)) ->
  exact_weights (sp_mode sp) (sp_n sp) (prodn s) ts ->
  decomon_permute sp s dims ts = Ok out -> exact_weights (sp_mode sp) (sp_n sp) (prodn (permuted (map pred dims) s)) out.
Proof.
  intros sp s dims ts out HP H E. unfold decomon_permute in E.
  assert (HP' : Permutation (map pred dims) (seq 0 (length s))).
  { apply (Permutation_map pred) in HP. rewrite <- seq_shift, map_map in HP. cbn in HP. rewrite map_id in HP. auto. }
  destruct (get_fullinputs sp false true ts) as [r|e] eqn:Er; [|discriminate E]. cbn [bind] in E. injection E; intros <-.
  eapply (move_exact sp false true (prodn s) _ (transpose_idx s (map pred dims))); eauto.
  intros j Hj. apply transpose_lt; auto.
Qed.

(** ** interval mode: the constant bounds of Dense are attained inside the box *)
Lemma dense_attained : forall sp d units kernel bias u l out,
  sp_mode sp = IBP -> sp_dc sp = false -> (0 < units)%nat ->
  (forall i, (i < d)%nat -> l 0%nat i <= u 0%nat i) ->
  decomon_dense sp d units kernel bias false None [u; l] = Ok out ->
  exists u' l', out = [u'; l'] /\ forall j, (j < units)%nat ->
    (exists v, (forall i, (i < d)%nat -> l 0%nat i <= v i <= u 0%nat i) /\ keras_dense d units kernel (bias_of bias) v j = u' 0%nat j) /\
    (exists v, (forall i, (i < d)%nat -> l 0%nat i <= v i <= u 0%nat i) /\ keras_dense d units kernel (bias_of bias) v j = l' 0%nat j).
Proof.
  intros sp d units kernel bias u l out Hm Hdc Hu Hlu E. unfold decomon_dense in E.
  destruct (get_fullinputs_r false sp false true [u; l]) as [r|e] eqn:Er; [|discriminate E]. cbn [bind] in E.
  destruct (dense_full_out sp d units kernel bias r) as (o & Eo & [Lo _]). rewrite Eo in E. cbn [bind] in E.
  rewrite Hm, Hdc in *. injection E; intros <-. clear E Eo.
  unfold get_fullinputs_r in Er. rewrite Hm, Hdc in Er. cbn in Er. unfold complete_r in Er. rewrite Hm in Er. cbn in Er.
  injection Er; intros <-. clear Er. destruct (Lo eq_refl) as [Eu El]. cbn [f_uc f_lc] in Eu, El.
  exists (f_uc o), (f_lc o). split; [reflexivity|]. intros j Hj. rewrite Eu, El.
  assert (Q : (j / units = 0)%nat) by (apply Nat.div_small; auto).
  assert (Mj : (j mod units = j)%nat) by (apply Nat.mod_small; auto).
  assert (D : forall v a b : vec,
     (forall c, (c < d)%nat -> v c * kernel c j = a c * kpos kernel c j + b c * kneg kernel c j) ->
     keras_dense d units kernel (bias_of bias) v j =
     add_bias (option_map (tile units) bias) (fun j0 => kdotv d units (kpos kernel) a j0 + kdotv d units (kneg kernel) b j0) j).
  { intros v a b Hv. unfold keras_dense, kdotv. rewrite Q, Mj.
    assert (Es : rsum d (fun c => v (0 * d + c)%nat * kernel c j) = rsum d (fun c => a (0 * d + c)%nat * kpos kernel c j) + rsum d (fun c => b (0 * d + c)%nat * kneg kernel c j)).
    { rewrite <- rsum_plus. apply rsum_ext. intros c Hc. cbn [Nat.mul Nat.add]. auto. }
    destruct bias as [bb|]; cbn [bias_of option_map add_bias]; [unfold tile|]; rewrite Q, Mj, Es; lra. }
  split.
  - exists (fun c => if Rle_dec 0 (kernel c j) then u 0%nat c else l 0%nat c). split.
    + intros i Hi. specialize (Hlu i Hi). destruct (Rle_dec 0 (kernel i j)); lra.
    + apply D. intros c Hc. unfold kpos, kneg. destruct (Rle_dec 0 (kernel c j)).
      * rewrite Rmax_right, Rmin_left by lra. lra.
      * rewrite Rmax_left, Rmin_right by lra. lra.
  - exists (fun c => if Rle_dec 0 (kernel c j) then l 0%nat c else u 0%nat c). split.
    + intros i Hi. specialize (Hlu i Hi). destruct (Rle_dec 0 (kernel i j)); lra.
    + apply D. intros c Hc. unfold kpos, kneg. destruct (Rle_dec 0 (kernel c j)).
      * rewrite Rmax_right, Rmin_left by lra. lra.
      * rewrite Rmax_left, Rmin_right by lra. lra.
Qed.

(** ** Dense with a backward matrix (set_back_bounds): interval mode, no bias *)
Lemma dense_back_sound : forall sp d units kernel back S f ts,
  sp_mode sp = IBP -> sp_dc sp = false -> (0 < units)%nat ->
  op_sp sp S d f ts ->
  exists out, decomon_dense sp d units kernel None false (Some back) ts = Ok out /\
    op_sp sp S units (fun z k => rsum units (fun j => back j k * keras_dense d units kernel (fun _ => 0) (f z) j)) out.
Proof.
  intros sp d units kernel back S f ts Hm Hdc Hu Hv. unfold decomon_dense.
  destruct (get_full_raw sp (sp_dom sp) S d f ts Hv) as (r & E & [C _]).
  assert (E' : get_fullinputs_r false sp false true ts = Ok r).
  { rewrite get_fullinputs_r_false. unfold get_fullinputs in *. rewrite Hm, Hdc in *.
    destruct (unpack empty_tensor IBP false ts) as [r0|e]; [|discriminate E]. cbn [bind] in *. unfold complete in *. rewrite Hm in *. cbn in *. exact E. }
  rewrite E'. cbn [bind]. unfold dense_full. rewrite Hm, Hdc in *. cbn [get_ibp get_affine andb bind when].
  eexists. split; [reflexivity|]. unfold op_sp. rewrite Hm, Hdc. split; [reflexivity|]. cbn.
  intros z j Hz Hj. specialize (C eq_refl).
  pose proof (kdot_encl 1 d units (kback units kernel back) Hu (f z) (f_uc r 0%nat) (f_lc r 0%nat)) as K.
  specialize (K ltac:(intros i Hi; apply C; auto; lia) j ltac:(lia)).
  assert (Q : forall j, (j < units)%nat -> (j / units = 0)%nat) by (intros; apply Nat.div_small; auto).
  assert (Mj : forall j, (j < units)%nat -> (j mod units = j)%nat) by (intros; apply Nat.mod_small; auto).
  assert (Eq : rsum units (fun j0 => back j0 j * keras_dense d units kernel (fun _ => 0) (f z) j0) = kdotv d units (kback units kernel back) (f z) j).
  { unfold kdotv. rewrite Q, Mj by auto. unfold kback.
    rewrite (rsum_ext d _ (fun c => rsum units (fun j0 => f z c * (kernel c j0 * back j0 j)))).
    2:{ intros c Hc. cbn [Nat.mul Nat.add]. rewrite rsum_scal. reflexivity. }
    rewrite rsum_swap. apply rsum_ext. intros j0 Hj0. unfold keras_dense. rewrite Q, Mj by auto. rewrite Rplus_0_r.
    rewrite <- rsum_scal. apply rsum_ext. intros c Hc. cbn [Nat.mul Nat.add]. lra. }
  rewrite Eq. exact K.
Qed.

(** the bias is summed along the wrong axis *)
Lemma dense_back_bias_refuted : exists sp kernel bias back u l out,
  sp_mode sp = IBP /\ sp_dc sp = false /\
  op_sp sp (fun _ => True) 1 (fun _ _ => 0) [u; l] /\
  decomon_dense sp 1 2 kernel (Some bias) false (Some back) [u; l] = Ok out /\
  nth 0 out empty_tensor 0%nat 0%nat < rsum 2 (fun j => back j 0%nat * keras_dense 1 2 kernel bias (fun _ => 0) j).
Proof.
  exists (mk_spec false IBP Box 1), (fun _ _ => 0), (fun j => INR j), (fun _ _ => 1), (fun _ _ => 0), (fun _ _ => 0).
  eexists. split; [reflexivity|]. split; [reflexivity|]. split; [|split; [reflexivity|]].
  - split; [reflexivity|]. cbn. intros z j _ _. lra.
  - cbn. unfold tbias, tile, bback, tadd, ew2, kdot, keras_dense. cbn. unfold kpos, kneg, kback. cbn. rewrite Rmax_left, Rmin_left by lra. lra.
Qed.

(** identity input: the affine weights ignore the backward matrix *)
Lemma dense_back_ident_refuted : exists kernel back ts out z,
  valid_identity Box AFFINE false (fun z => 0 <= z 0%nat <= 1) 1 ts /\ 0 <= z 0%nat <= 1 /\
  decomon_dense (mk_spec false AFFINE Box 1) 1 1 kernel None true (Some back) ts = Ok out /\
  aff 1 (nth 1 out empty_tensor) (nth 2 out empty_tensor 0%nat) z 0%nat <
    rsum 1 (fun j => back j 0%nat * keras_dense 1 1 kernel (fun _ => 0) z j).
Proof.
  exists (fun _ _ => 1), (fun _ _ => 2), [(fun k _ => if Nat.eqb k 0 then 0 else 1); empty_tensor; empty_tensor; empty_tensor; empty_tensor].
  eexists. exists (fun _ => 1). split; [|split; [lra|split; [reflexivity|]]].
  - split; [reflexivity|]. cbn. intros z Hz i Hi. replace i with 0%nat by lia. cbn. auto.
  - cbn. unfold aff, dot, keras_dense, empty_tensor. cbn. lra.
Qed.

Lemma dense_back_errors : forall sp d units kernel bias back ts,
  get_affine (sp_mode sp) = true -> forall r, get_fullinputs_r false sp false true ts = Ok r ->
  decomon_dense sp d units kernel bias false (Some back) ts = Err NotImplementedError.
Proof.
  intros sp d units kernel bias back ts Ha r E. unfold decomon_dense. rewrite E. cbn [bind]. unfold dense_full. rewrite Ha.
  cbn [andb negb is_some]. destruct (sp_dc sp); reflexivity.
Qed.
