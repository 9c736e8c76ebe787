(** Proofs about set_domain (C44) *)
From Coq Require Import String Ascii Reals List Arith Bool ZArith Lia Lra.
From Verif Require Import RLib Spec Spec_Layers M_Core M_Utils M_MergeLayers M_Ops M_Layers M_Convert M_State Spec_State P_Core P_Utils P_Layers P_Convert P_BackwardMore.
Import ListNotations.
Local Open Scope R_scope.

(** no pre-activation interval is narrower than epsilon while straddling zero, at each relu *)
Fixpoint run_gaps (ke : R) (mode : fmode) (n : nat) (m : nat) (ls : list dlayer) (ts : list tensor) : Prop :=
  match ls with
  | [] => True
  | l :: q =>
      match dl_op l with
      | DDense _ units _ _ => forall ts', dlayer_call ke mode n l ts = Ok ts' -> run_gaps ke mode n units q ts'
      | DRelu _ => gaps_ok ke (mk_spec false mode (dl_attr l) n) m ts /\
                   forall ts', dlayer_call ke mode n l ts = Ok ts' -> run_gaps ke mode n m q ts'
      end
  end.
Definition input_gaps (ke : R) (M : dmodel) (z : tensor) : Prop :=
  forall its, get_input_tensors (Some (dm_input M)) (dm_mode M) (dm_n M) z = Ok its ->
    run_gaps ke (dm_mode M) (dm_n M) (dm_n M) (dm_layers M) its.

(** outside the hybrid mode the dense layer does not read its domain *)
Lemma dense_domain : forall mode n D D' d units kernel bias ts, mode <> HYBRID ->
  decomon_dense (mk_spec false mode D n) d units kernel bias false None ts = decomon_dense (mk_spec false mode D' n) d units kernel bias false None ts.
Proof.
  intros mode n D D' d units kernel bias ts H. unfold decomon_dense, get_fullinputs_r. cbn [sp_mode sp_dc].
  destruct (unpack empty_tensor mode false ts) as [r|e]; [|reflexivity]. cbn [bind].
  destruct mode; try congruence; unfold complete_r, dense_full; cbn; reflexivity.
Qed.
Definition lay (D D' : domain) (o : dop) : dlayer := mk_dlayer o D' D.
Lemma dlayers_sound : forall ke mode n D D' ops (S : vec -> Prop) m m' f ts, 0 < ke -> (0 < n)%nat -> dom_ok D' mode ->
  (mode <> HYBRID \/ D = D') -> ops_dim m ops m' ->
  valid D' mode false S n m f ts -> run_gaps ke mode n m (map (lay D D') ops) ts ->
  exists out, dlayers_call ke mode n (map (lay D D') ops) ts = Ok out /\ valid D' mode false S n m' (fun z => ops_fn ops (f z)) out.
Proof.
  intros ke mode n D D' ops. induction ops as [|o q IH]; intros S m m' f ts Hke Hn Hd HM Hdim V G.
  - cbn in Hdim. subst. exists ts. split; [reflexivity|exact V].
  - unfold dlayers_call. cbn [map foldR].
    destruct o as [d units kernel bias|sl]; cbn [ops_dim] in Hdim.
    + destruct Hdim as (-> & Hu & Hdim).
      assert (E0 : dlayer_call ke mode n (lay D D' (DDense d units kernel bias)) ts = decomon_dense (mk_spec false mode D' n) d units kernel bias false None ts).
      { unfold dlayer_call, lay. cbn [dl_op dl_spec]. destruct HM as [HM| ->]; [apply dense_domain; exact HM|reflexivity]. }
      destruct (dense_sound (mk_spec false mode D' n) 1 d units kernel bias S f ts Hn Hd Hu) as (out & E & V'); [rewrite Nat.mul_1_l; exact V|].
      rewrite Nat.mul_1_l in V'. rewrite E0, E. cbn [bind]. cbn [map run_gaps lay dl_op] in G. specialize (G out ltac:(change (dlayer_call ke mode n (lay D D' (DDense d units kernel bias)) ts = Ok out); rewrite E0; exact E)).
      exact (IH S units m' _ out Hke Hn Hd HM Hdim V' G).
    + cbn [map run_gaps lay dl_op dl_attr] in G. destruct G as [G1 G2].
      destruct (relu_sound ke (mk_spec false mode D' n) sl None S m f ts Hke Hn Hd I V G1) as (out & E & V').
      assert (E0 : dlayer_call ke mode n (lay D D' (DRelu sl)) ts = Ok out) by exact E.
      rewrite E0. cbn [bind]. specialize (G2 out E0).
      exact (IH S m m' _ out Hke Hn Hd HM Hdim V' G2).
Qed.

Lemma same_type_trans : forall A B C, same_type A B = true -> same_type B C = true -> same_type A C = true.
Proof. intros [|] [|] [|]; cbn; auto. Qed.
Lemma same_type_neq : forall A B C, same_type A B = false -> same_type B C = true -> same_type A C = false.
Proof. intros [|] [|] [|]; cbn; auto. Qed.
(** the shape of a model after any history *)
Lemma set_domains_shape : forall Ds D mode n ops m, set_domains Ds (new_model D mode n ops) = Ok m ->
  exists D', m = mk_dmodel D' mode n D (map (lay D D') ops) /\ same_type D' D = true /\ (D = Box -> D' = Box).
Proof.
  intros Ds D mode n ops m.
  assert (K : forall Ds D1 m, same_type D1 D = true -> (D = Box -> D1 = Box) -> set_domains Ds (mk_dmodel D1 mode n D (map (lay D D1) ops)) = Ok m ->
     exists D', m = mk_dmodel D' mode n D (map (lay D D') ops) /\ same_type D' D = true /\ (D = Box -> D' = Box)).
  { clear. induction Ds as [|A q IH]; intros D1 m H1 H2 H.
    - inversion H; subst. eauto.
    - unfold set_domains in *. cbn [foldR] in H. unfold set_domain at 1 in H. cbn [dm_domain] in H. destruct (same_type A D1) eqn:E; [|discriminate]. cbn [bind] in H.
      cbn [dm_mode dm_n dm_input dm_layers] in H. rewrite map_map in H. apply (IH A m); [apply (same_type_trans A D1); assumption| |exact H].
      intros HD. specialize (H2 HD). subst. destruct A; [reflexivity|discriminate]. }
  intros H. apply (K Ds D m); auto.
  destruct D; reflexivity.
Qed.
Lemma set_domains_error : forall Ds D mode n ops e, set_domains Ds (new_model D mode n ops) = Err e ->
  e = NotImplementedError /\ exists D', In D' Ds /\ same_type D' D = false.
Proof.
  intros Ds D mode n ops e.
  assert (K : forall Ds M, same_type (dm_domain M) D = true -> set_domains Ds M = Err e -> e = NotImplementedError /\ exists D', In D' Ds /\ same_type D' D = false).
  { clear. induction Ds as [|A q IH]; intros M H1 H; [discriminate|].
    unfold set_domains in *. cbn [foldR] in H. unfold set_domain at 1 in H. destruct (same_type A (dm_domain M)) eqn:E.
    - cbn [bind] in H. apply IH in H; [|apply (same_type_trans A (dm_domain M)); assumption]. destruct H as (-> & D' & I & N).
      split; [reflexivity|]. exists D'. split; [right; exact I|exact N].
    - inversion H; subst. split; [reflexivity|]. exists A. split; [left; reflexivity|].
      apply (same_type_neq A (dm_domain M)); assumption. }
  apply K. destruct D; reflexivity.
Qed.
Lemma set_domains_ok : forall Ds D mode n ops, (forall D', In D' Ds -> same_type D' D = true) ->
  exists m, set_domains Ds (new_model D mode n ops) = Ok m.
Proof.
  intros Ds D mode n ops H. destruct (set_domains Ds (new_model D mode n ops)) as [m|e] eqn:E; [eauto|].
  exfalso. apply set_domains_error in E. destruct E as (_ & D' & I & N). rewrite (H D' I) in N. discriminate.
Qed.

(** the last domain given is the one the model reports *)
Lemma set_domains_last : forall Ds A D mode n ops m, set_domains (Ds ++ [A]) (new_model D mode n ops) = Ok m -> dm_domain m = A.
Proof.
  intros Ds A D mode n ops m. generalize (new_model D mode n ops). unfold set_domains. induction Ds as [|B q IH]; intros M H; cbn [foldR app] in H.
  - unfold set_domain in H. destruct (same_type _ _); [|discriminate]. cbn [bind] in H. inversion H; reflexivity.
  - destruct (set_domain M B) as [M1|]; [|discriminate]. cbn [bind] in H. exact (IH M1 H).
Qed.

Lemma set_domain_box : forall ke Ds mode n ops m m' z, 0 < ke -> (0 < n)%nat -> ops_dim n ops m' ->
  set_domains Ds (new_model Box mode n ops) = Ok m -> input_gaps ke m z ->
  exists out, predict ke m z = Ok out /\ valid Box mode false (in_dom Box n z) n m' (ops_fn ops) out.
Proof.
  intros ke Ds mode n ops m m' z Hke Hn Hdim H G. destruct (set_domains_shape _ _ _ _ _ _ H) as (D' & -> & _ & B). rewrite (B eq_refl) in *.
  destruct (input_tensors_ok Box mode n z Hn ltac:(intros; exact I)) as (its & E & V).
  unfold predict. cbn [dm_input dm_mode dm_n dm_layers]. rewrite E. cbn [bind].
  apply (dlayers_sound ke mode n Box Box ops (in_dom Box n z) n m' (fun y => y) its); auto.
  - destruct mode; exact I.
Qed.

Lemma set_domain_affine : forall ke Ds eps p n ops m m' z, 0 < ke -> (0 < n)%nat -> ops_dim n ops m' ->
  set_domains Ds (new_model (Ball eps p) AFFINE n ops) = Ok m -> norm_ok (dm_domain m) -> input_gaps ke m z ->
  exists out, predict ke m z = Ok out /\ valid (dm_domain m) AFFINE false (in_dom (dm_domain m) n z) n m' (ops_fn ops) out.
Proof.
  intros ke Ds eps p n ops m m' z Hke Hn Hdim H N G. destruct (set_domains_shape _ _ _ _ _ _ H) as (D' & -> & T & _).
  cbn [dm_domain] in *. destruct D' as [|eps' p']; [discriminate|].
  destruct (input_tensors_ok (Ball eps' p') AFFINE n z Hn ltac:(discriminate)) as (its & E & V).
  assert (E' : get_input_tensors (Some (Ball eps p)) AFFINE n z = Ok its) by (rewrite <- E; destruct p, p'; reflexivity).
  unfold predict. cbn [dm_input dm_mode dm_n dm_layers]. rewrite E'. cbn [bind].
  apply (dlayers_sound ke AFFINE n (Ball eps p) (Ball eps' p') ops (in_dom (Ball eps' p') n z) n m' (fun y => y) its); auto.
  - left; discriminate.
Qed.

Lemma run_gaps_ibp : forall ke n D D' ops k ts, run_gaps ke IBP n k (map (lay D D') ops) ts.
Proof.
  intros ke n D D'. induction ops as [|o q IH]; intros k ts; cbn [map run_gaps]; [exact I|].
  destruct o; cbn [lay dl_op]; [intros; apply IH|]. split; [apply gaps_ok_ibp; reflexivity|]. intros; apply IH.
Qed.
Lemma in_ball_mono : forall n p eps eps' c z, eps' <= eps -> in_ball n p eps' c z -> in_ball n p eps c z.
Proof.
  intros n [k|] eps eps' c z H I; cbn in *.
  - destruct I as [P I]. split; [lra|]. eapply Rle_trans; [exact I|]. apply pow_incr. lra.
  - intros i Hi. specialize (I i Hi). lra.
Qed.
Lemma set_domain_ibp : forall ke Ds eps p eps' n ops m m' z, 0 < ke -> (0 < n)%nat -> ops_dim n ops m' -> norm_ok (Ball eps p) ->
  set_domains Ds (new_model (Ball eps p) IBP n ops) = Ok m -> dm_domain m = Ball eps' p -> eps' <= eps ->
  exists out, predict ke m z = Ok out /\ valid (dm_domain m) IBP false (in_dom (dm_domain m) n z) n m' (ops_fn ops) out.
Proof.
  intros ke Ds eps p eps' n ops m m' z Hke Hn Hdim N H E1 Hle. destruct (set_domains_shape _ _ _ _ _ _ H) as (D' & -> & T & _).
  cbn [dm_domain] in *. subst D'.
  destruct (input_tensors_ok (Ball eps p) IBP n z Hn ltac:(intros; exact N)) as (its & E & V).
  unfold predict. cbn [dm_input dm_mode dm_n dm_layers]. rewrite E. cbn [bind].
  assert (V' : valid (Ball eps' p) IBP false (in_dom (Ball eps' p) n z) n n (fun y => y) its).
  { unfold valid in *. destruct V as [L V]. split; [exact L|]. destruct its as [|u [|l t]]; try exact V.
    intros y j Hy Hj. apply V; [|exact Hj]. exact (in_ball_mono _ _ _ _ _ _ Hle Hy). }
  apply (dlayers_sound ke IBP n (Ball eps p) (Ball eps' p) ops (in_dom (Ball eps' p) n z) n m' (fun y => y) its); auto.
  - exact I.
  - left; discriminate.
  - apply run_gaps_ibp.
Qed.
(** in ibp mode predict ignores set_domain altogether *)
Lemma predict_ibp_same : forall ke Ds D n ops m z, set_domains Ds (new_model D IBP n ops) = Ok m ->
  predict ke m z = predict ke (new_model D IBP n ops) z.
Proof.
  intros ke Ds D n ops m z H. destruct (set_domains_shape _ _ _ _ _ _ H) as (D' & -> & _ & _). unfold predict, new_model. cbn [dm_input dm_mode dm_n dm_layers].
  destruct (get_input_tensors _ _ _ _) as [its|]; [|reflexivity]. cbn [bind]. clear H. revert its.
  induction ops as [|o q IH]; intros its; [reflexivity|]. unfold dlayers_call in *. cbn [map foldR].
  assert (X : dlayer_call ke IBP n (lay D D' o) its = dlayer_call ke IBP n (mk_dlayer o D D) its).
  { destruct o; cbn [dlayer_call lay dl_op dl_spec dl_attr]; [reflexivity|]. unfold relu_, get_fullinputs. cbn [sp_mode sp_dc].
    destruct (unpack _ _ _ _); [|reflexivity]. cbn [bind]. unfold complete, relu_full. cbn. reflexivity. }
  rewrite X. destruct (dlayer_call _ _ _ _ _); [|reflexivity]. cbn [bind]. apply IH.
Qed.
(** larger radius: bounds violated *)
Lemma set_domain_ibp_refuted : exists ke m z y u l,
  set_domain (new_model (Ball 1 Pinf) IBP 1 [DRelu V_SLOPE]) (Ball 2 Pinf) = Ok m /\
  predict ke m z = Ok [u; l] /\ in_dom (dm_domain m) 1 z y /\ u 0%nat 0%nat < ops_fn [DRelu V_SLOPE] y 0%nat.
Proof.
  exists (1/10). eexists. exists (fun _ _ => 0), (fun _ => 2). do 2 eexists. split; [reflexivity|]. split; [reflexivity|]. split.
  - intros i Hi. cbn. rewrite Rabs_right; lra.
  - cbn. unfold vt. unfold Rrelu. rewrite !Rmax_left by lra. lra.
Qed.
Lemma set_domain_hybrid_refuted : exists ke m z y ts u,
  set_domain (new_model (Ball 1 Pinf) HYBRID 1 [DDense 1 1 (fun _ _ => 1) None]) (Ball 2 Pinf) = Ok m /\
  predict ke m z = Ok ts /\ nth_error ts 1 = Some u /\ in_dom (dm_domain m) 1 z y /\ u 0%nat 0%nat < ops_fn [DDense 1 1 (fun _ _ => 1) None] y 0%nat.
Proof.
  exists (1/10). eexists. exists (fun _ _ => 0), (fun _ => 2). do 2 eexists. split; [reflexivity|]. split; [reflexivity|]. split; [reflexivity|]. split.
  - intros i Hi. cbn. rewrite Rabs_right; lra.
  - cbv -[Rmax Rmin Rplus Rmult Rminus Ropp IZR Rlt Rle Rdiv Rinv Rabs]. rminmax; lra.
Qed.

(** hybrid mode, smaller radius *)
Lemma dense_head : forall D n d units kernel bias x q out,
  decomon_dense (mk_spec false HYBRID D n) d units kernel bias false None (x :: q) = Ok out -> exists q', out = x :: q'.
Proof.
  intros D n d units kernel bias x q out H. unfold decomon_dense in H.
  destruct (get_fullinputs_r false (mk_spec false HYBRID D n) false true (x :: q)) as [r|] eqn:E; [|discriminate]. cbn [bind] in H.
  assert (X : f_x r = x).
  { unfold get_fullinputs_r in E. destruct (unpack _ _ _ _) as [r0|] eqn:E0; [|discriminate]. cbn [bind] in E.
    assert (X0 : f_x r0 = x).
    { unfold unpack in E0. cbn in E0. do 6 (destruct q as [|? q]; [discriminate|]). inversion E0; reflexivity. }
    unfold complete_r in E. cbn in E.
    destruct (get_upper _ _ _ _ _ _ _) as [u|]; [|discriminate]. cbn [bind] in E. destruct (get_lower _ _ _ _ _ _ _) as [l|]; [|discriminate]. cbn [bind] in E.
    inversion E. exact X0. }
  assert (Y : forall o, dense_full (mk_spec false HYBRID D n) d units kernel bias false None r = Ok o -> f_x o = x).
  { intros o. unfold dense_full. cbn. destruct bias; intros K; inversion K; exact X. }
  destruct (dense_full _ _ _ _ _ _ _ r) as [o|] eqn:Eo; [|discriminate]. cbn [bind] in H. inversion H. cbn. rewrite (Y o eq_refl). eauto.
Qed.
Lemma dlayers_hybrid : forall ke n eps eps' p ops (S : vec -> Prop) m m' f ts, 0 < ke -> (0 < n)%nat -> norm_ok (Ball eps p) -> eps' <= eps ->
  ops_dim m ops m' ->
  valid (Ball eps' p) HYBRID false S n m f ts -> run_gaps ke HYBRID n m (map (lay (Ball eps p) (Ball eps' p)) ops) ts ->
  exists out, dlayers_call ke HYBRID n (map (lay (Ball eps p) (Ball eps' p)) ops) ts = Ok out /\
    valid (Ball eps' p) HYBRID false S n m' (fun z => ops_fn ops (f z)) out.
Proof.
  intros ke n eps eps' p ops. induction ops as [|o q IH]; intros S m m' f ts Hke Hn Hd Hle Hdim V G.
  - cbn in Hdim. subst. exists ts. split; [reflexivity|exact V].
  - unfold dlayers_call. cbn [map foldR].
    destruct o as [d units kernel bias|sl]; cbn [ops_dim] in Hdim.
    + destruct Hdim as (-> & Hu & Hdim).
      assert (V1 : valid (Ball eps p) HYBRID false S n d f ts).
      { destruct V as [L V]. split; [exact L|]. do 7 (destruct ts as [|? ts]; [exact V|]). destruct V as (A & B). split; [|exact B].
        intros z Hz. exact (in_ball_mono _ _ _ _ _ _ Hle (A z Hz)). }
      destruct (dense_sound (mk_spec false HYBRID (Ball eps p) n) 1 d units kernel bias S f ts Hn Hd Hu) as (out & E & V'); [rewrite Nat.mul_1_l; exact V1|].
      rewrite Nat.mul_1_l in V'. cbn [map run_gaps lay dl_op] in G. specialize (G out E).
      assert (V2 : valid (Ball eps' p) HYBRID false S n units (fun z => keras_dense d units kernel (bias_of bias) (f z)) out).
      { destruct ts as [|x ts]; [destruct V as [L _]; discriminate|]. destruct (dense_head _ _ _ _ _ _ _ _ _ E) as (q' & ->).
        destruct V as [L V]. destruct V' as [L' V']. split; [exact L'|].
        do 6 (destruct q' as [|? q']; [exact V'|]). do 6 (destruct ts as [|? ts]; [discriminate|]).
        destruct V as (A & _). destruct V' as (_ & B). split; [exact A|exact B]. }
      assert (E0 : dlayer_call ke HYBRID n (lay (Ball eps p) (Ball eps' p) (DDense d units kernel bias)) ts = Ok out) by exact E.
      rewrite E0. cbn [bind]. exact (IH S units m' _ out Hke Hn Hd Hle Hdim V2 G).
    + cbn [map run_gaps lay dl_op dl_attr] in G. destruct G as [G1 G2].
      destruct (relu_sound ke (mk_spec false HYBRID (Ball eps' p) n) sl None S m f ts Hke Hn Hd I V G1) as (out & E & V').
      assert (E0 : dlayer_call ke HYBRID n (lay (Ball eps p) (Ball eps' p) (DRelu sl)) ts = Ok out) by exact E.
      rewrite E0. cbn [bind]. specialize (G2 out E0).
      exact (IH S m m' _ out Hke Hn Hd Hle Hdim V' G2).
Qed.
Lemma set_domain_hybrid : forall ke Ds eps p eps' n ops m m' z, 0 < ke -> (0 < n)%nat -> ops_dim n ops m' -> norm_ok (Ball eps p) ->
  set_domains Ds (new_model (Ball eps p) HYBRID n ops) = Ok m -> dm_domain m = Ball eps' p -> eps' <= eps -> input_gaps ke m z ->
  exists out, predict ke m z = Ok out /\ valid (dm_domain m) HYBRID false (in_dom (dm_domain m) n z) n m' (ops_fn ops) out.
Proof.
  intros ke Ds eps p eps' n ops m m' z Hke Hn Hdim N H E1 Hle G. destruct (set_domains_shape _ _ _ _ _ _ H) as (D' & -> & T & _).
  cbn [dm_domain] in *. subst D'.
  destruct (input_tensors_ok (Ball eps p) HYBRID n z Hn ltac:(intros; exact N)) as (its & E & V).
  unfold predict. cbn [dm_input dm_mode dm_n dm_layers]. rewrite E. cbn [bind].
  assert (X : exists q, its = z :: q).
  { unfold get_input_tensors in E. destruct p as [k|]; [|inversion E; eexists; reflexivity]. cbn [get_ibp get_affine] in E.
    destruct (get_upper _ _ _ _ _ _ _) as [u|]; [|discriminate]. cbn [bind] in E. destruct (get_lower _ _ _ _ _ _ _) as [l|]; [|discriminate]. cbn [bind] in E.
    inversion E. eexists; reflexivity. }
  destruct X as [q ->].
  assert (V' : valid (Ball eps' p) HYBRID false (in_dom (Ball eps' p) n z) n n (fun y => y) (z :: q)).
  { destruct V as [L V]. split; [exact L|]. do 6 (destruct q as [|? q]; [exact V|]). destruct V as (A & B & C).
    assert (M : forall y, in_dom (Ball eps' p) n z y -> in_dom (Ball eps p) n z y) by (intros y Hy; exact (in_ball_mono _ _ _ _ _ _ Hle Hy)).
    split; [auto|]. split; [intros y j Hy Hj; apply B; auto|intros y j Hy Hj; apply C; auto]. }
  exact (dlayers_hybrid ke n eps eps' p ops (in_dom (Ball eps' p) n z) n m' (fun y => y) (z :: q) Hke Hn N Hle Hdim V' (G _ E)).
Qed.
