(** Concrete networks meeting the hypotheses of the theorems on whole networks. *)
From Coq Require Import Reals List Arith Bool ZArith Lra Lia Psatz Sorting.Permutation.
From Verif Require Import RLib Spec Spec_Layers Spec_Backward Spec_Convert M_Core M_Utils M_MergeLayers M_Ops M_Layers M_Pool M_Backward M_Crown M_Convert
  P_Core P_Utils P_Backward P_BackwardOps P_BackwardMore P_Crown P_Convert P_ConvertThm Spec_Network M_Network P_Network P_NetworkSpec P_NetworkCrown.
Import ListNotations.
Local Open Scope R_scope.

(** An image of 3 x 3 pixels: Conv2D (2 x 2), BatchNormalization, relu; then a maximum pooling on one side, Dense on the
    other side; both concatenated *)
Definition w3 : win := mk_win 3 2 1 1 false.
Definition w2 : win := mk_win 2 2 1 1 false.
Definition ex_conv : conv_geo := mk_geo true w3 w3 1 1.
Definition ex_pool : conv_geo := mk_geo true w2 w2 1 1.
Definition image_net (kernel : kernel4) (bias : vec) (gamma mean : vec) (dense : mat) : network :=
  [(None, []);
   (Some (NConv2D ex_conv kernel (Some bias)), [0%nat]);
   (Some (NBatchNorm [2%nat; 2%nat] 1 [] (-1) (Some gamma) None mean (fun _ => 3) 1), [1%nat]);
   (Some (NActivation Arelu 4), [2%nat]);
   (Some (NMaxPool ex_pool), [3%nat]);
   (Some (NFlatten false 1 1), [4%nat]);
   (Some (NFlatten false 1 4), [3%nat]);
   (Some (NDense 1 4 2 dense None), [6%nat]);
   (Some (NConcatenate [] [] [1%nat; 2%nat] 1), [5%nat; 7%nat])].

Definition plain (o : lopts) : Prop := lo_ft o = None /\ lo_fast o = false.

Ltac each_node H := match type of H with nth_error _ ?i = Some _ =>
  repeat (destruct i as [|i]; cbn [nth_error] in H; [injection H; clear H; intros; subst|]); try (destruct i; discriminate H) end;
  try discriminate; match goal with H : Some _ = Some _ |- _ => injection H; clear H; intros; subst | _ => idtac end.

Lemma image_net_ok : forall kernel bias gamma mean dense, net_ok 9 (image_net kernel bias gamma mean dense).
Proof.
  intros kernel bias gamma mean dense i o ps E. unfold image_net in E. each_node E;
    (split; [intros p Hp; cbn in Hp; lia|]); try reflexivity; (split; [discriminate|reflexivity]).
Qed.

Lemma image_layers_ok : forall opts kernel bias gamma mean dense, (forall i, plain (opts i)) -> layers_ok IBP opts (image_net kernel bias gamma mean dense).
Proof.
  intros opts kernel bias gamma mean dense Ho i L ps E. destruct (Ho i) as [Hf Hb]. rewrite Hf, Hb. split; [|exact I]. unfold image_net in E.
  each_node E; cbn -[IZR]; auto; try lia.
  - split; [intros; apply Rplus_lt_0_compat; [apply (IZR_lt 0 3)|apply (IZR_lt 0 1)]; lia|auto].
  - split; [discriminate|auto].
Qed.

Ltac step x := eapply leads_step with (k := x); [cbn; reflexivity|cbn; auto|].
Lemma image_output : forall kernel bias gamma mean dense, single_output (image_net kernel bias gamma mean dense) 8.
Proof.
  intros kernel bias gamma mean dense. split; [cbn; lia|]. intros j Hj. cbn in Hj.
  assert (H8 : leads_to (map snd (image_net kernel bias gamma mean dense)) 8 8) by constructor.
  assert (H7 : leads_to (map snd (image_net kernel bias gamma mean dense)) 8 7) by (step 8%nat; assumption).
  assert (H6 : leads_to (map snd (image_net kernel bias gamma mean dense)) 8 6) by (step 7%nat; assumption).
  assert (H5 : leads_to (map snd (image_net kernel bias gamma mean dense)) 8 5) by (step 8%nat; assumption).
  assert (H4 : leads_to (map snd (image_net kernel bias gamma mean dense)) 8 4) by (step 5%nat; assumption).
  assert (H3 : leads_to (map snd (image_net kernel bias gamma mean dense)) 8 3) by (step 4%nat; assumption).
  assert (H2 : leads_to (map snd (image_net kernel bias gamma mean dense)) 8 2) by (step 3%nat; assumption).
  assert (H1 : leads_to (map snd (image_net kernel bias gamma mean dense)) 8 1) by (step 2%nat; assumption).
  assert (H0 : leads_to (map snd (image_net kernel bias gamma mean dense)) 8 0) by (step 1%nat; assumption).
  do 9 (destruct j as [|j]; [assumption|]). lia.
Qed.

Lemma image_value : forall kernel bias gamma mean dense, net_value (image_net kernel bias gamma mean dense) (net_fn (image_net kernel bias gamma mean dense)).
Proof.
  intros kernel bias gamma mean dense. apply (net_value_exists 9); [apply image_net_ok|]. intros i L ps E. exists IBP, false.
  apply (image_layers_ok (fun _ => mk_opts V_SLOPE None false) kernel bias gamma mean dense (fun _ => conj eq_refl eq_refl) i L ps E).
Qed.

(** so the converted network bounds the network, over a box and over a ball *)
Lemma image_clone : forall ke D opts kernel bias gamma mean dense z, 0 < ke -> norm_ok D -> (forall i, plain (opts i)) -> exists v u l,
  net_value (image_net kernel bias gamma mean dense) v /\
  clone_forward D 9 IBP IBP (decomon_net ke (mk_spec false IBP D 9) opts (image_net kernel bias gamma mean dense)) [8%nat] z = Ok [u; l] /\
  forall y j, in_dom D 9 z y -> (j < 3)%nat -> l 0%nat j <= v 8%nat y j <= u 0%nat j.
Proof.
  intros ke D opts kernel bias gamma mean dense z Hke HD Ho. exists (net_fn (image_net kernel bias gamma mean dense)).
  destruct (net_clone_ibp ke D 9 z opts (image_net kernel bias gamma mean dense) (net_fn (image_net kernel bias gamma mean dense)) 8) as (u & l & E & H);
    auto using image_net_ok, image_layers_ok, image_output, image_value; try lia.
  exists u, l. split; [apply image_value|]. split; [exact E|exact H].
Qed.

(** A residual network without activation, in every mode *)
Definition lin_net (n : nat) (kernel : mat) (bias : option vec) : network :=
  [(None, []); (Some (NDense 1 n n kernel bias), [0%nat]); (Some (NAdd n 2), [1%nat; 0%nat])].
Lemma lin_net_ok : forall n kernel bias, (0 < n)%nat -> net_ok n (lin_net n kernel bias).
Proof.
  intros n kernel bias Hn i o ps E. unfold lin_net in E. each_node E; (split; [intros p Hp; cbn in Hp; lia|]); try reflexivity; (split; [discriminate|cbn; rewrite ?Nat.add_0_r; reflexivity]).
Qed.
Lemma lin_layers_ok : forall mode opts n kernel bias, (0 < n)%nat -> (forall i, plain (opts i)) -> layers_ok mode opts (lin_net n kernel bias).
Proof.
  intros mode opts n kernel bias Hn Ho i L ps E. destruct (Ho i) as [Hf Hb]. rewrite Hf, Hb. split; [|exact I]. unfold lin_net in E.
  each_node E; cbn; auto; lia.
Qed.
Lemma lin_output : forall n kernel bias, single_output (lin_net n kernel bias) 2.
Proof.
  intros n kernel bias. split; [cbn; lia|]. intros j Hj. cbn in Hj. destruct j as [|[|[|]]]; [step 2%nat; constructor|step 2%nat; constructor|constructor|lia].
Qed.
Definition lin_value (n : nat) (kernel : mat) (bias : option vec) (i : nat) (y : vec) : vec :=
  match i with O => y | 1%nat => keras_dense n n kernel (opt_vec 0 bias) y | _ => fun j => keras_dense n n kernel (opt_vec 0 bias) y j + y j end.
Lemma lin_net_value : forall n kernel bias, (0 < n)%nat -> net_value (lin_net n kernel bias) (lin_value n kernel bias).
Proof.
  intros n kernel bias Hn y i o ps E. unfold lin_net in E. each_node E; cbn [lin_value].
  - reflexivity.
  - intros p u Hp Hu. unfold keras_dense. rewrite Nat.div_add_l, Nat.div_small by lia. replace ((p * n + u) mod n)%nat with u; [|rewrite Nat.add_comm, Nat.mod_add, Nat.mod_small by lia; reflexivity].
    rewrite Nat.add_0_r. reflexivity.
  - intros j Hj. cbn. lra.
Qed.
Lemma lin_clone : forall ke D n mode opts kernel bias z, 0 < ke -> (0 < n)%nat -> norm_ok D -> (exists y, in_dom D n z y) -> (forall i, plain (opts i)) ->
  exists ts, clone_forward D n mode mode (decomon_net ke (mk_spec false mode D n) opts (lin_net n kernel bias)) [2%nat] z = Ok ts /\
    valid D mode false (in_dom D n z) n n (fun y j => keras_dense n n kernel (opt_vec 0 bias) y j + y j) ts.
Proof.
  intros ke D n mode opts kernel bias z Hke Hn HD Hne Ho.
  apply (net_clone_free ke D n mode mode z opts (lin_net n kernel bias) (lin_value n kernel bias) 2); auto using lin_net_ok, lin_layers_ok, lin_output, lin_net_value.
  intros i L ps E. unfold lin_net in E. each_node E; exact I.
Qed.

(** Dense (x 2), relu, Dense (x 3) over [-1, 1] with crown *)
Definition chain_net : network :=
  [(None, []); (Some (NDense 1 1 1 (fun _ _ => 2) None), [0%nat]); (Some (NActivation Arelu 1), [1%nat]); (Some (NDense 1 1 1 (fun _ _ => 3) None), [2%nat])].
Definition chain_value (i : nat) (y : vec) : vec :=
  match i with O => y | 1%nat => fun _ => 2 * y 0%nat | 2%nat => fun _ => Rmax (2 * y 0%nat) 0 | _ => fun _ => 3 * Rmax (2 * y 0%nat) 0 end.
Definition unit_box : tensor := fun c _ => if Nat.eqb c 0 then -1 else 1.

Lemma chain_ok : net_ok 1 chain_net.
Proof. intros i o ps E. unfold chain_net in E. each_node E; (split; [intros p Hp; cbn in Hp; lia|]); try reflexivity; (split; [discriminate|reflexivity]). Qed.
Lemma chain_net_value : net_value chain_net chain_value.
Proof.
  intros y i o ps E. unfold chain_net in E. each_node E; cbn [chain_value].
  - reflexivity.
  - intros p u Hp Hu. replace p with O by lia. replace u with O by lia. cbn. ring.
  - intros j Hj. reflexivity.
  - intros p u Hp Hu. replace p with O by lia. replace u with O by lia. cbn. ring.
Qed.
Lemma chain_layers : blayers_ok (fun _ => mk_bopts V_SLOPE None) chain_net.
Proof. intros i L ps E. unfold chain_net in E. each_node E; (split; [|exact I]); cbn; auto; lia. Qed.
Lemma chain_output : single_output chain_net 3.
Proof.
  split; [cbn; lia|]. intros j Hj. cbn in Hj. destruct j as [|[|[|[|]]]]; [step 1%nat; step 2%nat; step 3%nat; constructor|step 2%nat; step 3%nat; constructor|step 3%nat; constructor|constructor|lia].
Qed.

Lemma chain_crown : forall ke, 0 < ke <= 1 -> exists u l,
  clone_backward Box 1 IBP IBP None [0%nat; 1%nat; 2%nat; 3%nat] (backward_net ke (mk_spec false IBP Box 1) (fun _ => mk_bopts V_SLOPE None) 1 chain_net) [3%nat] None unit_box = Ok [u; l] /\
  forall y, -1 <= y 0%nat <= 1 -> l 0%nat 0%nat <= 3 * Rmax (2 * y 0%nat) 0 <= u 0%nat 0%nat.
Proof.
  intros ke Hke.
  destruct (net_clone_crown ke Box 1 IBP IBP unit_box [0%nat; 1%nat; 2%nat; 3%nat] (fun _ => mk_bopts V_SLOPE None) chain_net chain_value 3) as (ts & E & [Hl V]);
    auto using chain_ok, chain_net_value, chain_layers, chain_output; try lra; try (cbn; lia); try exact I.
  - repeat constructor; cbn; intuition discriminate.
  - intros its i L ps imap ts Ei En g Eg Et. injection Ei as <-. unfold chain_net in En. each_node En; try exact I.
    cbn [bl_gaps]. intros r Er j Hj. replace j with O by lia. revert Eg Et Er. subst g.
    cbv -[Rmax Rmin Rplus Rmult Rminus Ropp IZR Rlt Rle Rdiv Rinv]. intros Eg. injection Eg as <-. intros Et. injection Et as <-. intros Er. injection Er as <-.
    cbv -[Rmax Rmin Rplus Rmult Rminus Ropp IZR Rlt Rle Rdiv Rinv]. rminmax. lra.
  - destruct ts as [|u [|l [|]]]; try discriminate Hl. exists u, l. split; [exact E|]. intros y Hy.
    apply (V y 0%nat); [|cbn; lia]. intros i Hi. replace i with O by lia. exact Hy.
Qed.

(** relu alone, over an interval around 0 shorter than epsilon: the affine bound returned by the converted network is wrong *)
Definition relu_net : network := [(None, []); (Some (NActivation Arelu 1), [0%nat])].
Definition relu_value (i : nat) (y : vec) : vec := match i with O => y | _ => fun _ => Rmax (y 0%nat) 0 end.
Definition small_box (ke : R) : tensor := fun c _ => if Nat.eqb c 0 then - (ke / 4) else ke / 4.
Lemma relu_net_ok : net_ok 1 relu_net /\ net_value relu_net relu_value /\ single_output relu_net 1.
Proof.
  split; [|split].
  - intros i o ps E. unfold relu_net in E. each_node E; (split; [intros p Hp; cbn in Hp; lia|]); try reflexivity; (split; [discriminate|reflexivity]).
  - intros y i o ps E. unfold relu_net in E. each_node E; cbn [relu_value]; [reflexivity|]. intros j Hj. replace j with O by lia. reflexivity.
  - split; [cbn; lia|]. intros j Hj. cbn in Hj. destruct j as [|[|]]; [step 1%nat; constructor|constructor|lia].
Qed.

Ltac small_relu ke :=
    replace (0 + (Rmax 1 0 * - (ke / 4) + Rmin 1 0 * (ke / 4)) + 0) with (- (ke / 4)) by (rminmax; lra);
    replace (0 + (Rmax 1 0 * (ke / 4) + Rmin 1 0 * - (ke / 4)) + 0) with (ke / 4) by (rminmax; lra);
    replace (Rmax ke (ke / 4 - - (ke / 4))) with ke by (rminmax; lra);
    replace (Rmax (ke / 4) 0) with (ke / 4) by (rminmax; lra);
    replace (Rmax (- (ke / 4)) 0) with 0 by (rminmax; lra);
    replace ((ke / 4 - 0) / ke) with (1 / 4) by (field; lra);
    repeat match goal with |- context [Rlt_dec ?a ?b] => destruct (Rlt_dec a b); try (exfalso; lra) end;
    rminmax; lra.

Lemma relu_net_crown_wrong : forall ke, 0 < ke -> exists u l y,
  clone_backward Box 1 IBP IBP None [0%nat; 1%nat] (backward_net ke (mk_spec false IBP Box 1) (fun _ => mk_bopts V_SLOPE None) 1 relu_net) [1%nat] None (small_box ke) = Ok [u; l] /\
  in_dom Box 1 (small_box ke) y /\ u 0%nat 0%nat < relu_value 1 y 0%nat.
Proof.
  intros ke Hke. eexists. eexists. exists (fun _ => ke / 4). split.
  - cbv -[Rmax Rmin Rplus Rmult Rminus Ropp IZR Rlt Rle Rdiv Rinv Req_EM_T]. destruct (Req_EM_T 0 0) as [_|N]; [|congruence]. reflexivity.
  - split; [intros i Hi; cbn; lra|]. cbv -[Rmax Rmin Rplus Rmult Rminus Ropp IZR Rlt Rle Rdiv Rinv].
    small_relu ke.
Qed.

Lemma relu_net_affine_wrong : forall ke, 0 < ke -> exists u l y,
  clone_forward Box 1 AFFINE IBP (decomon_net ke (mk_spec false AFFINE Box 1) (fun _ => mk_opts V_SLOPE None false) relu_net) [1%nat] (small_box ke) = Ok [u; l] /\
  in_dom Box 1 (small_box ke) y /\ u 0%nat 0%nat < relu_value 1 y 0%nat.
Proof.
  intros ke Hke. eexists. eexists. exists (fun _ => ke / 4). split.
  - cbv -[Rmax Rmin Rplus Rmult Rminus Ropp IZR Rlt Rle Rdiv Rinv Req_EM_T]. try (destruct (Req_EM_T 0 0) as [_|N]; [|congruence]). reflexivity.
  - split; [intros i Hi; cbn; lra|]. cbv -[Rmax Rmin Rplus Rmult Rminus Ropp IZR Rlt Rle Rdiv Rinv].
    small_relu ke.
Qed.
