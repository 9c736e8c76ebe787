(** Soundness of whole networks up to a multiple of epsilon: constants, tightness and examples. *)
From Coq Require Import Reals Lra Lia Psatz List Arith Bool ZArith.
From Verif Require Import RLib Spec Spec_Layers Spec_Backward Spec_Convert Spec_Network Spec_Near M_Core M_Utils M_Ops M_Layers M_Backward M_Crown M_Convert M_Network.
From Verif Require Import P_Core P_Ops P_Layers P_BackwardMore P_Graph P_Crown P_Convert P_Network P_NetworkSpec P_NetworkCrown P_NetworkThm P_Near.
From Verif Require Import Spec_Network.
Import ListNotations.
Local Open Scope R_scope.

(** constant bounds of the output *)
Lemma net_clone_near_constants : forall ke D n mode z opts net v o,
  0 < ke -> (0 < n)%nat -> norm_ok D -> net_ok n net -> net_value net v -> layers_ok mode opts net -> single_output net o ->
  (forall i L ps, nth_error net i = Some (Some L, ps) -> nl_piecewise L) ->
  exists u l, clone_forward D n mode IBP (decomon_net ke (mk_spec false mode D n) opts net) [o] z = Ok [u; l] /\
    forall y j, in_dom D n z y -> (j < net_dim n net o)%nat -> l 0%nat j - net_slack net * ke <= v o y j <= u 0%nat j + net_slack net * ke.
Proof.
  intros ke D n mode z opts net v o Hke Hn HD Hnet Hval Hlay Ho Hpw.
  destruct (net_clone_near ke D n mode IBP z opts net v o Hke Hn HD (fun _ => eq_refl) Hnet Hval Hlay Ho Hpw) as (ts & E & V).
  destruct ts as [|u [|l [|]]]; try contradiction. exists u, l. split; [exact E|exact V].
Qed.

(** the factor depends on the weights: a relu followed by a Dense layer of weight c is off by c epsilon / 8 *)
Definition gain_net (c : R) : network :=
  [(None, []); (Some (NActivation Arelu 1), [0%nat]); (Some (NDense 1 1 1 (fun _ _ => c) None), [1%nat])].
Definition gain_value (c : R) (i : nat) (y : vec) : vec :=
  match i with O => y | 1%nat => fun _ => Rmax (y 0%nat) 0 | _ => fun _ => c * Rmax (y 0%nat) 0 end.

Lemma gain_net_ok : forall c, net_ok 1 (gain_net c) /\ net_value (gain_net c) (gain_value c) /\ single_output (gain_net c) 2 /\
  (forall i L ps, nth_error (gain_net c) i = Some (Some L, ps) -> nl_piecewise L).
Proof.
  intros c. split; [|split; [|split]].
  - intros i o ps E. unfold gain_net in E. each_node E; (split; [intros p Hp; cbn in Hp; lia|]); try reflexivity; (split; [discriminate|reflexivity]).
  - intros y i o ps E. unfold gain_net in E. each_node E; cbn [gain_value]; [reflexivity| |].
    + intros j Hj. replace j with O by lia. reflexivity.
    + intros p u Hp Hu. replace p with O by lia. replace u with O by lia. cbn. ring.
  - split; [cbn; lia|]. intros j Hj. cbn in Hj.
    destruct j as [|[|[|]]]; [step 1%nat; step 2%nat; constructor|step 2%nat; constructor|constructor|lia].
  - intros i L ps E. unfold gain_net in E. each_node E; cbn; auto.
Qed.

Lemma gain_net_off : forall ke c, 0 < ke -> 0 < c -> exists u l y,
  clone_forward Box 1 AFFINE IBP (decomon_net ke (mk_spec false AFFINE Box 1) (fun _ => mk_opts V_SLOPE None false) (gain_net c)) [2%nat] (small_box ke) = Ok [u; l] /\
  in_dom Box 1 (small_box ke) y /\ u 0%nat 0%nat + c / 8 * ke = gain_value c 2 y 0%nat.
Proof.
  intros ke c Hke Hc. eexists. eexists. exists (fun _ => ke / 4). split.
  - cbv -[Rmax Rmin Rplus Rmult Rminus Ropp IZR Rlt Rle Rdiv Rinv Req_EM_T]. try (destruct (Req_EM_T 0 0) as [_|N]; [|congruence]). reflexivity.
  - split; [intros i Hi; cbn; lra|]. cbv -[Rmax Rmin Rplus Rmult Rminus Ropp IZR Rlt Rle Rdiv Rinv].
    replace (0 + (Rmax 1 0 * - (ke / 4) + Rmin 1 0 * (ke / 4)) + 0) with (- (ke / 4)) by (rminmax; lra).
    replace (0 + (Rmax 1 0 * (ke / 4) + Rmin 1 0 * - (ke / 4)) + 0) with (ke / 4) by (rminmax; lra).
    replace (Rmax ke (ke / 4 - - (ke / 4))) with ke by (rminmax; lra).
    replace (Rmax (ke / 4) 0) with (ke / 4) by (rminmax; lra).
    replace (Rmax (- (ke / 4)) 0) with 0 by (rminmax; lra).
    replace ((ke / 4 - 0) / ke) with (1 / 4) by (field; lra).
    replace (Rmax 0 c) with c by (rminmax; lra). replace (Rmin 0 c) with 0 by (rminmax; lra).
    repeat match goal with |- context [Rlt_dec ?a ?b] => destruct (Rlt_dec a b); try (exfalso; lra) end.
    repeat match goal with
      | |- context [Rmax ?a ?b] => (rewrite (Rmax_left a b) by nra) || (rewrite (Rmax_right a b) by nra)
      | |- context [Rmin ?a ?b] => (rewrite (Rmin_left a b) by nra) || (rewrite (Rmin_right a b) by nra) end.
    lra.
Qed.

Lemma slack_unbounded : forall ke K, 0 < ke -> exists net v o u l y,
  net_ok 1 net /\ net_value net v /\ single_output net o /\ (forall i L ps, nth_error net i = Some (Some L, ps) -> nl_piecewise L) /\
  clone_forward Box 1 AFFINE IBP (decomon_net ke (mk_spec false AFFINE Box 1) (fun _ => mk_opts V_SLOPE None false) net) [o] (small_box ke) = Ok [u; l] /\
  in_dom Box 1 (small_box ke) y /\ u 0%nat 0%nat + K * ke < v o y 0%nat.
Proof.
  intros ke K Hke. set (c := 8 * (Rmax K 0 + 1)). assert (Hc : 0 < c) by (unfold c; pose proof (Rmax_r K 0); lra).
  destruct (gain_net_off ke c Hke Hc) as (u & l & y & E & Hy & Q). destruct (gain_net_ok c) as (H1 & H2 & H3 & H4).
  exists (gain_net c), (gain_value c), 2%nat, u, l, y. repeat (split; [assumption|]). rewrite <- Q.
  assert (K < c / 8) by (unfold c; pose proof (Rmax_l K 0); lra). nra.
Qed.

(** the network with a convolution, a normalisation, a relu, a pooling, a Dense layer and a concatenation, in every mode *)
Lemma image_layers_all : forall mode opts kernel bias gamma mean dense, (forall i, plain (opts i)) -> layers_ok mode opts (image_net kernel bias gamma mean dense).
Proof.
  intros mode opts kernel bias gamma mean dense Ho i L ps E. destruct (Ho i) as [Hf Hb]. rewrite Hf, Hb. split; [|exact I]. unfold image_net in E.
  each_node E; cbn -[IZR]; auto; try lia.
  - split; [intros; apply Rplus_lt_0_compat; [apply (IZR_lt 0 3)|apply (IZR_lt 0 1)]; lia|auto].
  - split; [discriminate|]. destruct mode; cbn; auto.
Qed.

Lemma image_near : forall ke D mode opts kernel bias gamma mean dense z, 0 < ke -> norm_ok D -> (forall i, plain (opts i)) -> exists v u l,
  net_value (image_net kernel bias gamma mean dense) v /\
  clone_forward D 9 mode IBP (decomon_net ke (mk_spec false mode D 9) opts (image_net kernel bias gamma mean dense)) [8%nat] z = Ok [u; l] /\
  forall y j, in_dom D 9 z y -> (j < 3)%nat ->
    l 0%nat j - net_slack (image_net kernel bias gamma mean dense) * ke <= v 8%nat y j <= u 0%nat j + net_slack (image_net kernel bias gamma mean dense) * ke.
Proof.
  intros ke D mode opts kernel bias gamma mean dense z Hke HD Ho. exists (net_fn (image_net kernel bias gamma mean dense)).
  destruct (net_clone_near_constants ke D 9 mode z opts (image_net kernel bias gamma mean dense) (net_fn (image_net kernel bias gamma mean dense)) 8) as (u & l & E & H);
    auto using image_net_ok, image_layers_all, image_output, image_value; try lia.
  - intros i L ps E. unfold image_net in E. each_node E; cbn; auto.
  - exists u, l. split; [apply image_value|]. split; [exact E|exact H].
Qed.

(** one relu: the error is at most twice epsilon *)
Lemma relu_near_net : forall ke z, 0 < ke -> exists u l,
  clone_forward Box 1 AFFINE IBP (decomon_net ke (mk_spec false AFFINE Box 1) (fun _ => mk_opts V_SLOPE None false) relu_net) [1%nat] z = Ok [u; l] /\
  forall y, in_dom Box 1 z y -> l 0%nat 0%nat - 2 * ke <= Rmax (y 0%nat) 0 <= u 0%nat 0%nat + 2 * ke.
Proof.
  intros ke z Hke. destruct relu_net_ok as (H1 & H2 & H3).
  destruct (net_clone_near_constants ke Box 1 AFFINE z (fun _ => mk_opts V_SLOPE None false) relu_net relu_value 1 Hke ltac:(lia) I H1 H2) as (u & l & E & H); auto.
  - intros i L ps E. unfold relu_net in E. each_node E; cbn; auto.
  - intros i L ps E. unfold relu_net in E. each_node E; cbn; auto.
  - exists u, l. split; [exact E|]. intros y Hy. specialize (H y 0%nat Hy ltac:(cbn; lia)). cbn [relu_value] in H.
    replace (net_slack relu_net) with 2 in H; [exact H|]. unfold net_slack, relu_net. cbn. rewrite Rmax_right by lra. ring.
Qed.
