(** Cases of P_NetworkExact and P_NetworkForward; interval mode loses precision. *)
From Coq Require Import Reals Lra Lia Psatz List Arith Bool ZArith.
From Verif Require Import RLib Spec Spec_Layers Spec_Backward Spec_Convert Spec_Network M_Core M_Utils M_Ops M_Layers M_Backward M_Crown M_Convert M_Network.
From Verif Require Import P_Core P_Utils P_Graph P_Convert P_BackwardMore P_Network P_NetworkSpec P_NetworkCrown P_NetworkThm P_NetworkExact P_NetworkForward.
Import ListNotations.
Local Open Scope R_scope.

(** x + Dense(x): exact in affine and hybrid mode, whatever the mode of the outputs *)
Lemma lin_exact : forall ke D n mode final opts kernel bias z, 0 < ke -> (0 < n)%nat -> norm_ok D -> mode <> IBP -> dom_nonempty D n z -> (forall i, plain (opts i)) ->
  exists ts, clone_forward D n mode final (decomon_net ke (mk_spec false mode D n) opts (lin_net n kernel bias)) [2%nat] z = Ok ts /\
    exact_on D n n z final (fun y j => keras_dense n n kernel (opt_vec 0 bias) y j + y j) ts.
Proof.
  intros ke D n mode final opts kernel bias z Hke Hn HD Hm Hne Ho.
  apply (net_forward_exact ke D n mode final z opts (lin_net n kernel bias) (lin_value n kernel bias) 2); auto using lin_net_ok, lin_layers_ok, lin_output, lin_net_value.
  intros i L ps E. unfold lin_net in E. each_node E; exact I.
Qed.

(** two Dense layers with crown, over any domain *)
Definition dd_net (n : nat) (k1 k2 : mat) : network :=
  [(None, []); (Some (NDense 1 n n k1 None), [0%nat]); (Some (NDense 1 n n k2 None), [1%nat])].
Lemma dd_net_ok : forall n k1 k2, net_ok n (dd_net n k1 k2).
Proof.
  intros n k1 k2 i o ps E. unfold dd_net in E. each_node E; (split; [intros p Hp; cbn in Hp; lia|]); try reflexivity;
    (split; [discriminate|]); cbn [map net_dim dd_net nth_error nl_out nl_in]; f_equal; lia.
Qed.
Lemma dd_layers : forall n k1 k2, (0 < n)%nat -> blayers_ok (fun _ => mk_bopts V_SLOPE None) (dd_net n k1 k2).
Proof. intros n k1 k2 Hn i L ps E. unfold dd_net in E. each_node E; cbn; auto. Qed.
Lemma dd_output : forall n k1 k2, single_output (dd_net n k1 k2) 2.
Proof.
  intros n k1 k2. split; [cbn; lia|]. intros j Hj. cbn [dd_net length] in Hj.
  assert (H2 : leads_to (map snd (dd_net n k1 k2)) 2 2) by constructor.
  assert (H1 : leads_to (map snd (dd_net n k1 k2)) 2 1) by (eapply (leads_step _ _ 1 2 [1%nat]); [reflexivity|left; reflexivity|exact H2]).
  assert (H0 : leads_to (map snd (dd_net n k1 k2)) 2 0) by (eapply (leads_step _ _ 0 1 [0%nat]); [reflexivity|left; reflexivity|exact H1]).
  destruct j as [|[|[|j]]]; auto. lia.
Qed.
Lemma dd_crown_exact : forall ke D n mode final k1 k2 z, 0 < ke -> (0 < n)%nat -> norm_ok D -> (mode = IBP -> D = Box /\ final = IBP) -> dom_nonempty D n z ->
  exists ts, clone_backward D n mode final None [0%nat; 1%nat; 2%nat] (backward_net ke (mk_spec false mode D n) (fun _ => mk_bopts V_SLOPE None) n (dd_net n k1 k2)) [2%nat] None z = Ok ts /\
    exact_result D n (1 * n) z final (net_fn (dd_net n k1 k2) 2) ts.
Proof.
  intros ke D n mode final k1 k2 z Hke Hn HD HB Hne.
  apply (net_crown_exact ke D n mode final z [0%nat; 1%nat; 2%nat] (fun _ => mk_bopts V_SLOPE None) (dd_net n k1 k2) (net_fn (dd_net n k1 k2)) 2);
    auto using dd_net_ok, dd_layers, dd_output; try (intros Q; apply HB; exact Q).
  - apply (net_value_exists n); [apply dd_net_ok|]. intros i L ps E. exists AFFINE, true. apply bl_nl_ok. exact (proj1 (dd_layers n k1 k2 Hn i L ps E)).
  - repeat constructor; cbn; intuition discriminate.
  - intros i L ps E. unfold dd_net in E. each_node E; exact I.
Qed.

(** x - x on [-1, 1]: 0 in affine mode, [-2, 2] in ibp mode *)
Definition zero_net : network := [(None, []); (Some (NSubtract 1), [0%nat; 0%nat])].
Definition zero_value (i : nat) (y : vec) : vec := match i with O => y | _ => fun j => y j - y j end.
Lemma zero_net_ok : forall mode opts, (forall i, plain (opts i)) ->
  net_ok 1 zero_net /\ layers_ok mode opts zero_net /\ single_output zero_net 1 /\ net_value zero_net zero_value.
Proof.
  intros mode opts Ho. split; [|split; [|split]].
  - intros i o ps E. unfold zero_net in E. each_node E; (split; [intros p Hp; cbn in Hp; lia|]); try reflexivity; (split; [discriminate|reflexivity]).
  - intros i L ps E. destruct (Ho i) as [Hf Hb]. rewrite Hf, Hb. split; [|exact I]. unfold zero_net in E. each_node E; exact I.
  - split; [cbn; lia|]. intros j Hj. cbn in Hj. destruct j as [|[|]]; [step 1%nat; constructor|constructor|lia].
  - intros y i o ps E. unfold zero_net in E. each_node E; cbn [zero_value]; [reflexivity|]. intros j Hj. reflexivity.
Qed.
Lemma interval_loses : forall ke opts, (forall i, plain (opts i)) -> exists u l,
  clone_forward Box 1 IBP IBP (decomon_net ke (mk_spec false IBP Box 1) opts zero_net) [1%nat] unit_box = Ok [u; l] /\
  (forall y j, zero_value 1 y j = 0) /\ u 0%nat 0%nat = 2 /\ l 0%nat 0%nat = -2.
Proof.
  intros ke opts _. eexists. eexists. split; [reflexivity|]. split; [intros y j; cbn; lra|]. cbn. split; lra.
Qed.
Lemma affine_keeps : forall ke opts, 0 < ke -> (forall i, plain (opts i)) -> exists u l,
  clone_forward Box 1 AFFINE IBP (decomon_net ke (mk_spec false AFFINE Box 1) opts zero_net) [1%nat] unit_box = Ok [u; l] /\ u 0%nat 0%nat = 0 /\ l 0%nat 0%nat = 0.
Proof.
  intros ke opts Hke Ho. destruct (zero_net_ok AFFINE opts Ho) as (H1 & H2 & H3 & H4).
  destruct (net_forward_exact ke Box 1 AFFINE IBP unit_box opts zero_net zero_value 1 Hke ltac:(lia) I ltac:(discriminate)) as (ts & E & X); auto.
  - intros i Hi. replace i with O by lia. cbn. lra.
  - intros i L ps En. unfold zero_net in En. each_node En; exact I.
  - destruct ts as [|u [|l [|]]]; try contradiction. exists u, l. split; [exact E|]. destruct (X 0%nat ltac:(cbn; lia)) as [[_ (y & _ & Y)] [_ (y' & _ & Y')]].
    cbn [zero_value] in Y, Y'. lra.
Qed.

(** ** layer theorems, in full *)
Lemma layer_sound_full : forall ke D mode n o L (S : vec -> Prop) gs tss g,
  0 < ke -> (0 < n)%nat -> dom_ok D mode -> nl_ok mode (lo_fast o) L -> ft_ok (nl_out L) (lo_ft o) -> (mode = IBP \/ exists z, S z) ->
  length gs = length (nl_in L) -> Forall2 (fun mg ts => valid D mode false S n (fst mg) (snd mg) ts) (combine (nl_in L) gs) tss ->
  nl_gaps ke (mk_spec false mode D n) o L (concat tss) -> (forall z, computes L (map (fun h => h z) gs) (g z)) ->
  exists out, decomon_layer ke (mk_spec false mode D n) o L (concat tss) = Ok out /\ valid D mode false S n (nl_out L) g out.
Proof.
  intros ke D mode n o L S gs tss g Hke Hn Hd Hok Hft Hne Hl HF HG HC.
  exact (layer_sound ke (mk_spec false mode D n) o L Hke Hn Hd eq_refl Hok Hft S gs tss g Hne HF Hl HG HC).
Qed.
