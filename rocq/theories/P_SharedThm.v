(** Layers called at several nodes: statements and examples. *)
From Coq Require Import String Reals List Arith Bool ZArith Lra Lia.
From Verif Require Import RLib Spec Spec_Layers Spec_Backward M_Core M_Utils M_Layers M_Backward M_Crown M_MergeLayers M_Convert M_State M_Weights M_Network M_Clone M_Shared.
From Verif Require Import P_Graph P_Convert P_ConvertThm P_Network P_NetworkSpec P_NetworkCrown P_NetworkThm P_Clone P_Weights P_WeightsThm P_Shared.
From Verif Require Import Spec_State Spec_Convert Spec_Network Spec_Weights Spec_Shared.
Import ListNotations.
Local Open Scope R_scope.

Lemma outputs_shared : forall A (g : fgraph A), acyclic (parents_of g) -> forall lv ht, longest_path (parents_of g) lv -> height (parents_of g) ht -> g <> [] ->
  in_order (map fn_op g) ht -> forall outs, outputs_apart (parents_of g) (map fn_op g) lv outs -> (forall o, In o outs -> (o < length g)%nat) ->
  output_nodes g outs = Ok (filter (deepestb g lv) outs).
Proof.
  intros A g Hacy lv ht Hlv Hht Hg Hord outs Hap Ho. apply (shared_outputs (map fn_op g) lv ht (parents_of g)); auto.
  - intros Q. apply Hg. unfold parents_of in Q. destruct g; [reflexivity|discriminate Q].
  - unfold parents_of. rewrite map_length. exact Ho.
Qed.

(** without any condition on the calls, the values are those of the graph, and the only failure is KeyError *)
Lemma outputs_values : forall A (g : fgraph A) om0 its vs outs, acyclic (parents_of g) -> sources_input g -> no_outside g om0 -> evaluates g om0 its vs ->
  convert_forward g outs om0 its = Err KeyError \/
  exists l, (forall i, In i l -> (i < length g)%nat) /\ convert_forward g outs om0 its = Ok (concat (map vs l)) /\
    forall i, In i l -> exists o, In o outs /\ nth_error (map fn_op g) o = nth_error (map fn_op g) i.
Proof.
  intros A g om0 its vs outs Hacy Hs H0 He. pose proof (topo_acyclic _ g Hacy) as Ht.
  destruct (output_nodes g outs) as [l|e] eqn:Eo.
  - right. exists l. destruct (dico_ok g Ht) as (dico & Ed & Hspec & _). unfold output_nodes in Eo. rewrite Ed in Eo. cbn [bind] in Eo.
    assert (El : l = flat_map (fun o => filter (fun i => same_op g o i) (nodes_at g dico 0)) outs).
    { destruct (nodes_at g dico 0); [discriminate Eo|]. injection Eo as <-. reflexivity. }
    assert (Hl : forall i, In i l -> (i < length g)%nat /\ exists o, In o outs /\ same_op g o i = true).
    { intros i Hi. rewrite El in Hi. apply in_flat_map in Hi. destruct Hi as (o & Ho & Hi). apply filter_In in Hi. destruct Hi as [Hi So].
      split; [apply (nodes_at_in g dico Hspec) in Hi; apply Hi|eauto]. }
    split; [intros i Hi; apply Hl; exact Hi|]. split.
    + apply (convert_forward_eval A g om0 its vs outs l Ht Hs H0 He); [|intros i Hi; apply Hl; exact Hi].
      unfold output_nodes. rewrite Ed. cbn [bind]. exact Eo.
    + intros i Hi. destruct (Hl i Hi) as [_ (o & Ho & So)]. exists o. split; [exact Ho|]. rewrite !nth_error_map. unfold same_op, op_of in So.
      destruct (option_map fn_op (nth_error g o)) as [a|], (option_map fn_op (nth_error g i)) as [b|]; try discriminate So.
      apply Nat.eqb_eq in So. rewrite So. reflexivity.
  - left. destruct (convert_nodes_eval A g om0 its vs Ht Hs H0 He) as (om & En & _). unfold convert_forward. rewrite En. cbn [bind]. rewrite Eo. cbn [bind].
    destruct (dico_ok g Ht) as (dico & Ed & _). unfold output_nodes in Eo. rewrite Ed in Eo. cbn [bind] in Eo.
    destruct (nodes_at g dico 0); [injection Eo as <-; reflexivity|discriminate Eo].
Qed.

Lemma outputs_two_depths : forall A (g : fgraph A), acyclic (parents_of g) -> forall lv ht, longest_path (parents_of g) lv -> height (parents_of g) ht ->
  forall i j a, (i <= j)%nat -> nth_error (map fn_op g) i = Some a -> nth_error (map fn_op g) j = Some a ->
  (forall k, (k < length g)%nat -> (lv k < lv i + ht j)%nat) -> forall outs, output_nodes g outs = Err KeyError.
Proof.
  intros A g Hacy lv ht Hlv Hht i j a Hij Ei Ej Hlong outs. rewrite !nth_error_map in *.
  destruct (nth_error g i) as [ni|] eqn:Eni; [|discriminate Ei]. destruct (nth_error g j) as [nj|] eqn:Enj; [|discriminate Ej]. cbn in Ei, Ej.
  assert (Hg : g <> []) by (intros ->; destruct i; discriminate Eni).
  apply (output_nodes_two_depths g (topo_acyclic _ g Hacy) lv Hlv Hg ht Hht i j ni nj); auto. congruence.
Qed.

(** C80 with the layers as they are called *)
Lemma tied_conversion_bounds : forall shared init ds origs news h h', all_built h ds origs -> convert_layers shared init (pairs ds origs) h = Ok (news, h') ->
  shared = true -> (forall d, In d ds -> has_batchnorm d = false) -> forall ids ht ke D m mode final fwd bwd n z st nodes v o,
  let net := net_at st ds origs nodes in
  0 < ke -> (0 < n)%nat -> norm_ok D -> net_ok n net -> net_value net v -> single_output net o -> (mode = IBP \/ exists y, in_dom D n z y) ->
  clone_fits D m mode final fwd bwd net -> clone_gaps ke D m mode fwd bwd n net z ->
  length ids = length nodes -> height (map snd nodes) ht -> in_order ids ht ->
  exists ts, converted_shared ids ke D m mode final fwd bwd n (net_at st ds news nodes) o z = Ok ts /\
    valid D final false (in_dom D n z) n (net_dim n net o) (v o) ts.
Proof.
  intros shared init ds origs news h h' HB HC Hs NB ids ht ke D m mode final fwd bwd n z st nodes v o net Hke Hn HD Hok Hv Ho He Hf Hg Hl Hht Hord.
  rewrite (conversion_shared shared init ds origs news h h' HB HC Hs NB). fold net.
  assert (En : map snd net = map snd nodes) by (unfold net, net_at; rewrite map_map; reflexivity).
  assert (Ln : length net = length nodes) by (unfold net, net_at; rewrite map_length; reflexivity).
  apply (shared_bounds ids ht); auto; [rewrite Ln; exact Hl|rewrite En; exact Hht].
Qed.

(** ** Two branches calling the same layer *)
Definition siamese (k1 k2 k : mat) : network :=
  [(None, []); (Some (NDense 1 2 2 k1 None), [0]); (Some (NDense 1 2 2 k2 None), [0]); (Some (NDense 1 2 2 k None), [1]); (Some (NDense 1 2 2 k None), [2]); (Some (NAdd 2 2), [3; 4])]%nat.
Definition siamese_ids : list nat := [0; 1; 2; 3; 3; 4]%nat.
Definition siamese_height (i : nat) : nat := match i with O => 3 | 1 | 2 => 2 | 3 | 4 => 1 | _ => 0 end%nat.
Lemma siamese_heights : forall k1 k2 k, height (map snd (siamese k1 k2 k)) siamese_height.
Proof.
  intros k1 k2 k i Hi. cbn in Hi. split.
  - intros j ps E Hin. cbn in E. do 6 (destruct j as [|j]; [cbn in E; injection E as <-; cbn in Hin; cbn; intuition (subst; cbn; lia)|]). cbn in E. destruct j; discriminate E.
  - destruct i as [|[|[|[|[|[|i]]]]]]; try (exfalso; cbn in Hi; lia).
    + right. exists 1%nat, [0%nat]. cbn. auto.
    + right. exists 3%nat, [1%nat]. cbn. auto.
    + right. exists 4%nat, [2%nat]. cbn. auto.
    + right. exists 5%nat, [3%nat; 4%nat]. cbn. auto.
    + right. exists 5%nat, [3%nat; 4%nat]. cbn. auto.
    + left. reflexivity.
Qed.
Lemma siamese_order : in_order siamese_ids siamese_height.
Proof.
  intros i j a Hij Ei Ej. assert (Hj : (j < 6)%nat) by (apply (nth_error_Some siamese_ids); congruence).
  do 6 (destruct j as [|j]; [do 6 (destruct i as [|i]; [cbn in *; try lia; congruence|]); lia|]). lia.
Qed.

Lemma siamese_bounds : forall ke k1 k2 k z, 0 < ke -> exists v u l, net_value (siamese k1 k2 k) v /\
  converted_shared siamese_ids ke Box FORWARD_IBP IBP IBP (fun _ => mk_opts V_SLOPE None false) (fun _ => mk_bopts V_SLOPE None) 2 (siamese k1 k2 k) 5 z = Ok [u; l] /\
  forall y j, in_dom Box 2 z y -> (j < 2)%nat -> l 0%nat j <= v 5%nat y j <= u 0%nat j.
Proof.
  intros ke k1 k2 k z Hke. set (net := siamese k1 k2 k).
  assert (OK : net_ok 2 net).
  { intros i o ps H. unfold net, siamese in H. each_node H; (split; [intros p Hp; cbn in Hp; lia|]); try reflexivity; (split; [discriminate|reflexivity]). }
  assert (LO : layers_ok IBP (fun _ => mk_opts V_SLOPE None false) net).
  { intros i L ps H. split; [|exact I]. unfold net, siamese in H. each_node H; cbn; auto; lia. }
  assert (VA : net_value net (net_fn net)).
  { apply (net_value_exists 2); [exact OK|]. intros i L ps H. exists IBP, false. apply (LO i L ps H). }
  assert (SO : single_output net 5).
  { split; [cbn; lia|]. intros j Hj. cbn in Hj.
    assert (H5 : leads_to (map snd net) 5 5) by constructor.
    assert (H4 : leads_to (map snd net) 5 4) by (apply (leads_step _ _ 4%nat 5%nat [3; 4]%nat); cbn; auto).
    assert (H3 : leads_to (map snd net) 5 3) by (apply (leads_step _ _ 3%nat 5%nat [3; 4]%nat); cbn; auto).
    assert (H2 : leads_to (map snd net) 5 2) by (apply (leads_step _ _ 2%nat 4%nat [2]%nat); cbn; auto).
    assert (H1 : leads_to (map snd net) 5 1) by (apply (leads_step _ _ 1%nat 3%nat [1]%nat); cbn; auto).
    assert (H0 : leads_to (map snd net) 5 0) by (apply (leads_step _ _ 0%nat 1%nat [0]%nat); cbn; auto).
    do 6 (destruct j as [|j]; [assumption|]). lia. }
  destruct (shared_bounds siamese_ids siamese_height ke Box FORWARD_IBP IBP IBP (fun _ => mk_opts V_SLOPE None false) (fun _ => mk_bopts V_SLOPE None) 2 net 5 (net_fn net) z) as (ts & E & [Hl V]); auto; try lia.
  - exact I.
  - split; [reflexivity|exact LO].
  - intros its i L ps vs _ _ _. apply nl_ibp_gaps. reflexivity.
  - apply siamese_heights.
  - exact siamese_order.
  - destruct ts as [|u [|l [|]]]; try discriminate Hl. exists (net_fn net), u, l. split; [exact VA|]. split; [exact E|]. exact V.
Qed.

(** a Dense layer called twice in a chain, with the variables of C80 *)
Lemma tied_shared_bounds : forall d init ke z st, 0 < ke -> exists news h' v u l,
  convert_layers true init (pairs tied_descs tied_layers) (tied_heap d) = Ok (news, h') /\ net_value (net_at st tied_descs tied_layers tied_nodes) v /\
  converted_shared [0; 1; 2; 1; 3]%nat ke Box FORWARD_IBP IBP IBP (fun _ => mk_opts V_SLOPE None false) (fun _ => mk_bopts V_SLOPE None) 2 (net_at st tied_descs news tied_nodes) 4 z = Ok [u; l] /\
  forall y, in_dom Box 2 z y -> l 0%nat 0%nat <= v 4%nat y 0%nat <= u 0%nat 0%nat.
Proof.
  intros d init ke z st Hke. destruct (tied_bounds d init ke z st Hke) as (news & h' & v & u & l & E & V & C & B).
  exists news, h', v, u, l. split; [exact E|]. split; [exact V|]. split; [|exact B].
  assert (NB : forall q, In q tied_descs -> has_batchnorm q = false) by (intros dd [<-|[<-|[<-|[]]]]; reflexivity).
  rewrite (conversion_shared true init tied_descs tied_layers news (tied_heap d) h' (tied_built d) E eq_refl NB) in C |- *.
  set (net := net_at st tied_descs tied_layers tied_nodes) in *.
  assert (Hc : is_chain (map snd net)).
  { intros i ps H. unfold net, net_at, tied_nodes in H. cbn [map snd fst] in H. do 5 (destruct i as [|i]; [cbn in H; injection H as <-; reflexivity|]). cbn in H. destruct i; discriminate H. }
  destruct (height_exists _ (chain_acyclic _ Hc)) as [ht Hht].
  apply (converted_shared_same [0; 1; 2; 1; 3]%nat ht); auto; try lia.
  - intros i o ps H. unfold net, tied_nodes, net_at in H. cbn [map fst snd nth_error tied_descs tied_layers] in H. each_node H; (split; [intros p Hp; cbn in Hp; lia|]); try reflexivity; (split; [discriminate|reflexivity]).
  - split; [cbn; lia|]. intros j Hj. exact (chain_single _ Hc j Hj).
  - apply (chain_in_order (map snd net)); auto.
Qed.

Lemma two_depths_example : exists lv ht, longest_path (parents_of g_two_depths) lv /\ height (parents_of g_two_depths) ht /\
  nth_error (map fn_op g_two_depths) 2 = Some 2%nat /\ nth_error (map fn_op g_two_depths) 3 = Some 2%nat /\
  forall k, (k < length g_two_depths)%nat -> (lv k < lv 2%nat + ht 3%nat)%nat.
Proof.
  exists (fun i => match i with O => 0 | 1 | 3 => 1 | 2 | 4 => 2 | _ => 3 end%nat), (fun i => match i with O => 3 | 1 | 3 => 2 | 2 | 4 => 1 | _ => 0 end%nat).
  split; [|split; [|split; [reflexivity|split; [reflexivity|]]]].
  - intros i ps E. destruct i as [|[|[|[|[|[|i]]]]]]; cbn in E; try (injection E as <-; cbn).
    + reflexivity.
    + split; [intros p [<-|[]]; lia|exists 0%nat; auto].
    + split; [intros p [<-|[]]; lia|exists 1%nat; auto].
    + split; [intros p [<-|[]]; lia|exists 0%nat; auto].
    + split; [intros p [<-|[]]; lia|exists 3%nat; auto].
    + split; [intros p [<-|[<-|[]]]; lia|exists 2%nat; auto].
    + destruct i; discriminate E.
  - intros i Hi. cbn in Hi. split.
    + intros j ps E Hin. cbn in E. do 6 (destruct j as [|j]; [cbn in E; injection E as <-; cbn in Hin; cbn; intuition (subst; cbn; lia)|]). cbn in E. destruct j; discriminate E.
    + destruct i as [|[|[|[|[|[|i]]]]]]; try (exfalso; cbn in Hi; lia).
      * right. exists 1%nat, [0%nat]. cbn. auto.
      * right. exists 2%nat, [1%nat]. cbn. auto.
      * right. exists 5%nat, [2%nat; 4%nat]. cbn. auto.
      * right. exists 4%nat, [3%nat]. cbn. auto.
      * right. exists 5%nat, [2%nat; 4%nat]. cbn. auto.
      * left. reflexivity.
  - intros k Hk. cbn in Hk. do 6 (destruct k as [|k]; [cbn; lia|]). lia.
Qed.
