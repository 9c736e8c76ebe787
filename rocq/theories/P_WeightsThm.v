(** Networks of converted layers (C80) *)
From Coq Require Import String Reals List Arith Bool ZArith Lia Lra.
From Verif Require Import RLib Spec Spec_Layers M_Core M_Utils M_MergeLayers M_Ops M_Layers M_Convert M_State Spec_State P_State M_Weights P_Weights.
From Verif Require Import Spec_Backward Spec_Convert M_Network P_NetworkForward P_Network P_NetworkSpec P_NetworkCrown P_NetworkThm Spec_Network Spec_Weights.
Import ListNotations.
Local Open Scope R_scope.

Lemma all_built_length : forall h ds ls, all_built h ds ls -> length ds = length ls.
Proof. intros h ds ls H. unfold all_built in H. induction H as [|d l ds ls _ _ IH]; [reflexivity|cbn; f_equal; exact IH]. Qed.
Lemma all_built_nth : forall h ds ls i d l, all_built h ds ls -> nth_error ds i = Some d -> nth_error ls i = Some l -> keras_built h (ld_kind d) l.
Proof.
  intros h ds ls i d l H. revert i. unfold all_built in H. induction H as [|d0 l0 ds ls H0 _ IH]; intros [|i] Ed El; cbn in *; try discriminate.
  - inversion Ed; inversion El; subst. exact H0.
  - eapply IH; eauto.
Qed.
Section Conversion.
Variables (shared : bool) (init : nat -> string -> nat -> R) (ds : list ldesc) (origs news : list wlayer) (h h' : wheap).
Hypothesis HB : all_built h ds origs.
Hypothesis HC : convert_layers shared init (pairs ds origs) h = Ok (news, h').

Lemma conversion_facts : length news = length ds /\ (wh_next h <= wh_next h')%nat /\
  (forall v, (v < wh_next h)%nat -> wh_store h' v = wh_store h v) /\
  (forall i d orig new, nth_error ds i = Some d -> nth_error origs i = Some orig -> nth_error news i = Some new ->
     (forall n, In n (keras_weights_names (ld_kind d)) -> (ov new n < wh_next h')%nat /\ wh_store h' (ov new n) = wh_store h (ov orig n)) /\
     (shares (ld_kind d) shared = true -> forall n, In n (keras_weights_names (ld_kind d)) -> ov new n = ov orig n) /\
     (shares (ld_kind d) shared = false -> forall n, In n (keras_weights_names (ld_kind d)) -> (wh_next h <= ov new n)%nat)).
Proof. destruct (convert_ok shared init ds origs h HB) as (news' & h1 & E & R). rewrite HC in E. inversion E; subst. exact R. Qed.

Lemma orig_old : forall i d orig n, nth_error ds i = Some d -> nth_error origs i = Some orig -> In n (keras_weights_names (ld_kind d)) -> (ov orig n < wh_next h)%nat.
Proof.
  intros i d orig n Ed Eo I. assert (KB := all_built_nth _ _ _ _ _ _ HB Ed Eo).
  destruct KB as (_ & A & _). apply names_iff, weight_in in I. destruct I as (s & I). destruct (A n s I) as (v & Av & _ & Lv & _). rewrite (ov_some _ _ _ Av). exact Lv.
Qed.

(** two lists of layers with the same values give the same network *)
Lemma net_at_ext : forall st st' ls ls' nodes, length ls' = length ls ->
  (forall i d l l', nth_error ds i = Some d -> nth_error ls i = Some l -> nth_error ls' i = Some l' ->
     forall n, In n (keras_weights_names (ld_kind d)) -> st' (ov l' n) = st (ov l n)) ->
  net_at st' ds ls' nodes = net_at st ds ls nodes.
Proof.
  intros st st' ls ls' nodes Hl H. unfold net_at. apply map_ext. intros [[k|] ps]; cbn [fst snd]; [|reflexivity]. f_equal.
  destruct (nth_error ds k) as [d|] eqn:Ed; [|reflexivity].
  destruct (nth_error ls k) as [l|] eqn:El; destruct (nth_error ls' k) as [l'|] eqn:El'; try reflexivity.
  - f_equal. apply layer_at_ext. eapply H; eauto.
  - apply nth_error_None in El'. assert (nth_error ls k <> None) by congruence. apply nth_error_Some in H0. lia.
  - apply nth_error_None in El. assert (nth_error ls' k <> None) by congruence. apply nth_error_Some in H0. lia.
Qed.
Lemma lengths : length news = length origs.
Proof. destruct conversion_facts as (E & _). rewrite E. exact (all_built_length _ _ _ HB). Qed.

Lemma conversion_values : forall nodes,
  net_at (wh_store h') ds news nodes = net_at (wh_store h) ds origs nodes /\ net_at (wh_store h') ds origs nodes = net_at (wh_store h) ds origs nodes.
Proof.
  destruct conversion_facts as (_ & _ & Ho & F). intros nodes. split.
  - apply net_at_ext; [apply lengths|]. intros i d l l' Ed El El' n I. destruct (F i d l l' Ed El El') as (P & _). apply P. exact I.
  - apply net_at_ext; [reflexivity|]. intros i d l l' Ed El El' n I. assert (l' = l) as -> by congruence. apply Ho. eapply orig_old; eauto.
Qed.

Lemma conversion_shared : shared = true -> (forall d, In d ds -> has_batchnorm d = false) -> forall st nodes, net_at st ds news nodes = net_at st ds origs nodes.
Proof.
  intros Hsh NB st nodes. destruct conversion_facts as (_ & _ & _ & F). apply net_at_ext; [apply lengths|]. intros i d l l' Ed El El' n I.
  destruct (F i d l l' Ed El El') as (_ & P & _). destruct (shares (ld_kind d) shared) eqn:S; [rewrite (P eq_refl n I); reflexivity|]. rewrite Hsh in S.
  assert (B := NB d (nth_error_In _ _ Ed)). destruct d; cbn in S, B, I; try discriminate; destruct I.
Qed.

(** the variables of the decomon model alone: nothing that happens to those of the Keras model matters *)
Lemma conversion_copy : shared = false -> forall st nodes, (forall v, (wh_next h <= v < wh_next h')%nat -> st v = wh_store h' v) ->
  net_at st ds news nodes = net_at (wh_store h) ds origs nodes.
Proof.
  intros Hsh st nodes Hst. destruct conversion_facts as (_ & _ & _ & F). apply net_at_ext; [apply lengths|]. intros i d l l' Ed El El' n I.
  destruct (F i d l l' Ed El El') as (P1 & _ & P2). destruct (P1 n I) as [L V]. rewrite <- V. apply Hst. split; [|exact L]. apply P2; [|exact I].
  rewrite Hsh. destruct (ld_kind d); reflexivity.
Qed.
Lemma conversion_apart : forall st nodes, (forall v, (v < wh_next h)%nat -> st v = wh_store h' v) ->
  net_at st ds origs nodes = net_at (wh_store h) ds origs nodes.
Proof.
  intros st nodes Hst. destruct conversion_facts as (_ & _ & Ho & _). apply net_at_ext; [reflexivity|]. intros i d l l' Ed El El' n I.
  assert (l' = l) as -> by congruence. assert (L := orig_old i d l n Ed El I). rewrite Hst by exact L. apply Ho. exact L.
Qed.

Lemma conversion_bounds : shared = true -> (forall d, In d ds -> has_batchnorm d = false) -> forall ke D n z opts st nodes v o,
  0 < ke -> (0 < n)%nat -> norm_ok D -> net_ok n (net_at st ds origs nodes) -> net_value (net_at st ds origs nodes) v ->
  layers_ok IBP opts (net_at st ds origs nodes) -> single_output (net_at st ds origs nodes) o ->
  exists u l, clone_forward D n IBP IBP (decomon_net ke (mk_spec false IBP D n) opts (net_at st ds news nodes)) [o] z = Ok [u; l] /\
    forall y j, in_dom D n z y -> (j < net_dim n (net_at st ds origs nodes) o)%nat -> l 0%nat j <= v o y j <= u 0%nat j.
Proof. intros Hs NB ke D n z opts st nodes v o Hke Hn HD Hok Hv Hl Ho. rewrite conversion_shared by assumption. apply net_clone_ibp; assumption. Qed.

Lemma conversion_bounds_free : shared = true -> (forall d, In d ds -> has_batchnorm d = false) -> forall ke D n mode final z opts st nodes v o,
  0 < ke -> (0 < n)%nat -> norm_ok D -> (mode = IBP -> final = IBP) -> (exists y, in_dom D n z y) ->
  net_ok n (net_at st ds origs nodes) -> net_value (net_at st ds origs nodes) v ->
  layers_ok mode opts (net_at st ds origs nodes) -> single_output (net_at st ds origs nodes) o ->
  (forall i L ps, nth_error (net_at st ds origs nodes) i = Some (Some L, ps) -> nl_free (lo_fast (opts i)) L) ->
  exists ts, clone_forward D n mode final (decomon_net ke (mk_spec false mode D n) opts (net_at st ds news nodes)) [o] z = Ok ts /\
    valid D final false (in_dom D n z) n (net_dim n (net_at st ds origs nodes) o) (v o) ts.
Proof. intros Hs NB ke D n mode final z opts st nodes v o. intros. rewrite conversion_shared by assumption. apply net_clone_free; assumption. Qed.
End Conversion.

Lemma conversion_exists : forall shared init ds origs h, all_built h ds origs -> exists news h',
  convert_layers shared init (pairs ds origs) h = Ok (news, h') /\ length news = length ds.
Proof. intros shared init ds origs h HB. destruct (convert_ok shared init ds origs h HB) as (news & h' & E & Hl & _). eauto. Qed.

Lemma conversion_not_built : forall k shared init orig h, wl_built orig = false -> to_decomon_weights k shared init orig h = Err ValueError.
Proof. intros k shared init orig h E. unfold to_decomon_weights. rewrite E. reflexivity. Qed.

(** ** A single BatchNormalization, then an update of gamma *)
Definition bn_layer : wlayer := mk_wlayer true [0; 1; 2; 3]%nat (fun s =>
  if String.eqb s "gamma" then Some 0%nat else if String.eqb s "beta" then Some 1%nat else
  if String.eqb s "moving_mean" then Some 2%nat else if String.eqb s "moving_variance" then Some 3%nat else None).
Definition bn_desc : ldesc := LDBatchNorm [] 1 [] 1 0 true true.
Definition bn_heap : wheap := mk_wheap (fun v => mk_tval [1%nat] (fun _ => match v with O | 3%nat => 1 | _ => 0 end)) 4.
Definition bn_nodes : wnodes := [(None, []); (Some 0%nat, [0%nat])].

Lemma bn_built : all_built bn_heap [bn_desc] [bn_layer].
Proof.
  constructor; [|constructor]. split; [reflexivity|]. split; [|split].
  - intros n s H. cbn in H. destruct H as [H|[H|[H|[H|[]]]]]; inversion H; subst; eexists; (split; [reflexivity|]); (split; [cbn; tauto|]); (split; [cbn; lia|reflexivity]).
  - intros n n' H H'. cbn in H, H'. destruct H as [<-|[<-|[<-|[<-|[]]]]]; destruct H' as [<-|[<-|[<-|[<-|[]]]]]; cbn; intros; try reflexivity; discriminate.
  - intros n H. cbn in H |- *.
    destruct (String.eqb_spec n "gamma") as [->|]; [exfalso; apply H; auto|]. destruct (String.eqb_spec n "beta") as [->|]; [exfalso; apply H; auto|].
    destruct (String.eqb_spec n "moving_mean") as [->|]; [exfalso; apply H; auto|]. destruct (String.eqb_spec n "moving_variance") as [->|]; [exfalso; apply H; auto|]. reflexivity.
Qed.

Definition unit_pair : tensor := fun i _ => match i with O => 0 | _ => 1 end.
Lemma batchnorm_stale : forall ke init, exists news h' st v y u l,
  convert_layers true init (pairs [bn_desc] [bn_layer]) bn_heap = Ok (news, h') /\
  (forall x, x <> ov bn_layer "gamma" -> st x = wh_store h' x) /\ net_value (net_at st [bn_desc] [bn_layer] bn_nodes) v /\
  clone_forward Box 1 IBP IBP (decomon_net ke (mk_spec false IBP Box 1) (fun _ => mk_opts V_SLOPE None false) (net_at st [bn_desc] news bn_nodes)) [1%nat] unit_pair = Ok [u; l] /\
  in_dom Box 1 unit_pair y /\ u 0%nat 0%nat < v 1%nat y 0%nat.
Proof.
  intros ke init. destruct (conversion_exists true init [bn_desc] [bn_layer] bn_heap bn_built) as (news & h' & E & Hl).
  destruct (conversion_facts true init _ _ _ _ _ bn_built E) as (_ & _ & Ho & F).
  destruct news as [|nw [|? ?]]; try (cbn in Hl; discriminate). destruct (F 0%nat bn_desc bn_layer nw eq_refl eq_refl eq_refl) as (P1 & _ & P2).
  set (st := upd (wh_store h') 0 (mk_tval [1%nat] (fun _ => 2))).
  assert (V : forall n, In n (keras_weights_names (ld_kind bn_desc)) -> st (ov nw n) = wh_store bn_heap (ov bn_layer n)).
  { intros n I. unfold st. rewrite upd_other; [apply P1; exact I|]. assert (X := P2 eq_refl n I). cbn in X. lia. }
  exists [nw], h', st, (fun k y => match k with O => y | _ => fun j => 2 * y j end), (fun _ => 1). eexists. eexists. split; [exact E|]. split; [|split; [|split; [|split]]].
  - intros x Hx. unfold st. apply upd_other. intros ->. apply Hx. reflexivity.
  - intros y i o ps. destruct i as [|[|i]]; [| |destruct i; discriminate].
    + intros H; inversion H; subst. reflexivity.
    + intros H; inversion H; subst. cbn [map computes layer_at bn_desc]. intros p c q Hp Hq Hc. cbn in Hp, Hq.
      assert (E1 : entries st bn_layer "moving_mean" c = 0) by (unfold entries, st; rewrite upd_other by discriminate; rewrite Ho by (cbn; lia); reflexivity).
      assert (E2 : entries st bn_layer "moving_variance" c = 1) by (unfold entries, st; rewrite upd_other by discriminate; rewrite Ho by (cbn; lia); reflexivity).
      assert (E3 : entries st bn_layer "beta" c = 0) by (unfold entries, st; rewrite upd_other by discriminate; rewrite Ho by (cbn; lia); reflexivity).
      assert (E4 : entries st bn_layer "gamma" c = 2) by (unfold entries, st; rewrite upd_same; reflexivity).
      cbn [opt_vec]. rewrite E1, E2, E3, E4, !Rplus_0_r, sqrt_1. field.
  - assert (EN : net_at st [bn_desc] [nw] bn_nodes = net_at (wh_store bn_heap) [bn_desc] [bn_layer] bn_nodes).
    { unfold net_at. cbn [map bn_nodes fst snd nth_error]. rewrite (layer_at_ext (wh_store bn_heap) st bn_desc bn_layer nw V). reflexivity. }
    rewrite EN. lazy -[Rmax Rmin Rplus Rmult Rminus Ropp IZR Rlt Rle Rdiv Rinv sqrt]. reflexivity.
  - intros i Hi. cbn. lra.
  - lazy -[Rmax Rmin Rplus Rmult Rminus Ropp IZR Rlt Rle Rdiv Rinv sqrt]. rewrite ?Rplus_0_r. replace (1 + 0) with 1 by ring. rewrite ?sqrt_1.
    unfold Rmax, Rmin. repeat destruct (Rle_dec _ _); lra.
Qed.

(** ** Dense and relu, the first Dense layer being called twice *)
Definition tied_descs : list ldesc := [LDDense 1 2 2 true; LDFixed (NActivation Arelu 2); LDDense 1 2 1 false].
Definition tied_layers : list wlayer :=
  [mk_wlayer true [4; 2]%nat (fun s => if String.eqb s "kernel" then Some 4%nat else if String.eqb s "bias" then Some 2%nat else None);
   mk_wlayer true [] (fun _ => None);
   mk_wlayer true [7]%nat (fun s => if String.eqb s "kernel" then Some 7%nat else None)].
Definition tied_heap (d : nat -> nat -> R) : wheap :=
  mk_wheap (fun v => mk_tval (match v with 4%nat => [2; 2] | 2%nat => [2] | _ => [2; 1] end)%nat (d v)) 9.
Definition tied_nodes : wnodes := [(None, []); (Some 0, [0]); (Some 1, [1]); (Some 0, [2]); (Some 2, [3])]%nat.

Lemma tied_built : forall d, all_built (tied_heap d) tied_descs tied_layers.
Proof.
  intros d. constructor; [|constructor; [|constructor; [|constructor]]].
  - split; [reflexivity|]. split; [|split].
    + intros n s H. cbn in H. destruct H as [H|[H|[]]]; inversion H; subst; eexists; (split; [reflexivity|]); (split; [cbn; tauto|]); (split; [cbn; lia|reflexivity]).
    + intros n n' H H'. cbn in H, H'. destruct H as [<-|[<-|[]]]; destruct H' as [<-|[<-|[]]]; cbn; intros; try reflexivity; discriminate.
    + intros n H. cbn in H |- *. destruct (String.eqb_spec n "kernel") as [->|]; [exfalso; apply H; auto|]. destruct (String.eqb_spec n "bias") as [->|]; [exfalso; apply H; auto|]. reflexivity.
  - split; [reflexivity|]. split; [|split]; cbn; intros; try contradiction; reflexivity.
  - split; [reflexivity|]. split; [|split].
    + intros n s H. cbn in H. destruct H as [H|[]]; inversion H; subst; eexists; (split; [reflexivity|]); (split; [cbn; tauto|]); (split; [cbn; lia|reflexivity]).
    + intros n n' H H'. cbn in H, H'. destruct H as [<-|[]]; destruct H' as [<-|[]]. reflexivity.
    + intros n H. cbn in H |- *. destruct (String.eqb_spec n "kernel") as [->|]; [exfalso; apply H; auto|]. reflexivity.
Qed.

Lemma tied_bounds : forall d init ke z st, 0 < ke -> exists news h' v u l,
  convert_layers true init (pairs tied_descs tied_layers) (tied_heap d) = Ok (news, h') /\ net_value (net_at st tied_descs tied_layers tied_nodes) v /\
  clone_forward Box 2 IBP IBP (decomon_net ke (mk_spec false IBP Box 2) (fun _ => mk_opts V_SLOPE None false) (net_at st tied_descs news tied_nodes)) [4%nat] z = Ok [u; l] /\
  forall y, in_dom Box 2 z y -> l 0%nat 0%nat <= v 4%nat y 0%nat <= u 0%nat 0%nat.
Proof.
  intros d init ke z st Hke. destruct (conversion_exists true init tied_descs tied_layers (tied_heap d) (tied_built d)) as (news & h' & E & _).
  set (net := net_at st tied_descs tied_layers tied_nodes).
  assert (OK : net_ok 2 net).
  { intros i o ps H. unfold net, tied_nodes, net_at in H. cbn [map fst snd nth_error tied_descs tied_layers] in H. each_node H; (split; [intros p Hp; cbn in Hp; lia|]); try reflexivity; (split; [discriminate|reflexivity]). }
  assert (LO : layers_ok IBP (fun _ => mk_opts V_SLOPE None false) net).
  { intros i L ps H. split; [|exact I]. unfold net, tied_nodes, net_at in H. cbn [map fst snd nth_error tied_descs tied_layers] in H. each_node H; cbn; auto; lia. }
  assert (VA : net_value net (net_fn net)).
  { apply (net_value_exists 2); [exact OK|]. intros i L ps H. exists IBP, false. apply (LO i L ps H). }
  assert (SO : single_output net 4).
  { split; [cbn; lia|]. intros j Hj. cbn in Hj.
    assert (H4 : leads_to (map snd net) 4 4) by constructor.
    assert (H3 : leads_to (map snd net) 4 3) by (step 4%nat; assumption).
    assert (H2 : leads_to (map snd net) 4 2) by (step 3%nat; assumption).
    assert (H1 : leads_to (map snd net) 4 1) by (step 2%nat; assumption).
    assert (H0 : leads_to (map snd net) 4 0) by (step 1%nat; assumption).
    do 5 (destruct j as [|j]; [assumption|]). lia. }
  destruct (conversion_bounds true init tied_descs tied_layers news (tied_heap d) h' (tied_built d) E eq_refl) with (ke := ke) (D := Box) (n := 2%nat) (z := z)
    (opts := fun _ : nat => mk_opts V_SLOPE None false) (st := st) (nodes := tied_nodes) (v := net_fn net) (o := 4%nat) as (u & l & EC & HBd); auto; try lia.
  { intros dd [<-|[<-|[<-|[]]]]; reflexivity. } { exact I. }
  exists news, h', (net_fn net), u, l. split; [exact E|]. split; [exact VA|]. split; [exact EC|]. intros y Hy. apply HBd; [exact Hy|]. cbn. lia.
Qed.
