(** set_domain on the conversion of a whole network (C72) *)
From Coq Require Import Reals List Arith Bool ZArith Lra Lia Psatz Permutation FunctionalExtensionality.
From Verif Require Import RLib Spec Spec_Domain Spec_Layers Spec_Backward Spec_Convert Spec_Network M_Core M_State M_Utils M_MergeLayers M_Ops M_Layers M_Pool M_Backward M_Crown M_Convert M_Network M_Domain M_Clone.
From Verif Require Import P_Core P_CoreThm P_Merge P_Utils P_MergeLayers P_Axis P_Ops P_Act P_OpsThm P_Layers P_Move P_Pool P_Backward P_Crown P_BackwardThm P_Graph P_Convert P_ConvertThm P_MetricsAdv P_Network P_NetworkSpec P_NetworkCrown P_StateDomain P_NetworkForward.
Import ListNotations.
Local Open Scope R_scope.

(** ** outside the hybrid mode, only fast pooling reads the domain of inputs_outputs_spec *)
Lemma full_domain : forall sr mode n Da Ds ti ts, mode <> HYBRID ->
  get_fullinputs_r sr (mk_spec false mode Ds n) false ti ts = get_fullinputs_r sr (mk_spec false mode Da n) false ti ts.
Proof.
  intros sr mode n Da Ds ti ts H. unfold get_fullinputs_r. cbn [sp_mode sp_dc].
  destruct (unpack empty_tensor mode false ts) as [r|e]; [|reflexivity]. cbn [bind].
  destruct mode; try congruence; unfold complete_r; cbn; rewrite ?andb_false_r; reflexivity.
Qed.
Lemma full_domain' : forall mode n Da Ds ti ts, mode <> HYBRID ->
  get_fullinputs (mk_spec false mode Ds n) false ti ts = get_fullinputs (mk_spec false mode Da n) false ti ts.
Proof. intros. rewrite <- !get_fullinputs_r_false. apply full_domain. assumption. Qed.
Lemma by_type_domain : forall mode n Da Ds ti ts, mode <> HYBRID ->
  get_fullinputs_by_type (mk_spec false mode Ds n) false ti ts = get_fullinputs_by_type (mk_spec false mode Da n) false ti ts.
Proof.
  intros mode n Da Ds ti ts H. unfold get_fullinputs_by_type. cbn [sp_mode sp_dc]. destruct mode; try congruence; cbn; rewrite ?andb_false_r; reflexivity.
Qed.

Definition no_fast_pool (mode : fmode) (o : lopts) (L : nlayer) : Prop :=
  match L with NMaxPool _ => mode = IBP \/ lo_fast o = false | _ => True end.

Lemma layer_domains_eq : forall ke mode n Da Ds o L ts, mode <> HYBRID -> no_fast_pool mode o L ->
  layer_domains ke (mk_spec false mode Da n) (mk_spec false mode Ds n) o L ts = decomon_layer ke (mk_spec false mode Da n) o L ts.
Proof.
  intros ke mode n Da Ds o L ts H Hp.
  destruct L; cbn [layer_domains decomon_layer]; try reflexivity.
  - unfold decomon_dense. rewrite (full_domain _ mode n Da Ds) by exact H. reflexivity.
  - unfold conv2d_domains, decomon_conv2d. rewrite (full_domain _ mode n Da Ds) by exact H. reflexivity.
  - unfold decomon_bn. rewrite (full_domain' mode n Da Ds) by exact H. reflexivity.
  - unfold decomon_flatten. rewrite (full_domain' mode n Da Ds) by exact H. reflexivity.
  - unfold decomon_reshape. rewrite (full_domain' mode n Da Ds) by exact H. reflexivity.
  - unfold decomon_permute. rewrite (full_domain' mode n Da Ds) by exact H. reflexivity.
  - unfold max_pooling_domains, decomon_max_pooling. destruct (pool_init _ _) as [fl|e]; [|reflexivity]. cbn [bind].
    cbn [no_fast_pool] in Hp. destruct (lo_fast o).
    + destruct Hp as [->|Q]; [|discriminate Q]. unfold pool_fast, get_fullinputs. cbn [sp_mode sp_dc].
      destruct (unpack empty_tensor IBP false ts) as [r|e]; reflexivity.
    + unfold pool_not_fast_domains, pool_not_fast. rewrite (full_domain' mode n Da Ds) by exact H. reflexivity.
  - unfold decomon_add, merge_reduce. rewrite (by_type_domain mode n Da Ds) by exact H. reflexivity.
  - unfold decomon_average, merge_reduce. rewrite (by_type_domain mode n Da Ds) by exact H. reflexivity.
  - unfold decomon_concatenate. rewrite (by_type_domain mode n Da Ds) by exact H. reflexivity.
  - unfold dot_domains, decomon_dot.
    assert (Q : forall o, get_fullinputs (mk_spec false mode Ds n) false true o = get_fullinputs (mk_spec false mode Da n) false true o)
      by (intros; apply full_domain'; exact H).
    cbn [sp_dc sp_mode sp_n].
    destruct (split_to_merge _ ts) as [|in0 [|in1 [|]]]; try reflexivity.
    repeat match goal with |- bind ?a _ = bind ?a _ => destruct a; [cbn [bind]|reflexivity] end.
    destruct (_ && _)%bool; [reflexivity|]. cbv zeta. destruct (negb _); [reflexivity|].
    repeat match goal with |- bind ?a _ = bind ?a _ => destruct a; [cbn [bind]|reflexivity] end.
    rewrite Q. reflexivity.
Qed.
Lemma layer_domains_same : forall ke sp o L ts, layer_domains ke sp sp o L ts = decomon_layer ke sp o L ts.
Proof. intros ke sp o L ts. destruct L; reflexivity. Qed.

Lemma seq_at : forall n i, (i < n)%nat -> nth_error (seq 0 n) i = Some i.
Proof. intros n i H. rewrite (nth_error_nth' _ 0%nat) by (rewrite seq_length; exact H). rewrite seq_nth by exact H. reflexivity. Qed.
Lemma combine_at : forall A B (l : list A) (l' : list B) i a b, nth_error l i = Some a -> nth_error l' i = Some b -> nth_error (combine l l') i = Some (a, b).
Proof.
  intros A B. induction l as [|x l IH]; intros l' i a b E1 E2; [destruct i; discriminate E1|]. destruct l' as [|x' l']; [destruct i; discriminate E2|].
  destruct i as [|i]; [injection E1 as ->; injection E2 as ->; reflexivity|]. cbn. apply IH; assumption.
Qed.

Lemma net_domains_ext : forall ke sa ss sp opts net,
  (forall i L ps ts, nth_error net i = Some (Some L, ps) -> layer_domains ke sa ss (opts i) L ts = decomon_layer ke sp (opts i) L ts) ->
  net_domains ke sa ss opts net = decomon_net ke sp opts net.
Proof.
  intros ke sa ss sp opts net H. unfold net_domains, decomon_net. apply map_ext_in. intros [i [o ps]] Hin. cbn [fst snd].
  destruct o as [L|]; [|reflexivity]. do 2 f_equal. apply functional_extensionality. intros ts. apply (H i L ps ts).
  apply In_nth_error in Hin. destruct Hin as [k E].
  assert (Hk : (k < length net)%nat).
  { assert (Q : nth_error (combine (seq 0 (length net)) net) k <> None) by congruence. apply nth_error_Some in Q. rewrite combine_length, seq_length in Q. lia. }
  destruct (nth_error net k) as [q|] eqn:En; [|apply nth_error_None in En; lia].
  rewrite (combine_at _ _ (seq 0 (length net)) net k k q (seq_at _ _ Hk) En) in E. injection E as <- ->. exact En.
Qed.

(** ** any graph of layers of a network, and any property of what flows on its edges *)
Section GNet.
Variables (call : nat -> nlayer -> list tensor -> result (list tensor)) (n : nat) (net : network) (v : nat -> vec -> vec).
Variables (P : nat -> (vec -> vec) -> list tensor -> Prop) (its : list tensor).
Let g : fgraph tensor :=
  map (fun q => mk_fnode (fst q) (match fst (snd q) with None => KInput | Some L => KOp (call (fst q) L) end) (snd (snd q)))
    (combine (seq 0 (length net)) net).
Hypothesis Hnet : net_ok n net.
Hypothesis Hval : net_value net v.
Hypothesis Hext : forall m f h ts, (forall z j, f z j = h z j) -> P m f ts -> P m h ts.
Hypothesis Hits : P n (fun y => y) its.
Hypothesis Hstep : forall i L ps vs, nth_error net i = Some (Some L, ps) -> evaluates (firstn i g) no_map its vs ->
  (forall p, In p ps -> P (net_dim n net p) (v p) (vs p)) ->
  exists out, call i L (concat (map vs ps)) = Ok out /\ P (nl_out L) (v i) out.

Lemma gnet_node : forall i o ps, nth_error net i = Some (o, ps) ->
  nth_error g i = Some (mk_fnode i (match o with None => KInput | Some L => KOp (call i L) end) ps).
Proof.
  intros i o ps E. unfold g. rewrite nth_error_map. assert (Hi : (i < length net)%nat) by (apply nth_error_Some; congruence).
  rewrite (combine_at _ _ (seq 0 (length net)) net i i (o, ps)); [reflexivity|apply seq_at; exact Hi|exact E].
Qed.
Lemma gnet_length : length g = length net.
Proof. unfold g. rewrite map_length, combine_length, seq_length. lia. Qed.
Lemma gnet_node_inv : forall i nod, nth_error g i = Some nod -> exists o ps, nth_error net i = Some (o, ps) /\
  nod = mk_fnode i (match o with None => KInput | Some L => KOp (call i L) end) ps.
Proof.
  intros i nod E. assert (Hi : (i < length net)%nat) by (rewrite <- gnet_length; apply nth_error_Some; congruence).
  destruct (nth_error net i) as [[o ps]|] eqn:En; [|apply nth_error_None in En; lia]. exists o, ps. split; [reflexivity|].
  rewrite (gnet_node i o ps En) in E. congruence.
Qed.
Lemma gnet_parents : parents_of g = map snd net.
Proof.
  unfold parents_of, g. rewrite map_map. cbn [fn_parents]. rewrite <- (map_map snd snd). f_equal.
  assert (Q : forall (l : list nat) (l' : network), length l = length l' -> map snd (combine l l') = l').
  { clear. induction l as [|a l IH]; intros [|b l'] E; try discriminate E; [reflexivity|]. cbn. f_equal. apply IH. cbn in E. lia. }
  apply Q. apply seq_length.
Qed.
Lemma gnet_acyclic : acyclic (map snd net).
Proof.
  intros i ps p E Hp. rewrite nth_error_map in E. destruct (nth_error net i) as [[o qs]|] eqn:En; [|discriminate E]. injection E as ->.
  destruct (Hnet i o ps En) as [Q _]. apply Q. exact Hp.
Qed.
Lemma gnet_unshared : unshared g.
Proof.
  unfold unshared, g. rewrite map_map. cbn [fn_op].
  assert (Q : forall (l : list nat) (l' : network), length l = length l' -> map fst (combine l l') = l).
  { clear. induction l as [|a l IH]; intros [|b l'] E; try discriminate E; [reflexivity|]. cbn. f_equal. apply IH. cbn in E. lia. }
  rewrite Q by apply seq_length. apply seq_NoDup.
Qed.

Lemma gnet_eval : exists vs, evaluates g no_map its vs /\ forall i, (i < length g)%nat -> P (net_dim n net i) (v i) (vs i).
Proof.
  assert (Hacy : acyclic (parents_of g)) by (rewrite gnet_parents; exact gnet_acyclic).
  apply (evaluates_build tensor g no_map its (fun i ts => P (net_dim n net i) (v i) ts)); [apply topo_acyclic; exact Hacy|].
  intros i nod vs En He IH. unfold no_map. destruct (gnet_node_inv i nod En) as (o & ps & Ei & ->). destruct (Hnet i o ps Ei) as [Hp Ho].
  cbn [fn_parents fn_kind]. unfold node_out. cbn [fn_kind]. destruct o as [L|].
  - destruct Ho as [Hps _]. destruct (Hstep i L ps vs Ei He) as (out & Eo & Vo).
    + intros p Q. apply IH. apply Hp. exact Q.
    + exists out. split; [destruct ps; [contradiction|exact Eo]|]. unfold net_dim. rewrite Ei. exact Vo.
  - subst ps. exists its. split; [reflexivity|]. unfold net_dim. rewrite Ei. apply (Hext n (fun y => y)); [|exact Hits].
    intros y j. symmetry. exact (Hval y i None [] Ei j).
Qed.

Lemma gnet_output : forall o, single_output net o ->
  exists ts, convert_forward g [o] no_map its = Ok ts /\ P (net_dim n net o) (v o) ts.
Proof.
  intros o [Ho Hall]. destruct gnet_eval as (vs & He & Hs). destruct (longest_path_exists _ gnet_acyclic) as [lv Hlv].
  assert (Hacy : acyclic (parents_of g)) by (rewrite gnet_parents; exact gnet_acyclic).
  assert (Hlv' : longest_path (parents_of g) lv) by (rewrite gnet_parents; exact Hlv).
  assert (Hdp : deepest (parents_of g) lv o).
  { rewrite gnet_parents. apply ancestors_deepest; [exact Hlv|rewrite map_length; exact Ho|]. rewrite map_length. exact Hall. }
  assert (Ho' : (o < length g)%nat) by (rewrite gnet_length; exact Ho).
  assert (Hg : g <> []) by (intros Q; rewrite Q in Ho'; cbn in Ho'; lia).
  pose proof (topo_acyclic _ g Hacy) as Ht.
  assert (Hsrc : forall i nod, nth_error g i = Some nod -> fn_parents nod = [] -> fn_kind nod = KInput).
  { intros i nod En Ep. destruct (gnet_node_inv i nod En) as (q & ps & Ei & ->). destruct q as [L|]; [|reflexivity]. destruct (Hnet i (Some L) ps Ei) as [_ [Q _]]. contradiction. }
  assert (Hf : filter (deepestb g lv) [o] = [o]) by (cbn; rewrite (deepest_b _ g lv o Hdp); reflexivity).
  exists (concat (map vs [o])). split.
  - assert (Eo : output_nodes g [o] = Ok [o]).
    { rewrite <- Hf at 2. apply output_nodes_ok; auto using gnet_unshared. intros o' [<-|[]]. exact Ho'. }
    apply (convert_forward_eval tensor g no_map its vs [o] [o]); auto; [intros i Q; exfalso; apply Q; reflexivity|].
    intros o' [<-|[]]. exact Ho'.
  - cbn [map concat]. rewrite app_nil_r. apply Hs. exact Ho'.
Qed.
End GNet.

(** ** a larger domain in inputs_outputs_spec is sound *)
Definition head_is (mode : fmode) (x : tensor) (ts : list tensor) : Prop := mode <> IBP -> nth 0 ts empty_tensor = x.

Lemma valid_inside : forall Da Ds mode (S : vec -> Prop) n m f ts, inside Da Ds n -> valid Da mode false S n m f ts -> valid Ds mode false S n m f ts.
Proof.
  intros Da Ds mode S n m f ts HI [Hl H]. split; [exact Hl|]. destruct mode.
  - exact H.
  - do 5 (destruct ts as [|? ts]; [contradiction|]). destruct H as [H1 H2]. split; [intros z Hz; apply HI; apply H1; exact Hz|exact H2].
  - do 7 (destruct ts as [|? ts]; [contradiction|]). destruct H as [H1 H2]. split; [intros z Hz; apply HI; apply H1; exact Hz|exact H2].
Qed.
Lemma valid_head : forall Da mode (S : vec -> Prop) n m f ts, valid Da mode false S n m f ts ->
  mode <> IBP -> forall z, S z -> in_dom Da n (nth 0 ts empty_tensor) z.
Proof.
  intros Da mode S n m f ts [_ H] Hm. destruct mode; [contradiction| |].
  - do 5 (destruct ts as [|? ts]; [contradiction|]). apply H.
  - do 7 (destruct ts as [|? ts]; [contradiction|]). apply H.
Qed.
Lemma valid_back : forall Da Ds mode (S : vec -> Prop) n m f ts, valid Ds mode false S n m f ts ->
  (mode <> IBP -> forall z, S z -> in_dom Da n (nth 0 ts empty_tensor) z) -> valid Da mode false S n m f ts.
Proof.
  intros Da Ds mode S n m f ts [Hl H] HI. split; [exact Hl|]. destruct mode.
  - exact H.
  - do 5 (destruct ts as [|? ts]; [contradiction|]). destruct H as [_ H2]. split; [|exact H2]. apply HI. discriminate.
  - do 7 (destruct ts as [|? ts]; [contradiction|]). destruct H as [_ H2]. split; [|exact H2]. apply HI. discriminate.
Qed.

(** layers which only read inputs_outputs_spec *)
Definition reads_spec (o : lopts) (L : nlayer) : bool :=
  match L with
  | NDense _ _ _ _ _ | NConv2D _ _ _ | NBatchNorm _ _ _ _ _ _ _ _ _ | NFlatten _ _ _ | NReshape _ | NPermute _ _ | NDropout _
  | NAdd _ _ | NAverage _ _ | NConcatenate _ _ _ _ => true
  | NMaxPool _ => lo_fast o
  | _ => false
  end.

Lemma extract_x : forall mode dc r, mode <> IBP -> nth 0 (extract mode dc r) empty_tensor = f_x r.
Proof. intros mode dc r H. destruct mode; [contradiction|reflexivity|reflexivity]. Qed.
Lemma full_x : forall sp ca ti ts r, sp_mode sp <> IBP -> get_fullinputs sp ca ti ts = Ok r -> f_x r = nth 0 ts empty_tensor.
Proof. intros sp ca ti ts r Hm E. rewrite <- get_fullinputs_r_false in E. exact (full_keeps_x _ _ _ _ _ _ Hm E). Qed.
Lemma concat_head : forall sp (tss : list (list tensor)), (forall l, In l tss -> length l = nb_tensors (sp_mode sp) false) ->
  nth 0 (map (fun l => nth 0 l empty_tensor) tss) empty_tensor = nth 0 (concat tss) empty_tensor.
Proof.
  intros sp [|l tss] H; [reflexivity|]. cbn [map nth concat]. specialize (H l (or_introl eq_refl)).
  destruct l as [|t l]; [destruct (sp_mode sp); discriminate H|reflexivity].
Qed.
Lemma by_type_x : forall sp tss R, sp_mode sp <> IBP -> sp_dc sp = false -> (forall l, In l tss -> length l = nb_tensors (sp_mode sp) false) ->
  get_fullinputs_by_type sp false true (concat tss) = Ok R -> nth 0 (f_x R) empty_tensor = nth 0 (concat tss) empty_tensor.
Proof.
  intros sp tss R Hm Hdc Hl E. pose proof (by_type_kept sp tss R Hm Hdc Hl E) as H. destruct (position (sp_mode sp)) as [[[a b] c] d].
  destruct H as [-> _]. exact (concat_head sp tss Hl).
Qed.

Lemma reduce_head : forall sp op opw tss out, sp_mode sp <> IBP -> sp_dc sp = false -> (forall l, In l tss -> length l = nb_tensors (sp_mode sp) false) ->
  merge_reduce sp op opw (concat tss) = Ok out -> nth 0 out empty_tensor = nth 0 (concat tss) empty_tensor.
Proof.
  intros sp op opw tss out Hm Hdc Hl E. unfold merge_reduce in E. apply bind_ok in E as (r & Er & E).
  rewrite <- (by_type_x sp tss r Hm Hdc Hl Er). destruct (f_x r) as [|x q]; [discriminate E|]. rewrite Hdc in E.
  destruct (get_ibp (sp_mode sp)), (get_affine (sp_mode sp)); injection E; intros <-; rewrite extract_x by exact Hm; reflexivity.
Qed.

Lemma spec_head : forall ke sp o L tss out, sp_mode sp <> IBP -> sp_dc sp = false -> dom_ok (sp_dom sp) (sp_mode sp) -> reads_spec o L = true ->
  (forall l, In l tss -> length l = nb_tensors (sp_mode sp) false) ->
  decomon_layer ke sp o L (concat tss) = Ok out -> nth 0 out empty_tensor = nth 0 (concat tss) empty_tensor.
Proof.
  intros ke sp o L tss out Hm Hdc Hd Hr Hl E. pose proof (affine_mode sp Hm) as Ha. destruct L; cbn [reads_spec] in Hr; try discriminate Hr; cbn [decomon_layer] in E.
  - unfold decomon_dense in E. apply bind_ok in E as (r & Er & E). destruct (dense_full_out sp d units kernel bias r) as (q & Eq & [_ Lo]).
    rewrite Eq in E. injection E; intros <-. rewrite extract_x by exact Hm. destruct (Lo Ha) as (-> & _). exact (full_keeps_x _ _ _ _ _ _ Hm Er).
  - unfold decomon_conv2d in E. apply bind_ok in E as (r & Er & E). destruct (conv_full_out sp g kernel bias r Hd) as (q & Eq & [_ Lo]).
    rewrite Eq in E. injection E; intros <-. rewrite extract_x by exact Hm. destruct (Lo Ha) as (-> & _). exact (full_keeps_x _ _ _ _ _ _ Hm Er).
  - unfold decomon_bn in E. apply bind_ok in E as (r & Er & E). apply bind_ok in E as (a & _ & E). unfold finish in E. rewrite Hdc in E. injection E; intros <-.
    rewrite extract_x by exact Hm. exact (full_x _ _ _ _ _ Hm Er).
  - unfold decomon_flatten in E. apply bind_ok in E as (r & Er & E). injection E; intros <-. rewrite extract_x by exact Hm. exact (full_x _ _ _ _ _ Hm Er).
  - unfold decomon_reshape in E. apply bind_ok in E as (r & Er & E). injection E; intros <-. rewrite extract_x by exact Hm. exact (full_x _ _ _ _ _ Hm Er).
  - unfold decomon_permute in E. apply bind_ok in E as (r & Er & E). injection E; intros <-. rewrite extract_x by exact Hm. exact (full_x _ _ _ _ _ Hm Er).
  - injection E; intros <-. reflexivity.
  - unfold decomon_max_pooling in E. apply bind_ok in E as (fl & _ & E). rewrite Hr in E. unfold pool_fast in E. apply bind_ok in E as (r & Er & E).
    unfold finish in E. rewrite Hdc in E. injection E; intros <-. rewrite extract_x by exact Hm. exact (full_x _ _ _ _ _ Hm Er).
  - exact (reduce_head sp _ _ tss out Hm Hdc Hl E).
  - exact (reduce_head sp _ _ tss out Hm Hdc Hl E).
  - unfold decomon_concatenate in E. apply bind_ok in E as (r & Er & E). apply bind_ok in E as (a & _ & E). apply bind_ok in E as (w & _ & E).
    unfold finish in E. rewrite Hdc in E. injection E; intros <-. rewrite extract_x by exact Hm. cbn [f_x]. exact (by_type_x sp tss r Hm Hdc Hl Er).
Qed.

(** ** layers which read both domains *)
Section Both.
Variables (ke : R) (mode : fmode) (n : nat) (Da Ds : domain).
Hypothesis Hke : 0 < ke.
Hypothesis Hn : (0 < n)%nat.
Hypothesis Hda : dom_ok Da mode.
Hypothesis Hds : dom_ok Ds mode.
Hypothesis HI : inside Da Ds n.
Let sa := mk_spec false mode Da n.
Let ss := mk_spec false mode Ds n.

Lemma conv_both : forall g kernel bias ts, conv2d_domains sa ss g kernel bias ts = decomon_conv2d ss g kernel bias false ts.
Proof.
  intros g kernel bias ts. unfold conv2d_domains, decomon_conv2d. destruct (get_fullinputs_r false ss false true ts) as [r|e]; [|reflexivity]. cbn [bind].
  assert (E : conv_full sa g kernel bias false r = conv_full ss g kernel bias false r); [|rewrite E; reflexivity].
  unfold conv_full, sa, ss. cbn [sp_mode sp_dc sp_dom sp_n]. destruct (get_affine mode) eqn:Ea; [|reflexivity].
  assert (Na : norm_ok Da) by (destruct mode; [discriminate Ea|exact Hda|exact Hda]).
  assert (Ns : norm_ok Ds) by (destruct mode; [discriminate Ea|exact Hds|exact Hds]).
  destruct (get_upper_ok Da n (f_x r) (ew2 Rminus (f_wu r) (f_wl r)) (ew2 Rminus (f_bu r) (f_bl r) 0%nat) Na) as [xa ->].
  destruct (get_upper_ok Ds n (f_x r) (ew2 Rminus (f_wu r) (f_wl r)) (ew2 Rminus (f_bu r) (f_bl r) 0%nat) Ns) as [xs ->].
  reflexivity.
Qed.

Definition pool_gaps_domains (g : conv_geo) (fl : pool_filters) (ts : list tensor) : Prop :=
  forall r, get_fullinputs ss false true ts = Ok r ->
    op_max_gaps ke sa (pool_shape g ++ [pool_p g]) (-1) None
      (extract mode false (move_full ss (pool_conv g fl) (pool_conv g fl) r)) (prodn (pool_shape g ++ [])).

Lemma pool_both : forall g fl (S : vec -> Prop) f ts, pool_ok g ->
  pool_init (wn_k (cg_y g)) (wn_k (cg_x g)) = Ok fl ->
  op_sp sa S (im_size (cg_in g)) f ts -> pool_gaps_domains g fl ts ->
  exists out, pool_not_fast_domains ke sa ss g fl ts = Ok out /\ op_sp sa S (im_size (cg_out g)) (fun z => max_pool g (f z)) out.
Proof.
  intros g fl S f ts Hg Hfl Hv Hgap.
  assert (Hsize : prodn (pool_shape g ++ [pool_p g]) = (im_size (cg_out g) * pool_p g)%nat) by (cbn; unfold im_size; lia).
  assert (Ffl : forall a b p, (a < wn_k (cg_y g))%nat -> (b < wn_k (cg_x g))%nat -> fl a b p = if Nat.eqb p (filter_index (wn_k (cg_y g)) a b) then 1 else 0).
  { destruct (pool_init_ok (wn_k (cg_y g)) (wn_k (cg_x g))) as (fl' & E' & P').
    - destruct Hg as (_ & _ & _ & _ & ? & [-> | ->]); lia.
    - rewrite Hfl in E'. injection E'; intros ->. auto. }
  destruct (move_layer ss S (im_size (cg_in g)) (prodn (pool_shape g ++ [pool_p g])) f (pool_idx g) (pool_conv g fl) (pool_conv g fl) ts Hn Hds) as (r & Er & V); [| | |exact (valid_inside Da Ds mode S n _ f ts HI Hv)|].
  - intros q Hq. rewrite Hsize in Hq. apply pool_idx_lt; auto.
  - intros t q Hq. rewrite Hsize in Hq. apply pool_conv_at; auto.
  - intros t i q _ Hq. rewrite Hsize in Hq. apply pool_conv_at; auto.
  - assert (Va : op_sp sa S (prodn (pool_shape g ++ [pool_p g])) (fun z q => f z (pool_idx g q)) (extract mode false (move_full ss (pool_conv g fl) (pool_conv g fl) r))).
    { apply (valid_back Da Ds); [exact V|]. intros Hm z Hz. rewrite extract_x by exact Hm. cbn [move_full f_x].
      rewrite (full_x ss false true ts r Hm Er). exact (valid_head Da mode S n _ f ts Hv Hm z Hz). }
    unfold pool_not_fast_domains. rewrite Er. cbn [bind]. cbv zeta.
    assert (HP : (0 < wn_k (cg_y g))%nat -> (0 < pool_p g)%nat) by (destruct Hg as (_ & _ & _ & _ & ? & _); unfold pool_p; nia).
    assert (Hky : (0 < wn_k (cg_y g))%nat) by (destruct Hg as (_ & _ & _ & _ & ? & [-> | ->]); lia).
    destruct (max_sound ke sa S (pool_shape g) (pool_p g) [] (-1)%Z None (fun z q => f z (pool_idx g q)) (fun z => max_pool g (f z))
       (extract mode false (move_full ss (pool_conv g fl) (pool_conv g fl) r))) as (out & Eo & Vo); auto.
    + right. split; auto.
    + intros z p q Ip Iq. inversion Iq; subst. rewrite !app_nil_r.
      pose proof (ravel_lt _ _ Ip) as Lp.
      assert (Hj : (ravel (pool_shape g) p < im_size (cg_out g))%nat) by (cbn [pool_shape prodn] in Lp; unfold im_size; lia).
      assert (Ex : forall c, ravel (pool_shape g ++ [pool_p g]) (p ++ [c]) = (ravel (pool_shape g) p * pool_p g + c)%nat).
      { intros c. rewrite ravel_app by auto. cbn [ravel prodn]. lia. }
      rewrite (max_pool_rmax g (f z) _ (pool_p g) (fun c => pool_idx g (ravel (pool_shape g) p * pool_p g + c))); auto.
      * apply rmax_ext; auto. all: intros c Hc; rewrite Ex; auto.
      * intros i. rewrite pool_px_in. split.
        -- intros (ky & kx & K1 & K2 & Es). destruct (pool_src g _ ky kx Hg Hj K1 K2) as [Es' _]. rewrite Es' in Es. injection Es; intros <-.
           exists (ky * wn_k (cg_x g) + kx)%nat. split; auto. unfold pool_p. nia.
        -- intros (c & Hc & <-). assert (Hkx : wn_k (cg_x g) <> 0%nat) by (destruct Hg as (_ & _ & _ & _ & ? & _); lia).
           pose proof (Nat.div_mod c (wn_k (cg_x g)) Hkx) as E'. pose proof (Nat.mod_upper_bound c (wn_k (cg_x g)) Hkx) as L'.
           assert (Ly : (c / wn_k (cg_x g) < wn_k (cg_y g))%nat) by (apply Nat.div_lt_upper_bound; auto; unfold pool_p in Hc; lia).
           exists (c / wn_k (cg_x g))%nat, (c mod wn_k (cg_x g))%nat. repeat split; auto.
           destruct (pool_src g _ _ _ Hg Hj Ly L') as [Es' _]. rewrite Es'. f_equal. f_equal. lia.
    + exact I.
    + exists out. split; [exact Eo|]. rewrite app_nil_r in Vo. replace (prodn (pool_shape g)) with (im_size (cg_out g)) in Vo by (cbn; unfold im_size; lia). exact Vo.
Qed.

Lemma dot_both : forall pre0 post0 pre1 post1 k axis0 axis1 (S : vec -> Prop) f0 f1 g in0 in1,
  dot_axis_ok mode pre0 post0 axis0 -> dot_axis_ok mode pre1 post1 axis1 ->
  op_sp sa S (prodn (pre0 ++ k :: post0)) f0 in0 -> op_sp sa S (prodn (pre1 ++ k :: post1)) f1 in1 ->
  dotted pre0 post0 pre1 post1 k f0 f1 g ->
  exists out, dot_domains sa ss (pre0 ++ k :: post0) (pre1 ++ k :: post1) axis0 axis1 (in0 ++ in1) = Ok out /\
    op_sp sa S (prodn ((pre0 ++ post0) ++ pre1 ++ post1)) g out.
Proof.
  intros pre0 post0 pre1 post1 k axis0 axis1 S f0 f1 g in0 in1 Ha0 Ha1 V0 V1 Hg.
  assert (Hdc : sp_dc sa = false) by reflexivity. assert (Hd : dom_ok (sp_dom sa) (sp_mode sa)) by exact Hda.
  destruct (permute_dim_sound sa pre0 k post0 axis0 S f0 in0 Hdc Ha0 V0) as (p0 & i0 & E0 & T0 & (tw0 & W0 & HW0) & I0 & P0).
  destruct (permute_dim_sound sa pre1 k post1 axis1 S f1 in1 Hdc Ha1 V1) as (p1 & i1 & E1 & T1 & (tw1 & W1 & HW1) & I1 & P1).
  unfold dot_domains. assert (Hif : forall (A : Type) (a b : A), (if sp_dc sa then a else b) = b) by (intros; rewrite Hdc; auto). rewrite Hif. clear Hif.
  assert (Sp : split_to_merge (nb_tensors (sp_mode sa) (sp_dc sa)) (in0 ++ in1) = [in0; in1]).
  { replace (in0 ++ in1) with (concat [in0; in1]) by (cbn; rewrite app_nil_r; auto).
    rewrite nb_tensors_spec. apply split_to_merge_concat.
    - destruct (sp_mode sa), (sp_dc sa); cbn; lia.
    - intros l [<-|[<-|[]]]; [apply V0 | apply V1]. }
  rewrite Sp. cbv zeta. rewrite E0, E1, T0, T1, W0, W1. cbn [bind tl hd].
  assert (Chk : (get_affine (sp_mode sa) && negb (shape_eqb tw0 (sp_n sa :: k :: pre0 ++ post0) && shape_eqb tw1 (sp_n sa :: k :: pre1 ++ post1)))%bool = false).
  { destruct (get_affine (sp_mode sa)) eqn:Ea; auto. rewrite HW0, HW1 by auto. unfold shape_eqb.
    destruct (list_eq_dec Nat.eq_dec _ _); [|congruence]. destruct (list_eq_dec Nat.eq_dec _ _); [auto|congruence]. }
  rewrite Chk. rewrite Nat.eqb_refl. cbn [negb].
  set (n0 := prodn (pre0 ++ post0)) in *. set (n1 := prodn (pre1 ++ post1)) in *.
  assert (Hb0 : forall j, (j < k * (n0 * n1))%nat -> (dot_idx0 n0 n1 j < prodn (k :: pre0 ++ post0))%nat).
  { intros j Hj. destruct (dot_split _ _ _ _ Hj) as (c & a & b & Hc & Ha & Hb & ->). rewrite dot_idx0_at by auto.
    cbn [prodn]. fold n0. nia. }
  assert (Hb1 : forall j, (j < k * (n0 * n1))%nat -> (dot_idx1 n0 n1 j < prodn (k :: pre1 ++ post1))%nat).
  { intros j Hj. destruct (dot_split _ _ _ _ Hj) as (c & a & b & Hc & Ha & Hb & ->). rewrite dot_idx1_at by auto.
    cbn [prodn]. fold n1. nia. }
  destruct (broadcast_sound sa S _ (k * (n0 * n1)) _ (dot_idx0 n0 n1) p0 Hdc Hb0 P0) as (b0 & B0 & VB0).
  destruct (broadcast_sound sa S _ (k * (n0 * n1)) _ (dot_idx1 n0 n1) p1 Hdc Hb1 P1) as (b1 & B1 & VB1).
  rewrite B0, B1. cbn [bind].
  destruct (multiply_sound sa S _ _ _ b0 b1 Hn Hd Hdc VB0 VB1) as (o & M & VM).
  rewrite M. cbn [bind].
  assert (Al : along_axis rsum [] k [(n0 * n1)%nat]
      (fun z j => f0 z (i0 (dot_idx0 n0 n1 j)) * f1 z (i1 (dot_idx1 n0 n1 j))) g).
  { intros z p q Ip Iq. inversion Ip; subst. inversion Iq as [|? q0 ? ql Hq0 Hql]; subst. inversion Hql; subst.
    cbn [app].
    destruct (dot_split 1 n0 n1 q0) as (c0 & a & b & Hc0 & Ha & Hb & Eq); [lia|].
    assert (c0 = 0%nat) by lia. subst c0. cbn [Nat.mul Nat.add] in Eq.
    destruct (position_split pre0 post0 a Ha) as (pa & qa & Ipa & Iqa & Ea).
    destruct (position_split pre1 post1 b Hb) as (pb & qb & Ipb & Iqb & Eb).
    assert (Eg : ravel [(n0 * n1)%nat] [q0] = ravel ((pre0 ++ post0) ++ pre1 ++ post1) ((pa ++ qa) ++ pb ++ qb)).
    { rewrite ravel_app by (apply Forall2_app; auto). rewrite <- Ea, <- Eb. cbn [ravel prodn]. fold n1. lia. }
    rewrite Eg. rewrite Hg by auto. apply rsum_ext. intros c Hc.
    assert (Ec : ravel [k; (n0 * n1)%nat] [c; q0] = (c * (n0 * n1) + (a * n1 + b))%nat) by (cbn [ravel prodn]; lia).
    rewrite Ec. rewrite dot_idx0_at, dot_idx1_at by auto.
    rewrite <- (I0 pa c qa), <- (I1 pb c qb) by auto. cbn [ravel]. rewrite <- Ea, <- Eb. fold n0 n1. reflexivity. }
  destruct (sum_sound ss S [] k [(n0 * n1)%nat] (pos_axis []) _ g o Hn Hds eq_refl (or_introl eq_refl) Al) as (out & Es & Vs).
  { apply (valid_inside Da Ds mode); [exact HI|]. eapply (op_sp_ext sa); [|cbn [app prodn]; rewrite Nat.mul_1_r; exact VM]. intros; reflexivity. }
  unfold op_sum in Es. cbn [app] in Es.
  destruct (get_fullinputs ss false true o) as [r|e] eqn:Er; [|discriminate Es]. cbn [bind] in Es |- *.
  assert (Eo : finish ss (move_full ss (red_axis rsum [k; (n0 * n1)%nat] 0) (red_axis rsum [k; (n0 * n1)%nat] 0) r) = Ok out).
  { cbn [sp_mode sp_dc ss] in *. destruct (get_affine mode) eqn:Ea; cbn -[red_axis] in Es; unfold finish, move_full, when in Es |- *; cbn [sp_mode sp_dc ss] in *; rewrite Ea in *; exact Es. }
  exists out. split; [exact Eo|]. apply (valid_back Da Ds).
  - rewrite prodn_app. cbn [app prodn] in Vs. rewrite Nat.mul_1_r in Vs. exact Vs.
  - intros Hm z Hz. unfold finish in Eo. cbn [sp_dc sp_mode ss] in Eo. injection Eo; intros <-. rewrite extract_x by exact Hm. cbn [move_full f_x].
    rewrite (full_x ss false true o r Hm Er). exact (valid_head Da mode S n _ _ o VM Hm z Hz).
Qed.
End Both.

(** ** one layer, then a network *)
Definition nl_gaps_domains (ke : R) (mode : fmode) (n : nat) (Da Ds : domain) (o : lopts) (L : nlayer) (ts : list tensor) : Prop :=
  match L with
  | NMaxPool g => lo_fast o = true \/ mode = IBP \/ forall fl, pool_init (wn_k (cg_y g)) (wn_k (cg_x g)) = Ok fl -> pool_gaps_domains ke mode n Da Ds g fl ts
  | _ => nl_gaps ke (mk_spec false mode Da n) o L ts
  end.

Lemma blocks_inside : forall Da Ds mode n (S : vec -> Prop) (mgs : list (nat * (vec -> vec))) tss, inside Da Ds n ->
  Forall2 (fun mg ts => op_sp (mk_spec false mode Da n) S (fst mg) (snd mg) ts) mgs tss ->
  Forall2 (fun mg ts => op_sp (mk_spec false mode Ds n) S (fst mg) (snd mg) ts) mgs tss.
Proof. intros Da Ds mode n S mgs tss HI HF. induction HF as [|mg ts q q' V HF IH]; constructor; [exact (valid_inside Da Ds mode S n _ _ _ HI V)|exact IH]. Qed.
Lemma blocks_length : forall sp (S : vec -> Prop) (mgs : list (nat * (vec -> vec))) tss, sp_dc sp = false ->
  Forall2 (fun mg ts => op_sp sp S (fst mg) (snd mg) ts) mgs tss ->
  forall l, In l tss -> length l = nb_tensors (sp_mode sp) false.
Proof.
  intros sp S mgs tss Hdc HF. induction HF as [|mg ts q q' V HF IH]; intros l Hl; [contradiction|].
  destruct Hl as [<-|Hl]; [|exact (IH l Hl)]. rewrite nb_tensors_spec, <- Hdc. exact (proj1 V).
Qed.
Lemma blocks_head : forall Da mode n (S : vec -> Prop) (mgs : list (nat * (vec -> vec))) tss, mgs <> [] -> mode <> IBP ->
  Forall2 (fun mg ts => op_sp (mk_spec false mode Da n) S (fst mg) (snd mg) ts) mgs tss ->
  forall z, S z -> in_dom Da n (nth 0 (concat tss) empty_tensor) z.
Proof.
  intros Da mode n S mgs tss Hne Hm HF z Hz. destruct HF as [|mg ts q q' V HF]; [contradiction|]. cbn [concat].
  pose proof (valid_head Da mode S n _ _ ts V Hm z Hz) as H. destruct ts as [|t ts]; [|exact H].
  destruct V as [Q _]. destruct mode; discriminate Q.
Qed.
Lemma nl_in_some : forall mode fast L, nl_ok mode fast L -> nl_in L <> [].
Proof.
  intros mode fast L H. destruct L; cbn in *; try discriminate; try (destruct k; [lia|discriminate]).
  destruct H as [H _]. destruct ks; [contradiction|discriminate].
Qed.

Lemma layer_domains_sound : forall ke mode n Da Ds o L, 0 < ke -> (0 < n)%nat -> dom_ok Da mode -> dom_ok Ds mode -> inside Da Ds n ->
  nl_ok mode (lo_fast o) L -> ft_ok (nl_out L) (lo_ft o) ->
  let sa := mk_spec false mode Da n in let ss := mk_spec false mode Ds n in
  forall (S : vec -> Prop) gs tss g, (mode = IBP \/ exists z, S z) ->
    Forall2 (fun mg ts => op_sp sa S (fst mg) (snd mg) ts) (combine (nl_in L) gs) tss -> length gs = length (nl_in L) ->
    nl_gaps_domains ke mode n Da Ds o L (concat tss) -> (forall z, computes L (map (fun h => h z) gs) (g z)) ->
    exists out, layer_domains ke sa ss o L (concat tss) = Ok out /\ op_sp sa S (nl_out L) g out.
Proof.
  intros ke mode n Da Ds o L Hke Hn Hda Hds HI Hok Hft sa ss S gs tss g Hne HF Hl HG HC.
  assert (Spec : reads_spec o L = true -> exists out, decomon_layer ke ss o L (concat tss) = Ok out /\ op_sp sa S (nl_out L) g out).
  { intros Hr. destruct (layer_sound ke ss o L Hke Hn Hds eq_refl Hok Hft S gs tss g Hne (blocks_inside Da Ds mode n S _ _ HI HF) Hl) as (out & Eo & Vo).
    - apply nl_free_gaps. destruct L; try exact I; try discriminate Hr. exact Hr.
    - exact HC.
    - exists out. split; [exact Eo|]. apply (valid_back Da Ds); [exact Vo|]. intros Hm z Hz.
      rewrite (spec_head ke ss o L tss out Hm eq_refl Hds Hr (blocks_length sa S _ _ eq_refl HF) Eo).
      apply (blocks_head Da mode n S (combine (nl_in L) gs) tss); auto.
      pose proof (nl_in_some mode _ L Hok) as Q. destruct (nl_in L); [contradiction|]. destruct gs; [discriminate Hl|]. discriminate. }
  assert (Attr : nl_gaps ke sa o L (concat tss) -> exists out, decomon_layer ke sa o L (concat tss) = Ok out /\ op_sp sa S (nl_out L) g out).
  { intros HG'. exact (layer_sound ke sa o L Hke Hn Hda eq_refl Hok Hft S gs tss g Hne HF Hl HG' HC). }
  destruct L; cbn [layer_domains]; try (apply Spec; reflexivity); try (apply Attr; exact HG).
  - pose proof (conv_both mode n Da Ds Hda Hds g0 kernel bias (concat tss)) as E. fold sa ss in E. rewrite E. apply Spec. reflexivity.
  - unfold max_pooling_domains. destruct (lo_fast o) eqn:Ef.
    + assert (E : (fl <- pool_init (wn_k (cg_y g0)) (wn_k (cg_x g0)) ; pool_fast ss g0 (concat tss)) = decomon_layer ke ss o (NMaxPool g0) (concat tss))
        by (cbn [decomon_layer]; unfold decomon_max_pooling; rewrite Ef; reflexivity).
      rewrite E. apply Spec. exact Ef.
    + cbn [nl_ok nl_in nl_out nl_gaps_domains] in *. destruct (one_input _ _ _ _ _ HF Hl) as (f & ts & -> & E & V). rewrite E in *. cbn in HC. destruct Hok as [Hc Hok].
      apply (ew_ext sa S (im_size (cg_out g0)) (fun z => max_pool g0 (f z)) g); [intros z j Hj; symmetry; apply HC; exact Hj|].
      assert (Hp : pool_ok g0) by (unfold pool_ok; intuition).
      destruct (pool_init_ok (wn_k (cg_y g0)) (wn_k (cg_x g0))) as (fl & Efl & _).
      { destruct Hp as (_ & _ & _ & _ & ? & [-> | ->]); lia. }
      rewrite Efl. cbn [bind]. apply pool_both; auto. destruct HG as [Q|[M|G]]; [congruence| |exact (G fl Efl)].
      intros r _ K. cbn in K. congruence.
  - cbn [nl_ok nl_in nl_out] in *. destruct (two_inputs _ _ _ _ _ _ HF Hl) as (f0 & f1 & in0 & in1 & -> & E & V0 & V1). rewrite E in *. cbn in HC. destruct Hok as [Ha0 Ha1].
    apply (dot_both mode n Da Ds Hn Hda Hds HI pre0 post0 pre1 post1 k axis0 axis1 S f0 f1 g in0 in1); auto.
Qed.

(** ** before any change *)
Lemma net_domains_same : forall ke sp opts net, net_domains ke sp sp opts net = decomon_net ke sp opts net.
Proof. intros. apply net_domains_ext. intros. apply layer_domains_same. Qed.
Lemma domains_same : forall ke D m mode final fwd bwd n net o z,
  converted_domains ke D D m mode final fwd bwd n net o z = converted ke D m mode final fwd bwd n net o z.
Proof.
  intros ke D m mode final fwd bwd n net o z. unfold converted_domains, converted, forward_domains, backward_domains, clone_forward, clone_backward, convert_backward.
  rewrite net_domains_same. destruct m; reflexivity.
Qed.

(** affine mode: as the conversion with the new domain *)
Lemma input_type : forall D D' mode n z, mode <> HYBRID -> mode <> IBP -> same_type D' D = true -> get_input_tensors (Some D) mode n z = get_input_tensors (Some D') mode n z.
Proof.
  intros D D' mode n z H1 H2 T. destruct mode; try contradiction. destruct D as [|e p], D' as [|e' p']; try discriminate T; [reflexivity|]. destruct p, p'; reflexivity.
Qed.
Lemma convert_affine_domain : forall D D' n ts, convert2mode D n AFFINE AFFINE ts = convert2mode D' n AFFINE AFFINE ts.
Proof.
  intros D D' n ts. unfold convert2mode. change (mode_eqb AFFINE AFFINE && negb (mode_eqb AFFINE AFFINE))%bool with false.
  rewrite (full_domain' AFFINE n D' D) by discriminate. reflexivity.
Qed.
Lemma domains_affine : forall ke Da Ds m fwd bwd n net o z,
  (m = CROWN \/ forall i L ps, nth_error net i = Some (Some L, ps) -> no_fast_pool AFFINE (fwd i) L) -> same_type Da Ds = true ->
  converted_domains ke Da Ds m AFFINE AFFINE fwd bwd n net o z = converted ke Da m AFFINE AFFINE fwd bwd n net o z.
Proof.
  intros ke Da Ds m fwd bwd n net o z Hp T. rewrite <- domains_same. unfold converted_domains, forward_domains, backward_domains.
  rewrite (input_type Ds Da AFFINE n z) by (try discriminate; exact T).
  assert (E : m = CROWN \/ net_domains ke (mk_spec false AFFINE Da n) (mk_spec false AFFINE Ds n) fwd net = net_domains ke (mk_spec false AFFINE Da n) (mk_spec false AFFINE Da n) fwd net).
  { destruct Hp as [Q|Hp]; [left; exact Q|right]. rewrite net_domains_same. apply net_domains_ext. intros i L ps ts Ei. apply layer_domains_eq; [discriminate|exact (Hp i L ps Ei)]. }
  assert (C : convert2mode Ds n AFFINE AFFINE = convert2mode Da n AFFINE AFFINE) by (apply functional_extensionality; intros ts; apply convert_affine_domain).
  rewrite C. destruct E as [->|E]; [cbn [get_direction]; cbv iota; reflexivity|rewrite E; reflexivity].
Qed.

Lemma layer_ibp_domain : forall ke n D D' o L ts, decomon_layer ke (mk_spec false IBP D n) o L ts = decomon_layer ke (mk_spec false IBP D' n) o L ts.
Proof.
  intros ke n D D' o L ts.
  destruct L; cbn [decomon_layer].
  1-7: rewrite <- ?(layer_domains_eq ke IBP n D D' o) by (try discriminate; exact I); reflexivity.
  - destruct a; cbn [decomon_activation]; reflexivity.
  - unfold decomon_max_pooling. destruct (pool_init _ _); [|reflexivity]. cbn [bind]. destruct (lo_fast o); reflexivity.
  - reflexivity.
  - reflexivity.
  - reflexivity.
  - reflexivity.
  - reflexivity.
  - reflexivity.
  - reflexivity.
  - reflexivity.
Qed.

(** interval mode: as before the change *)
Lemma domains_ibp : forall ke Da Ds m final fwd bwd n net o z,
  (get_direction m = BACKWARD -> Ds = Box) -> same_type Da Ds = true ->
  converted_domains ke Da Ds m IBP final fwd bwd n net o z = converted ke Ds m IBP final fwd bwd n net o z.
Proof.
  intros ke Da Ds m final fwd bwd n net o z HB T. destruct (get_direction m) eqn:Ed.
  - unfold converted_domains, converted. rewrite Ed. unfold forward_domains, clone_forward.
    destruct (get_input_tensors (Some Ds) IBP n z) as [its|]; [|reflexivity]. cbn [bind].
    rewrite (net_domains_ext ke (mk_spec false IBP Da n) (mk_spec false IBP Ds n) (mk_spec false IBP Ds n) fwd net); [reflexivity|].
    intros i L ps ts Ei. rewrite layer_domains_eq by (try discriminate; destruct L; cbn; auto). apply layer_ibp_domain.
  - rewrite (HB eq_refl) in *. destruct Da; [|discriminate T]. apply domains_same.
Qed.

(** ** every mode, when the points of the new domain belong to the domain of the conversion *)
Lemma valid_smaller : forall D mode (S S' : vec -> Prop) n m f ts, (forall z, S' z -> S z) -> valid D mode false S n m f ts -> valid D mode false S' n m f ts.
Proof.
  intros D mode S S' n m f ts HS [Hl H]. split; [exact Hl|].
  assert (C : forall u l, const_ok S m f u l -> const_ok S' m f u l) by (intros u l K z j Hz Hj; apply K; auto).
  assert (A : forall wu bu wl bl, affine_ok S n m f wu bu wl bl -> affine_ok S' n m f wu bu wl bl) by (intros wu bu wl bl K z j Hz Hj; apply K; auto).
  destruct mode.
  - do 2 (destruct ts as [|? ts]; [contradiction|]). apply C. exact H.
  - do 5 (destruct ts as [|? ts]; [contradiction|]). destruct H as [H1 H2]. split; [intros z Hz; apply H1; auto|apply A; exact H2].
  - do 7 (destruct ts as [|? ts]; [contradiction|]). destruct H as (H1 & H2 & H3). split; [intros z Hz; apply H1; auto|]. split; [apply C; exact H2|apply A; exact H3].
Qed.
Lemma input_head : forall D mode n z its, mode <> IBP -> get_input_tensors (Some D) mode n z = Ok its -> nth 0 its empty_tensor = z.
Proof.
  intros D mode n z its Hm E. unfold get_input_tensors in E. apply bind_ok in E as ([[[u w] b] l] & _ & E). injection E; intros <-.
  rewrite extract_x by exact Hm. reflexivity.
Qed.
Lemma convert_head : forall D n from to_ ts out, from <> IBP -> to_ <> IBP -> convert2mode D n from to_ ts = Ok out -> nth 0 out empty_tensor = nth 0 ts empty_tensor.
Proof.
  intros D n from to_ ts out Hf Ht E. unfold convert2mode in E. apply bind_ok in E as (r & Er & E).
  replace (mode_eqb from IBP && negb (mode_eqb to_ IBP))%bool with false in E by (destruct from; [contradiction|reflexivity|reflexivity]).
  injection E; intros <-. rewrite extract_x by exact Ht. exact (full_x (mk_spec false from D n) _ _ ts r Hf Er).
Qed.

(** no interval narrower than epsilon during the conversion (nl_gaps, bl_gaps) *)
Definition forward_gaps2 (ke : R) (Da Ds : domain) (mode : fmode) (fwd : nat -> lopts) (n : nat) (net : network) (z : tensor) : Prop :=
  forall its i L ps vs, get_input_tensors (Some Ds) mode n z = Ok its -> nth_error net i = Some (Some L, ps) ->
    evaluates (firstn i (net_domains ke (mk_spec false mode Da n) (mk_spec false mode Ds n) fwd net)) no_map its vs ->
    nl_gaps_domains ke mode n Da Ds (fwd i) L (concat (map vs ps)).
Definition backward_gaps2 (ke : R) (Da Ds : domain) (mode : fmode) (om : list tensor -> omap tensor -> Prop) (bwd : nat -> bopts) (n : nat) (net : network) (z : tensor) : Prop :=
  forall its m i L ps imap ts, get_input_tensors (Some Ds) mode n z = Ok its -> om its m -> nth_error net i = Some (Some L, ps) ->
    let g := backward_net ke (mk_spec false mode Da n) bwd n net in
    get_input_nodes mode Da n its m g (firstn i g) [] = Ok imap -> node_inputs mode Da n its m g imap ps = Ok ts ->
    bl_gaps ke (mk_spec false mode Da n) L ts.

Section Inside.
Variables (ke : R) (Da Ds : domain) (mode final : fmode) (fwd : nat -> lopts) (bwd : nat -> bopts) (n : nat) (net : network) (v : nat -> vec -> vec) (o : nat) (z : tensor).
Hypothesis Hke : 0 < ke.
Hypothesis Hn : (0 < n)%nat.
Hypothesis ND : norm_ok Ds.
Hypothesis ND' : norm_ok Da.
Hypothesis HI : inside Da Ds n.
Hypothesis Hnet : net_ok n net.
Hypothesis Hval : net_value net v.
Hypothesis Ho : single_output net o.
Let sa := mk_spec false mode Da n.
Let ss := mk_spec false mode Ds n.

Lemma inside_input : exists its, get_input_tensors (Some Ds) mode n z = Ok its /\ valid Da mode false (in_dom Da n z) n n (fun y => y) its.
Proof.
  destruct (input_tensors_ok Ds mode n z Hn (fun _ => ND)) as (its & Ei & Vi). exists its. split; [exact Ei|].
  apply (valid_back Da Ds); [exact (valid_smaller Ds mode _ _ n n _ its (fun y => HI z y) Vi)|]. intros Hm y Hy. rewrite (input_head Ds mode n z its Hm Ei). exact Hy.
Qed.
Lemma inside_final : forall q f ts, (mode = IBP -> final = IBP) -> valid Da mode false (in_dom Da n z) n q f ts ->
  exists out, convert2mode Ds n mode final ts = Ok out /\ valid Da final false (in_dom Da n z) n q f out.
Proof.
  intros q f ts Hmf V. assert (Hd : dom_ok Ds mode) by (destruct mode; cbn; auto).
  destruct (convert2mode_sound Ds n mode final (in_dom Da n z) q f ts Hn Hd Hmf (valid_inside Da Ds mode _ n _ _ ts HI V)) as (out & Eo & Vo).
  exists out. split; [exact Eo|]. apply (valid_back Da Ds); [exact Vo|]. intros Hf y Hy.
  assert (Hm : mode <> IBP) by (intros Q; apply Hf; exact (Hmf Q)).
  rewrite (convert_head Ds n mode final ts out Hm Hf Eo). exact (valid_head Da mode _ n _ _ ts V Hm y Hy).
Qed.

Section Forward.
Hypothesis Hlay : layers_ok mode fwd net.
Hypothesis Hne : mode = IBP \/ exists y, in_dom Da n z y.
Hypothesis HG : forward_gaps2 ke Da Ds mode fwd n net z.

Lemma inside_step : forall its, get_input_tensors (Some Ds) mode n z = Ok its ->
  forall i L ps vs, nth_error net i = Some (Some L, ps) -> evaluates (firstn i (net_domains ke sa ss fwd net)) no_map its vs ->
  (forall p, In p ps -> valid Da mode false (in_dom Da n z) n (net_dim n net p) (v p) (vs p)) ->
  exists out, layer_domains ke sa ss (fwd i) L (concat (map vs ps)) = Ok out /\ valid Da mode false (in_dom Da n z) n (nl_out L) (v i) out.
Proof.
  intros its Ei i L ps vs Ei' He Hps. assert (Hd : dom_ok Ds mode) by (destruct mode; cbn; auto). assert (Hd' : dom_ok Da mode) by (destruct mode; cbn; auto).
  destruct (Hlay i L ps Ei') as [Hok Hft]. destruct (Hnet i (Some L) ps Ei') as (_ & _ & Hdim).
  apply (layer_domains_sound ke mode n Da Ds (fwd i) L Hke Hn Hd' Hd HI Hok Hft (in_dom Da n z) (map v ps) (map vs ps) (v i) Hne).
  - rewrite <- Hdim, combine_map. apply Forall2_map_map. intros p Q. exact (Hps p Q).
  - rewrite <- Hdim, !map_length. reflexivity.
  - exact (HG its i L ps vs Ei Ei' He).
  - intros y. rewrite map_map. exact (Hval y i (Some L) ps Ei').
Qed.
Let call := fun i L => layer_domains ke sa ss (fwd i) L.
Let P := fun q f ts => valid Da mode false (in_dom Da n z) n q f ts.
Lemma inside_ext : forall m f h ts, (forall y j, f y j = h y j) -> P m f ts -> P m h ts.
Proof. intros q f h ts Hq V. apply (op_sp_ext (mk_spec false mode Da n) (in_dom Da n z) q f h ts); [intros; apply Hq|exact V]. Qed.

Lemma forward_inside : (mode = IBP -> final = IBP) ->
  exists ts, forward_domains ke Da Ds mode final fwd n net o z = Ok ts /\ valid Da final false (in_dom Da n z) n (net_dim n net o) (v o) ts.
Proof.
  intros Hmf. destruct inside_input as (its & Ei & Vi). unfold forward_domains. rewrite Ei. cbn [bind].
  destruct (gnet_output call n net v P its Hnet Hval inside_ext Vi (inside_step its Ei) o Ho) as (ts & E & V).
  change (fun _ : nat => None) with (@no_map tensor). fold sa ss. unfold net_domains. unfold call in E. rewrite E. cbn [bind]. exact (inside_final _ _ ts Hmf V).
Qed.

Lemma nodes_inside : forall its, get_input_tensors (Some Ds) mode n z = Ok its -> exists om,
  convert_nodes (net_domains ke sa ss fwd net) no_map its = Ok om /\ output_nodes (net_domains ke sa ss fwd net) [o] = Ok [o] /\
  forall i, (i < length net)%nat -> exists ts, om i = Some ts /\ P (net_dim n net i) (v i) ts.
Proof.
  intros its Ei. destruct inside_input as (its' & Ei' & Vi). rewrite Ei in Ei'. injection Ei' as <-.
  destruct (gnet_eval call n net v P its Hnet Hval inside_ext Vi (inside_step its Ei)) as (vs & He & Hs).
  set (h := net_domains ke sa ss fwd net). change (evaluates h no_map its vs) in He. change (forall i, (i < length h)%nat -> P (net_dim n net i) (v i) (vs i)) in Hs.
  assert (Hlen : length h = length net) by (apply (gnet_length call net)). assert (Hph : parents_of h = map snd net) by (apply (gnet_parents call net)).
  assert (Hacy : acyclic (map snd net)) by (apply (gnet_acyclic n net Hnet)).
  assert (Hah : acyclic (parents_of h)) by (rewrite Hph; exact Hacy).
  assert (Hsrc : forall i nod, nth_error h i = Some nod -> fn_parents nod = [] -> fn_kind nod = KInput).
  { intros i nod En Ep. destruct (gnet_node_inv call net i nod En) as (q & ps & E & ->). destruct q as [L|]; [|reflexivity]. destruct (Hnet i (Some L) ps E) as [_ [Q _]]. contradiction. }
  destruct (convert_nodes_eval tensor h no_map its vs) as (om & Eom & Hom); [apply topo_acyclic; exact Hah|exact Hsrc|intros i Q; exfalso; apply Q; reflexivity|exact He|].
  exists om. split; [exact Eom|]. split.
  - destruct Ho as [Ho1 Hall]. destruct (longest_path_exists _ Hacy) as [lv Hlv].
    assert (Hdp : deepest (parents_of h) lv o).
    { rewrite Hph. apply ancestors_deepest; [exact Hlv|rewrite map_length; exact Ho1|]. rewrite map_length. exact Hall. }
    assert (Hf : filter (deepestb h lv) [o] = [o]) by (cbn; rewrite (deepest_b _ h lv o Hdp); reflexivity). rewrite <- Hf at 2.
    apply output_nodes_ok; auto.
    + apply topo_acyclic. exact Hah.
    + rewrite Hph. exact Hlv.
    + apply (gnet_unshared call net).
    + intros Q. rewrite Q in Hlen. cbn in Hlen. lia.
    + intros o' [<-|[]]. rewrite Hlen. exact Ho1.
  - intros i Hi. exists (vs i). rewrite <- Hlen in Hi. split; [apply Hom; exact Hi|apply Hs; exact Hi].
Qed.
End Forward.

(** crown, outside interval mode *)
Hypothesis Hblay : blayers_ok bwd net.
Hypothesis Hm : mode <> IBP.

Lemma crown_inside : forall its om, valid Da mode false (in_dom Da n z) n n (fun y => y) its ->
  (forall i ts, (i < length net)%nat -> om i = Some ts -> valid Da mode false (in_dom Da n z) n (net_dim n net i) (v i) ts) ->
  (forall i L ps imap ts, nth_error net i = Some (Some L, ps) -> let g := backward_net ke sa bwd n net in
     get_input_nodes mode Da n its om g (firstn i g) [] = Ok imap -> node_inputs mode Da n its om g imap ps = Ok ts -> bl_gaps ke sa L ts) ->
  let g := backward_net ke sa bwd n net in
  exists ts, output_nodes (bshape (seq 0 (length net)) g) [o] = Ok [o] /\ crown_model mode Da n g [o] None om its = Ok [ts] /\
    valid Da mode false (in_dom Da n z) n (net_dim n net o) (v o) ts.
Proof.
  intros its om Vi Hom HP g. destruct Ho as [Ho1 Hall].
  assert (Hdok : dom_ok Da mode) by (destruct mode; cbn; auto).
  assert (Hacy : acyclic (map snd net)) by (apply (gnet_acyclic n net Hnet)).
  destruct (longest_path_exists _ Hacy) as [lv Hlv]. pose proof (bnet_parents ke sa bwd net) as Hpar. cbn [sp_n sa] in Hpar. fold g in Hpar.
  pose proof (bnet_length ke sa bwd net) as Hlen. cbn [sp_n sa] in Hlen. fold g in Hlen.
  assert (Hdp : deepest (map snd net) lv o).
  { apply ancestors_deepest; [exact Hlv|rewrite map_length; exact Ho1|]. rewrite map_length. exact Hall. }
  assert (Hids : length (seq 0 (length net)) = length g) by (rewrite seq_length; auto).
  destruct (crown_sound sa (in_dom Da n z) (fun y => y) its om g (bops net) (net_fn net) (bgaps ke sa net) [o]) as (res & E & F); auto.
  - intros Q. destruct (Hm Q).
  - apply (bnet_wf ke sa bwd net Hnet Hblay).
  - apply (bnet_no_merge ke sa bwd net Hnet Hblay).
  - apply (bnet_models ke sa bwd net).
  - apply (bops_parents ke sa bwd net).
  - apply (bops_value sa net Hnet).
  - apply (bops_sound ke sa bwd net Hke Hn Hdok eq_refl Hblay).
  - intros i L ps ts En Ets. destruct (bnet_node_inv ke sa bwd net i L ps En) as (q & En' & ->).
    assert (Hi : (i < length net)%nat) by (apply nth_error_Some; rewrite En'; discriminate).
    pose proof (blayer_out ke sa bwd net i q ps En') as Q. cbn [sp_n sa] in Q. rewrite Q.
    apply (op_sp_ext sa (in_dom Da n z) (net_dim n net i) (v i)); [|exact (Hom i ts Hi Ets)].
    intros y j _ Hj. symmetry. apply (bnet_agree sa bwd net v Hnet Hblay Hval y i Hi j Hj).
  - intros i L ps imap ts En Eim Ets L' ps' En'.
    destruct (bnet_node_inv ke sa bwd net i L ps En) as (q & Eq & _). rewrite En' in Eq. injection Eq as <- <-. exact (HP i L' ps' imap ts En' Eim Ets).
  - intros o' [<-|[]]. rewrite Hlen. exact Ho1.
  - inversion F as [|? ts ? tss (L & ps & Eg & V) F' Q1 Q2]; subst. inversion F'; subst. exists ts. split; [|split; [exact E|]].
    + rewrite (output_nodes_ok (bshape (seq 0 (length net)) g)) with (lv := lv).
      * cbn [filter]. rewrite deepest_b; [reflexivity|]. rewrite bshape_parents by exact Hids. rewrite Hpar. exact Hdp.
      * apply topo_acyclic. rewrite bshape_parents by exact Hids. rewrite Hpar. exact Hacy.
      * rewrite bshape_parents by exact Hids. rewrite Hpar. exact Hlv.
      * unfold unshared. rewrite bshape_ids by exact Hids. apply seq_NoDup.
      * intros Q. apply (f_equal (@length _)) in Q. rewrite bshape_length in Q by exact Hids. cbn in Q. lia.
      * intros o' [<-|[]]. rewrite bshape_length by exact Hids. rewrite Hlen. exact Ho1.
    + destruct (bnet_node_inv ke sa bwd net o L ps Eg) as (q & En & ->).
      pose proof (blayer_out ke sa bwd net o q ps En) as Q. cbn [sp_n sa] in Q. rewrite Q in V.
      apply (op_sp_ext sa (in_dom Da n z) (net_dim n net o) (net_fn net o)); [|exact V].
      intros y j _ Hj. apply (bnet_agree sa bwd net v Hnet Hblay Hval y o Ho1 j Hj).
Qed.

Lemma backward_inside : forall before,
  (before = true -> layers_ok mode fwd net /\ (exists y, in_dom Da n z y) /\ forward_gaps2 ke Da Ds mode fwd n net z) ->
  backward_gaps2 ke Da Ds mode (fun its om => if before then convert_nodes (net_domains ke sa ss fwd net) no_map its = Ok om else om = no_map) bwd n net z ->
  exists ts, backward_domains ke Da Ds before mode final fwd bwd n net o z = Ok ts /\ valid Da final false (in_dom Da n z) n (net_dim n net o) (v o) ts.
Proof.
  intros before HF HB. destruct inside_input as (its & Ei & Vi). unfold backward_domains. cbv zeta. fold sa ss. rewrite Ei. cbn [bind].
  change (fun _ : nat => None) with (@no_map tensor).
  assert (K : exists om, (if before then om <- convert_nodes (net_domains ke sa ss fwd net) no_map its ; _ <- output_nodes (net_domains ke sa ss fwd net) [o] ; Ok om else Ok no_map) = Ok om /\
     (if before then convert_nodes (net_domains ke sa ss fwd net) no_map its = Ok om else om = no_map) /\
     forall i ts, (i < length net)%nat -> om i = Some ts -> valid Da mode false (in_dom Da n z) n (net_dim n net i) (v i) ts).
  { destruct before.
    - destruct (HF eq_refl) as (Hlay & Hne & HG). destruct (nodes_inside Hlay (or_intror Hne) HG its Ei) as (om & E1 & E2 & Hs). exists om. rewrite E1, E2. split; [reflexivity|]. split; [reflexivity|].
      intros i ts Hi Et. destruct (Hs i Hi) as (ts' & Et' & V). rewrite Et in Et'. injection Et' as <-. exact V.
    - exists no_map. split; [reflexivity|]. split; [reflexivity|]. intros i ts _ Q. discriminate Q. }
  destruct K as (om & E1 & E2 & Hom). match goal with |- context [bind ?x] => change x with (if before then om <- convert_nodes (net_domains ke sa ss fwd net) no_map its ; _ <- output_nodes (net_domains ke sa ss fwd net) [o] ; Ok om else Ok no_map) end. rewrite E1. cbn [bind].
  destruct (crown_inside its om Vi Hom) as (ts & E3 & E4 & V).
  { intros i L ps imap ts En g Eg Et. exact (HB its om i L ps imap ts Ei E2 En Eg Et). }
  rewrite E3. cbn [bind]. rewrite E4. cbn [bind concat]. rewrite app_nil_r.
  destruct (inside_final _ _ ts (fun Q => match Hm Q with end) V) as (out & Eo & Vo). rewrite Eo. cbn [bind].
  replace (mode_eqb mode IBP) with false by (destruct mode; [contradiction|reflexivity|reflexivity]). rewrite andb_false_r. eauto.
Qed.
End Inside.

(** a smaller radius *)
Lemma ball_inside : forall n eps eps' p, eps' <= eps -> inside (Ball eps' p) (Ball eps p) n.
Proof. intros n eps eps' p H x z Hz. exact (in_ball_mono _ _ _ _ _ _ H Hz). Qed.

Lemma nl_free_domains : forall ke mode n Da Ds o L ts, nl_free (lo_fast o) L -> nl_gaps_domains ke mode n Da Ds o L ts.
Proof. intros ke mode n Da Ds o L ts H. destruct L; try (apply nl_free_gaps; exact H). left. exact H. Qed.
Lemma nl_ibp_domains : forall ke n Da Ds o L ts, nl_gaps_domains ke IBP n Da Ds o L ts.
Proof. intros ke n Da Ds o L ts. destruct L; try (apply nl_ibp_gaps; reflexivity). right. left. reflexivity. Qed.

