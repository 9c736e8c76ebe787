(** Soundness of the conversion of whole networks. *)
From Coq Require Import Reals List Arith Bool ZArith Lra Lia Psatz Sorting.Permutation.
From Verif Require Import RLib Spec Spec_Layers Spec_Backward Spec_Convert Spec_Network M_Core M_Utils M_MergeLayers M_Ops M_Layers M_Pool M_Backward M_Crown M_Convert M_Network
  P_Core P_CoreThm P_Merge P_Utils P_MergeLayers P_Axis P_Ops P_Act P_SShape P_OpsThm P_Layers P_Move P_Pool P_Graph P_Convert P_ConvertThm.
Import ListNotations.
Local Open Scope R_scope.

(** conditions on the tensors received by a layer, in the affine modes: crossing intervals not shorter than epsilon
    (relu, maximum, minimum, max pooling), intervals reduced to a point or not shorter than epsilon (exponential), and
    not containing 0 (sigmoid, tanh, softsign); softplus is only converted soundly in interval mode *)
Definition nl_gaps (ke : R) (sp : spec) (o : lopts) (L : nlayer) (ts : list tensor) : Prop :=
  match L with
  | NActivation Arelu m => gaps_ok ke sp m ts
  | NActivation Aexponential m => intervals (wide ke) sp m ts
  | NActivation Asigmoid m | NActivation Atanh m | NActivation Asoftsign m =>
      intervals (fun u l => wide ke u l /\ (u < 0 \/ 0 < l)) sp m ts
  | NActivation Asoftplus m => sp_mode sp = IBP
  | NMaximum m _ => layer_max_gaps ke sp m (split_to_merge (nb_tensors (sp_mode sp) false) ts)
  | NMinimum m _ => layer_min_gaps ke sp m (split_to_merge (nb_tensors (sp_mode sp) false) ts)
  | NMaxPool g => lo_fast o = true \/ sp_mode sp = IBP \/ forall fl, pool_init (wn_k (cg_y g)) (wn_k (cg_x g)) = Ok fl -> pool_gaps ke sp g fl ts
  | _ => True
  end.

(** layers without such a condition, whatever the mode *)
Definition nl_free (fast : bool) (L : nlayer) : Prop :=
  match L with
  | NActivation a _ => a = Alinear
  | NMaximum _ _ | NMinimum _ _ => False
  | NMaxPool _ => fast = true
  | _ => True
  end.

Lemma nl_free_gaps : forall ke sp o L ts, nl_free (lo_fast o) L -> nl_gaps ke sp o L ts.
Proof. intros ke sp o L ts H. destruct L; cbn in *; auto; try contradiction. destruct a; try discriminate H; exact I. Qed.

Lemma nl_ibp_gaps : forall ke sp o L ts, sp_mode sp = IBP -> nl_gaps ke sp o L ts.
Proof.
  intros ke sp o L ts H. destruct L; cbn; auto; try (apply layer_gaps_ibp; exact H).
  destruct a; auto; intros Q; contradiction.
Qed.

(** the converted layer bounds any function g that the layer computes from the functions gs *)
Definition nl_sound (ke : R) (sp : spec) (o : lopts) (L : nlayer) : Prop :=
  forall (S : vec -> Prop) gs tss g, (sp_mode sp = IBP \/ exists z, S z) -> Forall2 (fun mg ts => op_sp sp S (fst mg) (snd mg) ts) (combine (nl_in L) gs) tss -> length gs = length (nl_in L) ->
    nl_gaps ke sp o L (concat tss) -> (forall z, computes L (map (fun h => h z) gs) (g z)) ->
    exists out, decomon_layer ke sp o L (concat tss) = Ok out /\ op_sp sp S (nl_out L) g out.

Lemma one_input : forall sp (S : vec -> Prop) m gs tss,
  Forall2 (fun mg ts => op_sp sp S (fst mg) (snd mg) ts) (combine [m] gs) tss -> length gs = 1%nat ->
  exists f ts, gs = [f] /\ concat tss = ts /\ op_sp sp S m f ts.
Proof.
  intros sp S m gs tss HF Hl. destruct gs as [|f [|]]; try discriminate Hl. cbn [combine] in HF.
  inversion HF as [|? ts ? q V HF']; subst. inversion HF'; subst. cbn [concat]. rewrite app_nil_r. eauto.
Qed.

Lemma two_inputs : forall sp (S : vec -> Prop) m0 m1 gs tss,
  Forall2 (fun mg ts => op_sp sp S (fst mg) (snd mg) ts) (combine [m0; m1] gs) tss -> length gs = 2%nat ->
  exists f0 f1 in0 in1, gs = [f0; f1] /\ concat tss = in0 ++ in1 /\ op_sp sp S m0 f0 in0 /\ op_sp sp S m1 f1 in1.
Proof.
  intros sp S m0 m1 gs tss HF Hl. destruct gs as [|f0 [|f1 [|]]]; try discriminate Hl. cbn [combine] in HF.
  inversion HF as [|? in0 ? q0 V0 HF0]; subst. inversion HF0 as [|? in1 ? q1 V1 HF1]; subst. inversion HF1; subst.
  exists f0, f1, in0, in1. cbn [concat]. rewrite app_nil_r. auto.
Qed.

Lemma many_inputs : forall sp (S : vec -> Prop) m k gs tss, length gs = length (repeat m k) -> (0 < k)%nat ->
  Forall2 (fun mg ts => op_sp sp S (fst mg) (snd mg) ts) (combine (repeat m k) gs) tss ->
  Forall2 (op_sp sp S m) gs tss /\ tss <> [] /\ exists f fs, gs = f :: fs.
Proof.
  intros sp S m k gs tss Hl Hk HF. rewrite repeat_length in Hl. subst k. rewrite repeat_combine in HF. apply Forall2_map_l in HF. cbn in HF.
  split; [exact HF|]. destruct HF; [cbn in Hk; lia|]. split; [discriminate|eauto].
Qed.

Lemma ew_ext : forall sp (S : vec -> Prop) m (f g : vec -> vec) (r : result (list tensor)), (forall z j, (j < m)%nat -> f z j = g z j) ->
  (exists out, r = Ok out /\ op_sp sp S m f out) -> exists out, r = Ok out /\ op_sp sp S m g out.
Proof. intros sp S m f g r H (out & E & V). exists out. split; [exact E|]. apply (op_sp_ext sp S m f); auto. Qed.

Lemma Forall2_len : forall A B (P : A -> B -> Prop) l l', Forall2 P l l' -> length l = length l'.
Proof. intros A B P l l' H. induction H; cbn; auto. Qed.

Lemma Forall2_combine_nth : forall A B C (P : A -> B -> C -> Prop) l l' l'' t a b c,
  Forall2 (fun ab c => P (fst ab) (snd ab) c) (combine l l') l'' -> nth_error l t = Some a -> nth_error l' t = Some b -> nth_error l'' t = Some c -> P a b c.
Proof.
  intros A B C P l. induction l as [|x l IH]; intros l' l'' t a b c H E1 E2 E3; [destruct t; discriminate E1|].
  destruct l' as [|x' l']; [destruct t; discriminate E2|]. cbn in H. inversion H as [|? x'' ? q H1 H2]; subst. destruct t as [|t].
  - injection E1 as ->. injection E2 as ->. injection E3 as ->. exact H1.
  - exact (IH l' q t a b c H2 E1 E2 E3).
Qed.

Lemma layer_sound : forall ke sp o L, 0 < ke -> (0 < sp_n sp)%nat -> dom_ok (sp_dom sp) (sp_mode sp) -> sp_dc sp = false ->
  nl_ok (sp_mode sp) (lo_fast o) L -> ft_ok (nl_out L) (lo_ft o) -> nl_sound ke sp o L.
Proof.
  intros ke sp o L Hke Hn Hd Hdc Hok Hft S gs tss g Hne HF Hl HG HC.
  destruct L; cbn [nl_in nl_out nl_ok decomon_layer] in *.
  - (* dense *)
    destruct (one_input _ _ _ _ _ HF Hl) as (f & ts & -> & E & V). rewrite E in *. cbn in HC.
    destruct (dense_sound sp rows d units kernel bias S f ts Hn Hd Hok V) as (out & Eo & Vo). exists out. split; [exact Eo|].
    eapply op_sp_ext; [|exact Vo]. intros z j _ Hj. cbn beta. unfold keras_dense.
    assert (Hp : (j / units < rows)%nat) by (apply Nat.div_lt_upper_bound; lia).
    assert (Hu : (j mod units < units)%nat) by (apply Nat.mod_upper_bound; lia).
    specialize (HC z (j / units)%nat (j mod units)%nat Hp Hu).
    replace (j / units * units + j mod units)%nat with j in HC by (rewrite (Nat.div_mod_eq j units) at 1; lia).
    rewrite HC. destruct bias; reflexivity.
  - (* conv *)
    destruct (one_input _ _ _ _ _ HF Hl) as (f & ts & -> & E & V). rewrite E in *. cbn in HC.
    destruct (conv_sound sp g0 kernel bias S f ts Hn Hd V) as (out & Eo & Vo). exists out. split; [exact Eo|].
    eapply op_sp_ext; [|exact Vo]. intros z j _ Hj. cbn beta. rewrite HC by exact Hj. destruct bias; reflexivity.
  - (* batch normalization *)
    destruct (one_input _ _ _ _ _ HF Hl) as (f & ts & -> & E & V). rewrite E in *. cbn in HC. destruct Hok as [Hv Ha].
    apply (bn_sound sp pre k post axis gamma beta mean var eps S f g ts Hn Hd Hdc Ha Hv); [|exact V].
    intros z p c q Hp Hq Hc. rewrite (HC z p c q Hp Hq Hc). unfold keras_bn. destruct gamma, beta; reflexivity.
  - (* flatten *)
    destruct (one_input _ _ _ _ _ HF Hl) as (f & ts & -> & E & V). rewrite E in *. cbn in HC.
    destruct (flatten_sound sp channels_first ch size S f ts Hn Hd Hok V) as (out & Eo & Vo). exists out. split; [exact Eo|].
    eapply op_sp_ext; [|exact Vo]. intros z j _ Hj. cbn beta. unfold flatten_idx. specialize (HC z). destruct channels_first.
    + assert (ch <> 0)%nat by (intros ->; cbn in Hj; lia).
      assert (Hq : (j / ch < size)%nat) by (apply Nat.div_lt_upper_bound; lia).
      assert (Hc : (j mod ch < ch)%nat) by (apply Nat.mod_upper_bound; lia).
      specialize (HC (j mod ch)%nat (j / ch)%nat Hc Hq).
      replace (j / ch * ch + j mod ch)%nat with j in HC by (rewrite (Nat.div_mod_eq j ch) at 1; lia). auto.
    + symmetry. apply HC. exact Hj.
  - (* reshape *)
    destruct (one_input _ _ _ _ _ HF Hl) as (f & ts & -> & E & V). rewrite E in *. cbn in HC.
    apply (ew_ext sp S m f g); [intros z j Hj; symmetry; apply HC; exact Hj|]. apply reshape_sound; auto.
  - (* permute *)
    destruct (one_input _ _ _ _ _ HF Hl) as (f & ts & -> & E & V). rewrite E in *. cbn in HC.
    apply (permute_sound sp s dims S f g ts Hn Hd Hok); [|exact V]. exact HC.
  - (* dropout *)
    destruct (one_input _ _ _ _ _ HF Hl) as (f & ts & -> & E & V). rewrite E in *. cbn in HC.
    apply (ew_ext sp S m f g); [intros z j Hj; symmetry; apply HC; exact Hj|]. exists ts. split; [reflexivity|exact V].
  - (* activation *)
    destruct (one_input _ _ _ _ _ HF Hl) as (f & ts & -> & E & V). rewrite E in *. cbn in HC.
    apply (ew_ext sp S m (fun z j => act_value a (f z j)) g); [intros z j Hj; symmetry; apply HC; exact Hj|].
    assert (D : sp_mode sp = IBP \/ exists z, S z) by exact Hne.
    destruct a; cbn [act_value decomon_activation nl_gaps] in *.
    + exists ts. split; [reflexivity|exact V].
    + apply (relu_sound ke sp (lo_slope o) (lo_ft o) S m f ts); auto.
    + destruct D as [D|D].
      * apply (act_ibp sigmoid sigmoid_prime ltac:(cbn; auto) ke sp S m f ts); auto.
      * apply (act_one_sided sigmoid sigmoid_prime ltac:(cbn; auto) ke sp S m f ts); auto.
    + destruct D as [D|D].
      * apply (act_ibp tanh tanh_prime ltac:(cbn; auto) ke sp S m f ts); auto.
      * apply (act_one_sided tanh tanh_prime ltac:(cbn; auto) ke sp S m f ts); auto.
    + destruct D as [D|D].
      * apply (act_ibp softsign softsign_prime ltac:(cbn; auto) ke sp S m f ts); auto.
      * apply (act_one_sided softsign softsign_prime ltac:(cbn; auto) ke sp S m f ts); auto.
    + apply softplus_ibp; auto.
    + apply exp_sound; auto.
  - (* max pooling *)
    destruct (one_input _ _ _ _ _ HF Hl) as (f & ts & -> & E & V). rewrite E in *. cbn in HC. destruct Hok as [Hc Hok].
    apply (ew_ext sp S (im_size (cg_out g0)) (fun z => max_pool g0 (f z)) g); [intros z j Hj; symmetry; apply HC; exact Hj|].
    apply max_pooling_sound; auto. cbn [nl_gaps] in HG. destruct (lo_fast o); [auto|]. unfold pool_ok. destruct HG as [Q|HG]; [discriminate Q|]. intuition.
  - (* add *)
    destruct (many_inputs _ _ _ _ _ _ Hl Hok HF) as (V & Ht & _).
    apply (ew_ext sp S m (fun z j => sum_list (vals gs z j)) g); [|apply decomon_add_sound; auto].
    intros z j Hj. rewrite (HC z j Hj). unfold vals. rewrite map_map. reflexivity.
  - (* average *)
    destruct (many_inputs _ _ _ _ _ _ Hl Hok HF) as (V & Ht & _).
    apply (ew_ext sp S m (fun z j => sum_list (vals gs z j) / INR (length gs)) g); [|apply decomon_average_sound; auto].
    intros z j Hj. rewrite (HC z j Hj). unfold vals. rewrite map_map, map_length. reflexivity.
  - (* subtract *)
    destruct (two_inputs _ _ _ _ _ _ HF Hl) as (f0 & f1 & in0 & in1 & -> & E & V0 & V1). rewrite E in *. cbn in HC.
    apply (ew_ext sp S m (fun z j => f0 z j - f1 z j) g); [intros z j Hj; symmetry; apply HC; exact Hj|]. apply decomon_subtract_sound; auto.
  - (* multiply *)
    destruct (many_inputs _ _ _ _ _ _ Hl Hok HF) as (V & Ht & _).
    apply (ew_ext sp S m (fun z j => prod_list (vals gs z j)) g); [|apply decomon_multiply_sound; auto].
    intros z j Hj. rewrite (HC z j Hj). unfold vals. rewrite map_map. reflexivity.
  - (* maximum *)
    destruct (many_inputs _ _ _ _ _ _ Hl Hok HF) as (V & Ht & f & fs & ->). cbn [map] in HC.
    apply (ew_ext sp S m (fun z j => max_list (f z j) (vals fs z j)) g).
    + intros z j Hj. rewrite (HC z j Hj). unfold vals. rewrite map_map. reflexivity.
    + apply decomon_maximum_sound; auto. cbn [nl_gaps] in HG. rewrite <- Hdc, (split_valid sp S m (f :: fs) tss V) in HG. exact HG.
  - (* minimum *)
    destruct (many_inputs _ _ _ _ _ _ Hl Hok HF) as (V & Ht & f & fs & ->). cbn [map] in HC.
    apply (ew_ext sp S m (fun z j => min_list (f z j) (vals fs z j)) g).
    + intros z j Hj. rewrite (HC z j Hj). unfold vals. rewrite map_map. reflexivity.
    + apply decomon_minimum_sound; auto. cbn [nl_gaps] in HG. rewrite <- Hdc, (split_valid sp S m (f :: fs) tss V) in HG. exact HG.
  - (* concatenate *)
    destruct Hok as [Hks Ha]. rewrite map_length in Hl. assert (Hts : length tss = length gs).
    { apply Forall2_len in HF. rewrite combine_length, map_length in HF. lia. }
    apply (concatenate_sound sp pre post ks axis S gs g tss Hn Hd Hdc Ha Hks); auto.
    + intros t f l Ef El. assert (Ek : nth_error (map (fun k => prodn (pre ++ k :: post)) ks) t = Some (prodn (pre ++ nth t ks O :: post))).
      { rewrite nth_error_map. assert (Hk : (t < length ks)%nat) by (rewrite <- Hl; apply nth_error_Some; congruence).
        rewrite (nth_error_nth' ks O Hk). reflexivity. }
      exact (Forall2_combine_nth _ _ _ (fun m f l => op_sp sp S m f l) _ _ _ _ _ _ _ HF Ek Ef El).
    + intros z t p c q f Ef Hp Hq Hc. apply (HC z t p c q (f z)); auto. rewrite nth_error_map, Ef. reflexivity.
  - (* dot *)
    destruct (two_inputs _ _ _ _ _ _ HF Hl) as (f0 & f1 & in0 & in1 & -> & E & V0 & V1). rewrite E in *. cbn in HC. destruct Hok as [Ha0 Ha1].
    apply (dot_sound sp pre0 post0 pre1 post1 k axis0 axis1 S f0 f1 g in0 in1); auto.
Qed.

(** ** Levels *)
Lemma longest_path_exists : forall pss, acyclic pss -> exists lv, longest_path pss lv.
Proof.
  intros pss. induction pss as [|ps pss IH] using rev_ind; intros Ha.
  - exists (fun _ => O). intros i ps E. destruct i; discriminate E.
  - destruct IH as [lv H].
    { intros i qs p E Hp. apply (Ha i qs p); [|exact Hp]. rewrite nth_error_app1; [exact E|]. apply nth_error_Some. congruence. }
    set (top := match ps with [] => O | _ => S (max_list_nat (map lv ps)) end).
    exists (fun i => if Nat.eqb i (length pss) then top else lv i). intros i qs E.
    assert (Hold : forall p, In p qs -> (p < i)%nat) by (intros p Hp; exact (Ha i qs p E Hp)).
    destruct (Nat.lt_ge_cases i (length pss)) as [Hi|Hi].
    + rewrite nth_error_app1 in E by exact Hi. specialize (H i qs E). assert (Nat.eqb i (length pss) = false) as -> by (apply Nat.eqb_neq; lia).
      assert (Hp : forall p, In p qs -> Nat.eqb p (length pss) = false) by (intros p Hp; apply Nat.eqb_neq; specialize (Hold p Hp); lia).
      destruct qs as [|q qs]; [exact H|]. destruct H as [H1 (p & H2 & H3)]. split.
      * intros p' Hp'. rewrite (Hp p' Hp'). apply H1. exact Hp'.
      * exists p. split; [exact H2|]. rewrite (Hp p H2). exact H3.
    + assert (i = length pss) as ->.
      { assert (i < length (pss ++ [ps]))%nat by (apply nth_error_Some; congruence). rewrite app_length in *. cbn in *. lia. }
      rewrite nth_error_app2, Nat.sub_diag in E by lia. cbn in E. injection E as <-. rewrite Nat.eqb_refl.
      assert (Hp : forall p, In p ps -> Nat.eqb p (length pss) = false) by (intros p Hp; apply Nat.eqb_neq; specialize (Hold p Hp); lia).
      destruct ps as [|q ps]; [reflexivity|]. assert (Hne : map lv (q :: ps) <> []) by discriminate. split.
      * intros p Hq. rewrite (Hp p Hq). unfold top. apply Nat.lt_succ_r. apply max_list_nat_ge. apply in_map. exact Hq.
      * apply max_list_nat_in in Hne. apply in_map_iff in Hne. destruct Hne as (p & E & Hq). exists p. split; [exact Hq|]. rewrite (Hp p Hq). unfold top. rewrite <- E. reflexivity.
Qed.

Lemma ancestors_deepest : forall pss lv o, longest_path pss lv -> (o < length pss)%nat -> (forall j, (j < length pss)%nat -> leads_to pss o j) -> deepest pss lv o.
Proof.
  intros pss lv o Hlv Ho H. split; [exact Ho|]. intros j Hj. specialize (H j Hj). clear Hj. induction H as [|i k ps E Hi Hk IH]; [apply le_n|].
  specialize (Hlv k ps E). destruct ps as [|q ps]; [contradiction|]. destruct Hlv as [Q _]. specialize (Q i Hi). lia.
Qed.

(** ** Networks *)
Section Net.
Variables (ke : R) (sp : spec) (opts : nat -> lopts) (net : network) (v : nat -> vec -> vec).
Hypothesis Hke : 0 < ke.
Hypothesis Hn : (0 < sp_n sp)%nat.
Hypothesis Hd : dom_ok (sp_dom sp) (sp_mode sp).
Hypothesis Hdc : sp_dc sp = false.
Hypothesis Hnet : net_ok (sp_n sp) net.
Hypothesis Hval : net_value net v.
Hypothesis Hlay : forall i L ps, nth_error net i = Some (Some L, ps) -> nl_ok (sp_mode sp) (lo_fast (opts i)) L /\ ft_ok (nl_out L) (lo_ft (opts i)).
Let g := decomon_net ke sp opts net.

Lemma combine_nth_error : forall A B (l : list A) (l' : list B) i a b, nth_error l i = Some a -> nth_error l' i = Some b -> nth_error (combine l l') i = Some (a, b).
Proof.
  intros A B. induction l as [|x l IH]; intros l' i a b E1 E2; [destruct i; discriminate E1|]. destruct l' as [|x' l']; [destruct i; discriminate E2|].
  destruct i as [|i]; [injection E1 as ->; injection E2 as ->; reflexivity|]. cbn. apply IH; assumption.
Qed.

Lemma seq_nth_error : forall n s i, (i < n)%nat -> nth_error (seq s n) i = Some (s + i)%nat.
Proof. induction n as [|n IH]; intros s i H; [lia|]. destruct i as [|i]; cbn; [f_equal; lia|]. rewrite IH by lia. f_equal. lia. Qed.

Lemma net_node : forall i o ps, nth_error net i = Some (o, ps) ->
  nth_error g i = Some (mk_fnode i (match o with None => KInput | Some L => KOp (decomon_layer ke sp (opts i) L) end) ps).
Proof.
  intros i o ps E. unfold g, decomon_net. rewrite nth_error_map. assert (Hi : (i < length net)%nat) by (apply nth_error_Some; congruence).
  rewrite (combine_nth_error _ _ (seq 0 (length net)) net i i (o, ps)); [reflexivity|apply (seq_nth_error _ 0); exact Hi|exact E].
Qed.

Lemma net_node_inv : forall i nod, nth_error g i = Some nod -> exists o ps, nth_error net i = Some (o, ps) /\
  nod = mk_fnode i (match o with None => KInput | Some L => KOp (decomon_layer ke sp (opts i) L) end) ps.
Proof.
  intros i nod E. assert (Hi : (i < length net)%nat).
  { assert (i < length g)%nat by (apply nth_error_Some; congruence). unfold g, decomon_net in H. rewrite map_length, combine_length, seq_length in H. lia. }
  destruct (nth_error net i) as [[o ps]|] eqn:En; [|apply nth_error_None in En; lia]. exists o, ps. split; [reflexivity|].
  rewrite (net_node i o ps En) in E. congruence.
Qed.

Lemma net_length : length g = length net.
Proof. unfold g, decomon_net. rewrite map_length, combine_length, seq_length. lia. Qed.

Lemma nth_error_ext' : forall A (l l' : list A), (forall i, nth_error l i = nth_error l' i) -> l = l'.
Proof.
  induction l as [|x l IH]; intros [|x' l'] H; [reflexivity|specialize (H O); discriminate H|specialize (H O); discriminate H|].
  f_equal; [specialize (H O); injection H; auto|]. apply IH. intros i. exact (H (S i)).
Qed.

Lemma net_parents : parents_of g = map snd net.
Proof.
  apply nth_error_ext'. intros i. unfold parents_of. rewrite !nth_error_map. destruct (nth_error net i) as [[o ps]|] eqn:E.
  - rewrite (net_node i o ps E). reflexivity.
  - apply nth_error_None in E. assert (nth_error g i = None) as -> by (apply nth_error_None; rewrite net_length; exact E). reflexivity.
Qed.

Lemma net_acyclic : acyclic (map snd net).
Proof.
  intros i ps p E Hp. rewrite nth_error_map in E. destruct (nth_error net i) as [[o qs]|] eqn:En; [|discriminate E]. injection E as ->.
  destruct (Hnet i o ps En) as [Q _]. apply Q. exact Hp.
Qed.

Lemma combine_fst : forall A B (l : list A) (l' : list B), length l = length l' -> map fst (combine l l') = l.
Proof.
  intros A B. induction l as [|x l IH]; intros [|x' l'] Q; try discriminate Q; [reflexivity|]. cbn. f_equal. apply IH. cbn in Q. lia.
Qed.

Lemma net_unshared : unshared g.
Proof.
  unfold unshared, g, decomon_net. rewrite map_map. cbn [fn_op]. rewrite combine_fst by apply seq_length. apply seq_NoDup.
Qed.

Variables (S : vec -> Prop) (its : list tensor).
Hypothesis Hits : op_sp sp S (sp_n sp) (fun y => y) its.
Hypothesis Hne : sp_mode sp = IBP \/ exists z, S z.
Hypothesis HP : forall i L ps vs, nth_error net i = Some (Some L, ps) -> evaluates (firstn i g) no_map its vs -> nl_gaps ke sp (opts i) L (concat (map vs ps)).

Lemma combine_map_l : forall A B C (l : list A) (f : A -> B) (h : A -> C), combine (map f l) (map h l) = map (fun a => (f a, h a)) l.
Proof. intros. apply combine_map. Qed.

Lemma net_eval : exists vs, evaluates g no_map its vs /\ forall i, (i < length g)%nat -> op_sp sp S (net_dim (sp_n sp) net i) (v i) (vs i).
Proof.
  assert (Hacy : acyclic (parents_of g)) by (rewrite net_parents; exact net_acyclic).
  apply (evaluates_build tensor g no_map its (fun i ts => op_sp sp S (net_dim (sp_n sp) net i) (v i) ts)); [apply topo_acyclic; exact Hacy|].
  intros i nod vs En He IH. unfold no_map. destruct (net_node_inv i nod En) as (o & ps & Ei & ->). destruct (Hnet i o ps Ei) as [Hp Ho].
  cbn [fn_parents fn_kind]. unfold node_out. cbn [fn_kind]. destruct o as [L|].
  - destruct Ho as [Hps Hdim]. destruct (Hlay i L ps Ei) as [Hok Hft].
    destruct (layer_sound ke sp (opts i) L Hke Hn Hd Hdc Hok Hft S (map v ps) (map vs ps) (v i)) as (out & Eo & Vo).
    + exact Hne.
    + rewrite <- Hdim, combine_map. apply Forall2_map_map. intros p Q. cbn. apply IH. apply Hp. exact Q.
    + rewrite <- Hdim, !map_length. reflexivity.
    + apply (HP i L ps vs Ei He).
    + intros y. rewrite map_map. exact (Hval y i (Some L) ps Ei).
    + exists out. split; [destruct ps; [contradiction|exact Eo]|]. unfold net_dim. rewrite Ei. exact Vo.
  - subst ps. exists its. split; [reflexivity|]. unfold net_dim. rewrite Ei. apply (op_sp_ext sp S (sp_n sp) (fun y => y)); [|exact Hits].
    intros y j _ _. symmetry. exact (Hval y i None [] Ei j).
Qed.

Lemma net_output : forall o, (o < length net)%nat -> (forall j, (j < length net)%nat -> leads_to (map snd net) o j) ->
  exists ts, convert_forward g [o] no_map its = Ok ts /\ op_sp sp S (net_dim (sp_n sp) net o) (v o) ts.
Proof.
  intros o Ho Hall. destruct net_eval as (vs & He & Hs). destruct (longest_path_exists _ net_acyclic) as [lv Hlv].
  assert (Hacy : acyclic (parents_of g)) by (rewrite net_parents; exact net_acyclic).
  assert (Hlv' : longest_path (parents_of g) lv) by (rewrite net_parents; exact Hlv).
  assert (Hdp : deepest (parents_of g) lv o).
  { rewrite net_parents. apply ancestors_deepest; [exact Hlv|rewrite map_length; exact Ho|]. rewrite map_length. exact Hall. }
  assert (Ho' : (o < length g)%nat) by (rewrite net_length; exact Ho).
  assert (Hg : g <> []) by (intros Q; rewrite Q in Ho'; cbn in Ho'; lia).
  pose proof (topo_acyclic _ g Hacy) as Ht.
  assert (Hsrc : forall i nod, nth_error g i = Some nod -> fn_parents nod = [] -> fn_kind nod = KInput).
  { intros i nod En Ep. destruct (net_node_inv i nod En) as (q & ps & Ei & ->). destruct q as [L|]; [|reflexivity]. destruct (Hnet i (Some L) ps Ei) as [_ [Q _]]. contradiction. }
  assert (Hf : filter (deepestb g lv) [o] = [o]) by (cbn; rewrite (deepest_b _ g lv o Hdp); reflexivity).
  exists (concat (map vs [o])). split.
  - assert (Eo : output_nodes g [o] = Ok [o]).
    { rewrite <- Hf at 2. apply output_nodes_ok; auto using net_unshared. intros o' [<-|[]]. exact Ho'. }
    apply (convert_forward_eval tensor g no_map its vs [o] [o]); auto; [intros i Q; exfalso; apply Q; reflexivity|].
    intros o' [<-|[]]. exact Ho'.
  - cbn [map concat]. rewrite app_nil_r. apply Hs. exact Ho'.
Qed.
End Net.

(** ** Conversion with a forward method *)
Definition layers_ok (mode : fmode) (opts : nat -> lopts) (net : network) : Prop :=
  forall i L ps, nth_error net i = Some (Some L, ps) -> nl_ok mode (lo_fast (opts i)) L /\ ft_ok (nl_out L) (lo_ft (opts i)).
Definition single_output (net : network) (o : nat) : Prop :=
  (o < length net)%nat /\ forall j, (j < length net)%nat -> leads_to (map snd net) o j.

Lemma net_clone : forall ke D n mode final z opts net v o,
  0 < ke -> (0 < n)%nat -> norm_ok D -> (mode = IBP -> final = IBP) -> (mode = IBP \/ exists y, in_dom D n z y) ->
  net_ok n net -> net_value net v -> layers_ok mode opts net -> single_output net o ->
  (forall its i L ps vs, get_input_tensors (Some D) mode n z = Ok its -> nth_error net i = Some (Some L, ps) ->
     evaluates (firstn i (decomon_net ke (mk_spec false mode D n) opts net)) no_map its vs ->
     nl_gaps ke (mk_spec false mode D n) (opts i) L (concat (map vs ps))) ->
  exists ts, clone_forward D n mode final (decomon_net ke (mk_spec false mode D n) opts net) [o] z = Ok ts /\
    valid D final false (in_dom D n z) n (net_dim n net o) (v o) ts.
Proof.
  intros ke D n mode final z opts net v o Hke Hn HD Hmf Hne Hnet Hval Hlay [Ho Hall] HP.
  destruct (input_tensors_ok D mode n z Hn (fun _ => HD)) as (its & Ei & Vi). unfold clone_forward. rewrite Ei. cbn [bind].
  assert (Hdok : dom_ok D mode) by (destruct mode; cbn; auto).
  destruct (net_output ke (mk_spec false mode D n) opts net v Hke Hn Hdok eq_refl Hnet Hval Hlay (in_dom D n z) its Vi Hne
    (fun i L ps vs E He => HP its i L ps vs Ei E He) o Ho Hall) as (ts & E & V).
  change (fun _ : nat => None) with (@no_map tensor). rewrite E. cbn [bind].
  exact (convert2mode_sound D n mode final _ _ _ ts Hn Hdok Hmf V).
Qed.

(** interval mode: no condition on the bounds met on the way *)
Lemma net_clone_ibp : forall ke D n z opts net v o,
  0 < ke -> (0 < n)%nat -> norm_ok D -> net_ok n net -> net_value net v -> layers_ok IBP opts net -> single_output net o ->
  exists u l, clone_forward D n IBP IBP (decomon_net ke (mk_spec false IBP D n) opts net) [o] z = Ok [u; l] /\
    forall y j, in_dom D n z y -> (j < net_dim n net o)%nat -> l 0%nat j <= v o y j <= u 0%nat j.
Proof.
  intros ke D n z opts net v o Hke Hn HD Hnet Hval Hlay Ho.
  destruct (net_clone ke D n IBP IBP z opts net v o) as (ts & E & [Hl V]); auto.
  - intros. apply nl_ibp_gaps. reflexivity.
  - destruct ts as [|u [|l [|]]]; try discriminate Hl. exists u, l. split; [exact E|]. exact V.
Qed.

(** layers without condition: every mode *)
Lemma net_clone_free : forall ke D n mode final z opts net v o,
  0 < ke -> (0 < n)%nat -> norm_ok D -> (mode = IBP -> final = IBP) -> (exists y, in_dom D n z y) ->
  net_ok n net -> net_value net v -> layers_ok mode opts net -> single_output net o ->
  (forall i L ps, nth_error net i = Some (Some L, ps) -> nl_free (lo_fast (opts i)) L) ->
  exists ts, clone_forward D n mode final (decomon_net ke (mk_spec false mode D n) opts net) [o] z = Ok ts /\
    valid D final false (in_dom D n z) n (net_dim n net o) (v o) ts.
Proof.
  intros ke D n mode final z opts net v o Hke Hn HD Hmf Hne Hnet Hval Hlay Ho Hf. apply net_clone; auto.
  intros its i L ps vs _ Ei _. apply nl_free_gaps. exact (Hf i L ps Ei).
Qed.
