(** Input tensors, conversion between modes, forward conversion of a graph, clone. *)
From Coq Require Import String Ascii Reals List Arith Bool ZArith Lra Lia Psatz.
From Verif Require Import RLib Spec Spec_Layers Spec_Backward Spec_Convert M_Core M_Utils M_MergeLayers M_Ops M_Layers M_Pool M_Backward M_Crown M_Convert
  P_Core P_CoreThm P_Merge P_Utils P_MergeLayers P_Layers P_Backward P_BackwardOps P_BackwardMore P_Crown P_BackwardThm P_Graph.
Import ListNotations.
Local Open Scope R_scope.

(** ** C36 *)
Lemma rabs_le : forall a e, Rabs a <= e -> - e <= a <= e.
Proof. intros a e H. unfold Rabs in H. revert H. destruct (Rcase_abs a); intros; lra. Qed.

Lemma input_tensors_ok : forall D mode n z, (0 < n)%nat -> (get_ibp mode = true -> norm_ok D) ->
  exists ts, get_input_tensors (Some D) mode n z = Ok ts /\ valid D mode false (in_dom D n z) n n (fun y => y) ts.
Proof.
  intros D mode n z Hn HD.
  assert (Haff : forall w b y j, w = id_mat -> b = zero_vec -> (j < n)%nat -> aff n w b y j = y j) by (intros; subst; apply identity_aff; auto).
  assert (K : forall u l w b, (get_ibp mode = true -> const_ok (in_dom D n z) n (fun y => y) (u 0%nat) (l 0%nat)) ->
     (get_affine mode = true -> w = id_mat /\ b 0%nat = zero_vec) ->
     valid D mode false (in_dom D n z) n n (fun y => y) (extract mode false (mk_full z u w b l w b empty_tensor empty_tensor))).
  { intros u l w b Hc Hw. apply vfull_valid. split; cbn; [exact Hc|]. intros Ha. destruct (Hw Ha) as [-> ->]. split; [auto|].
    intros y j Hy Hj. rewrite identity_aff by exact Hj. lra. }
  destruct D as [|eps p].
  - eexists. split; [reflexivity|]. apply K.
    + intros E y j Hy Hj. rewrite E. cbn. specialize (Hy j Hj). exact Hy.
    + intros E. rewrite E. split; reflexivity.
  - assert (Hgen : p <> Pinf -> exists ts,
       (r <- (if get_ibp mode then
                u <- get_upper (Ball eps p) n false z id_mat zero_vec no_kw ;
                l <- get_lower (Ball eps p) n false z id_mat zero_vec no_kw ;
                Ok (vt u, id_mat, vt zero_vec, vt l)
              else Ok (empty_tensor, id_mat, vt zero_vec, empty_tensor)) ;
        let '(u_c, w, b, l_c) := r in Ok (extract mode false (mk_full z u_c w b l_c w b empty_tensor empty_tensor))) = Ok ts /\
       valid (Ball eps p) mode false (in_dom (Ball eps p) n z) n n (fun y => y) ts).
    { intros Hp. destruct (get_ibp mode) eqn:E.
      - destruct (get_upper_ok (Ball eps p) n z id_mat zero_vec (HD eq_refl)) as [u Eu].
        destruct (get_lower_ok (Ball eps p) n z id_mat zero_vec (HD eq_refl)) as [l El]. rewrite Eu. cbn [bind]. rewrite El. cbn [bind].
        eexists; split; [reflexivity|]. apply K; [|intros; split; reflexivity].
        intros _ y j Hy Hj. unfold vt. pose proof (get_upper_sound _ n z id_mat zero_vec u y j Hn Eu Hy).
        pose proof (get_lower_sound _ n z id_mat zero_vec l y j Hn El Hy). rewrite identity_aff in * by exact Hj. lra.
      - eexists; split; [reflexivity|]. apply K; [discriminate|intros; split; reflexivity]. }
    destruct p as [k|]; [apply Hgen; discriminate|]. eexists. split; [reflexivity|]. apply K.
    + intros E y j Hy Hj. rewrite E. cbn. specialize (Hy j Hj). cbn in Hy; apply rabs_le in Hy; unfold vt; lra.
    + intros E. rewrite E. split; reflexivity.
Qed.

Lemma input_tensors_other : forall mode n z, get_input_tensors None mode n z = Err NotImplementedError.
Proof. reflexivity. Qed.

(** the constant bounds are the extreme coordinates of the domain *)
Lemma input_tensors_exact : forall D mode n z ts j, (0 < n)%nat -> norm_ok D -> get_ibp mode = true -> dom_nonempty D n z ->
  get_input_tensors (Some D) mode n z = Ok ts -> (j < n)%nat ->
  exists r, unpack empty_tensor mode false ts = Ok r /\ is_max (in_dom D n z) (fun y => y j) (f_uc r 0%nat j) /\ is_min (in_dom D n z) (fun y => y j) (f_lc r 0%nat j).
Proof.
  intros D mode n z ts j Hn HD E He H Hj.
  assert (Hex : forall (F G : vec -> R) A M, (forall y, F y = G y) -> is_max A F M -> is_max A G M).
  { intros F G A M Q [H1 (y & H2 & H3)]. split; [intros; rewrite <- Q; auto|exists y; rewrite <- Q; auto]. }
  assert (Hex' : forall (F G : vec -> R) A M, (forall y, F y = G y) -> is_min A F M -> is_min A G M).
  { intros F G A M Q [H1 (y & H2 & H3)]. split; [intros; rewrite <- Q; auto|exists y; rewrite <- Q; auto]. }
  assert (K : forall u l w b, ts = extract mode false (mk_full z u w b l w b empty_tensor empty_tensor) ->
     is_max (in_dom D n z) (fun y => y j) (u 0%nat j) -> is_min (in_dom D n z) (fun y => y j) (l 0%nat j) ->
     exists r, unpack empty_tensor mode false ts = Ok r /\ is_max (in_dom D n z) (fun y => y j) (f_uc r 0%nat j) /\ is_min (in_dom D n z) (fun y => y j) (f_lc r 0%nat j)).
  { intros u l w b -> Hu Hl. destruct mode; [|discriminate E|]; cbn; eexists; (split; [reflexivity|]); cbn; auto. }
  destruct D as [|eps p].
  - unfold get_input_tensors in H. rewrite E in H. cbn [bind] in H. injection H; intros <-. eapply K; [reflexivity| |]; cbn.
    + split; [intros y Hy; apply Hy; exact Hj|]. exists (z 1%nat). split; [intros i Hi; specialize (He i Hi); cbn in He; lra|reflexivity].
    + split; [intros y Hy; apply Hy; exact Hj|]. exists (z 0%nat). split; [intros i Hi; specialize (He i Hi); cbn in He; lra|reflexivity].
  - destruct p as [k|].
    + unfold get_input_tensors in H. rewrite E in H.
      destruct (get_upper (Ball eps (Pnum k)) n false z id_mat zero_vec no_kw) as [u|] eqn:Eu; [|discriminate H]. cbn [bind] in H.
      destruct (get_lower (Ball eps (Pnum k)) n false z id_mat zero_vec no_kw) as [l|] eqn:El; [|discriminate H]. cbn [bind] in H.
      injection H; intros <-. eapply K; [reflexivity| |]; unfold vt.
      * apply (Hex (fun y => aff n id_mat zero_vec y j)); [intros; apply identity_aff; exact Hj|]. apply get_upper_max; auto.
      * apply (Hex' (fun y => aff n id_mat zero_vec y j)); [intros; apply identity_aff; exact Hj|]. apply get_lower_min; auto.
    + unfold get_input_tensors in H. rewrite E in H. cbn [bind] in H. injection H; intros <-. cbn in He. eapply K; [reflexivity| |]; cbn.
      * split; [intros y Hy; specialize (Hy j Hj); cbn in Hy; apply rabs_le in Hy; unfold vt; lra|].
        exists (fun i => z 0%nat i + eps). split; [|reflexivity]. intros i Hi. replace (z 0%nat i + eps - z 0%nat i) with eps by ring. rewrite Rabs_pos_eq; lra.
      * split; [intros y Hy; specialize (Hy j Hj); cbn in Hy; apply rabs_le in Hy; unfold vt; lra|].
        exists (fun i => z 0%nat i - eps). split; [|reflexivity]. intros i Hi. replace (z 0%nat i - eps - z 0%nat i) with (- eps) by ring. rewrite Rabs_Ropp, Rabs_pos_eq; lra.
Qed.

(** ** C35 *)
Lemma convert2mode_sound : forall D n from to_ S m f ts, (0 < n)%nat -> dom_ok D from -> (from = IBP -> to_ = IBP) ->
  valid D from false S n m f ts -> exists out, convert2mode D n from to_ ts = Ok out /\ valid D to_ false S n m f out.
Proof.
  intros D n from to_ S m f ts Hn Hd Hi H. unfold convert2mode.
  set (ca := (mode_eqb from AFFINE && negb (mode_eqb to_ AFFINE))%bool). set (ti := (mode_eqb from HYBRID && negb (mode_eqb to_ AFFINE))%bool).
  destruct (get_full_sound (mk_spec false from D n) ca ti S m f ts Hn Hd H) as (r & E & V). rewrite E. cbn [bind sp_mode] in *.
  replace (mode_eqb from IBP && negb (mode_eqb to_ IBP))%bool with false by (destruct from; try reflexivity; rewrite (Hi eq_refl); reflexivity).
  eexists; split; [reflexivity|]. apply vfull_valid. destruct V as [V1 V2]. split.
  - intros Ht. apply V1. unfold ca. destruct from, to_; try reflexivity; discriminate Ht.
  - intros Ht. apply V2. destruct from; try reflexivity. rewrite (Hi eq_refl) in Ht. discriminate Ht.
Qed.

(** from ibp: the affine bounds are the constants; x is not the input domain *)
Lemma convert2mode_ibp : forall D n to_ S m f ts, to_ <> IBP -> valid D IBP false S n m f ts ->
  exists u l x, ts = [u; l] /\
    convert2mode D n IBP to_ ts = Ok (match to_ with HYBRID => [x; u; (fun _ _ => 0); u; l; (fun _ _ => 0); l] | _ => [x; (fun _ _ => 0); u; (fun _ _ => 0); l] end) /\
    const_ok S m f (u 0%nat) (l 0%nat) /\
    affine_ok S n m f (fun _ _ => 0) (u 0%nat) (fun _ _ => 0) (l 0%nat) /\
    (x 0%nat = l 0%nat /\ x 1%nat = u 0%nat).
Proof.
  intros D n to_ S m f ts Ht [Hl H]. destruct ts as [|u [|l [|]]]; try discriminate Hl. exists u, l, (fun c => if Nat.eqb c 0 then l 0%nat else u 0%nat).
  split; [reflexivity|]. split; [destruct to_; [contradiction|reflexivity|reflexivity]|]. split; [exact H|]. split; [|split; reflexivity].
  intros z j Hz Hj. unfold aff. rewrite dot_0_l. specialize (H z j Hz Hj). lra.
Qed.

Lemma convert2mode_hybrid : forall D n to_ x u wu bu l wl bl extra, (0 < n)%nat -> norm_ok D -> dom_nonempty D n x ->
  exists u' l', best_upper D n x wu bu (Some u) u' /\ best_lower D n x wl bl (Some l) l' /\
    convert2mode D n HYBRID to_ (x :: u :: wu :: bu :: l :: wl :: bl :: extra) =
      Ok match to_ with IBP => [u'; l'] | AFFINE => [x; wu; bu; wl; bl] | HYBRID => [x; u'; wu; bu; l'; wl; bl] end.
Proof.
  intros D n to_ x u wu bu l wl bl extra Hn HD He.
  destruct (get_upper_ok D n x wu (bu 0%nat) HD) as [ua Eu]. destruct (get_lower_ok D n x wl (bl 0%nat) HD) as [la El].
  exists (vt (fun j => Rmin (u 0%nat j) (ua j))), (vt (fun j => Rmax (l 0%nat j) (la j))). unfold best_upper, best_lower. split; [|split].
  - intros j. exists (ua j). split; [apply get_upper_max; auto|reflexivity].
  - intros j. exists (la j). split; [apply get_lower_min; auto|reflexivity].
  - unfold convert2mode, get_fullinputs. cbn [sp_mode sp_dc unpack bind mode_eqb andb negb]. unfold complete.
    cbn [sp_mode sp_dom sp_n mode_eqb f_x f_wu f_bu f_wl f_bl f_uc f_lc andb orb]. destruct to_; cbn [mode_eqb andb negb orb bind]; try reflexivity; rewrite Eu; cbn [bind]; rewrite El; reflexivity.
Qed.

Lemma convert2mode_affine : forall D n to_ x wu bu wl bl extra, (0 < n)%nat -> norm_ok D -> dom_nonempty D n x ->
  exists u' l', best_upper D n x wu bu None u' /\ best_lower D n x wl bl None l' /\
    convert2mode D n AFFINE to_ (x :: wu :: bu :: wl :: bl :: extra) =
      Ok match to_ with IBP => [u'; l'] | AFFINE => [x; wu; bu; wl; bl] | HYBRID => [x; u'; wu; bu; l'; wl; bl] end.
Proof.
  intros D n to_ x wu bu wl bl extra Hn HD He.
  destruct (get_upper_ok D n x wu (bu 0%nat) HD) as [ua Eu]. destruct (get_lower_ok D n x wl (bl 0%nat) HD) as [la El].
  exists (vt ua), (vt la). unfold best_upper, best_lower. split; [|split].
  - intros j. exists (ua j). split; [apply get_upper_max; auto|reflexivity].
  - intros j. exists (la j). split; [apply get_lower_min; auto|reflexivity].
  - unfold convert2mode, get_fullinputs. cbn [sp_mode sp_dc unpack bind mode_eqb andb negb]. unfold complete.
    cbn [sp_mode sp_dom sp_n mode_eqb f_x f_wu f_bu f_wl f_bl f_uc f_lc andb orb]. destruct to_; cbn [mode_eqb andb negb orb bind]; try reflexivity; rewrite Eu; cbn [bind]; rewrite El; reflexivity.
Qed.

Lemma convert2mode_ibp_ibp : forall D n u l extra, convert2mode D n IBP IBP (u :: l :: extra) = Ok [u; l].
Proof. reflexivity. Qed.

(** only the tensors of the first output are read *)
Lemma convert2mode_first : forall D n from to_ ts extra, length ts = nb_tensors from false ->
  convert2mode D n from to_ (ts ++ extra) = convert2mode D n from to_ ts.
Proof.
  intros D n from to_ ts extra H. destruct from.
  - destruct ts as [|a [|b [|]]]; try discriminate H. reflexivity.
  - do 6 (destruct ts as [|? ts]; try discriminate H). reflexivity.
  - do 8 (destruct ts as [|? ts]; try discriminate H). reflexivity.
Qed.

(** ** C38. Forward conversion of a graph.
    A converted operation is sound if, on valid tensors for each of its operands, it returns valid tensors; [P]: side
    condition on the tensors it receives *)
Definition fwd_sound (sp : spec) (P : list tensor -> Prop) (ms : list nat) (m : nat)
    (op : list tensor -> result (list tensor)) (f : list vec -> vec) : Prop :=
  forall (S : vec -> Prop) gs tss, length gs = length ms -> Forall2 (fun mg ts => op_sp sp S (fst mg) (snd mg) ts) (combine ms gs) tss ->
    P (concat tss) -> exists out, op (concat tss) = Ok out /\ op_sp sp S m (fun z => f (map (fun g => g z) gs)) out.

Definition no_map {A} : omap A := fun _ => None.

Lemma combine_map : forall A B C (f : A -> B) (h : A -> C) l, combine (map f l) (map h l) = map (fun a => (f a, h a)) l.
Proof. intros A B C f h. induction l as [|a l IH]; [reflexivity|]. cbn. rewrite IH. reflexivity. Qed.

Lemma Forall2_map_map : forall A B C (R0 : B -> C -> Prop) (f : A -> B) (h : A -> C) l, (forall a, In a l -> R0 (f a) (h a)) -> Forall2 R0 (map f l) (map h l).
Proof. intros A B C R0 f h. induction l as [|a l IH]; intros H; constructor; [apply H; left; reflexivity|apply IH; intros; apply H; right; auto]. Qed.

Section Forward.
Variables (sp : spec) (S : vec -> Prop) (m0 : nat) (g0 : vec -> vec) (its : list tensor) (g : fgraph tensor).
Variables (ops : list ((list vec -> vec) * list nat)) (v : nat -> vec -> vec) (dims : nat -> nat) (P : nat -> list tensor -> Prop).
Hypothesis Hits : op_sp sp S m0 g0 its.
Hypothesis Hacy : acyclic (parents_of g).
Hypothesis Hin : forall i nod, nth_error g i = Some nod -> fn_kind nod = KInput -> fn_parents nod = [] /\ dims i = m0 /\ forall y, v i y = y.
Hypothesis Hsrc : forall i nod, nth_error g i = Some nod -> fn_parents nod = [] -> fn_kind nod = KInput.
Hypothesis Hops : map snd ops = parents_of g.
Hypothesis Hv : network_value ops v.
Hypothesis Hlay : forall i nod op f ps, nth_error g i = Some nod -> fn_kind nod = KOp op -> nth_error ops i = Some (f, ps) ->
  fwd_sound sp (P i) (map dims ps) (dims i) op f.
Hypothesis HP : forall i nod vs, nth_error g i = Some nod -> evaluates (firstn i g) no_map its vs -> P i (concat (map vs (fn_parents nod))).

Lemma forward_eval : exists vs, evaluates g no_map its vs /\
  forall i, (i < length g)%nat -> op_sp sp S (dims i) (fun z => v i (g0 z)) (vs i).
Proof.
  apply (evaluates_build tensor g no_map its (fun i ts => op_sp sp S (dims i) (fun z => v i (g0 z)) ts)); [apply topo_acyclic; exact Hacy|].
  intros i nod vs En He IH. unfold no_map. pose proof (topo_acyclic _ g Hacy) as Ht.
  assert (Eo : exists f, nth_error ops i = Some (f, fn_parents nod)).
  { assert (Q : nth_error (map snd ops) i = Some (fn_parents nod)) by (rewrite Hops; unfold parents_of; rewrite nth_error_map, En; reflexivity).
    rewrite nth_error_map in Q. destruct (nth_error ops i) as [[f ps']|] eqn:E; [|discriminate Q]. injection Q; intros <-. eauto. }
  destruct Eo as (f & Ef). unfold node_out. destruct (fn_kind nod) as [|op] eqn:Ek.
  - destruct (Hin i nod En Ek) as (E1 & E2 & E3). rewrite E1. exists its. split; [reflexivity|]. rewrite E2.
    apply (op_sp_ext sp S m0 g0); [|exact Hits]. intros z j _ _. rewrite E3. reflexivity.
  - assert (Hne : fn_parents nod <> []) by (intros Q; rewrite (Hsrc i nod En Q) in Ek; discriminate Ek).
    pose proof (Hlay i nod op f _ En Ek Ef S (map (fun p => fun z => v p (g0 z)) (fn_parents nod)) (map vs (fn_parents nod))) as HL.
    destruct HL as (out & Eout & Hout).
    + rewrite !map_length. reflexivity.
    + rewrite combine_map. apply Forall2_map_map. intros p Hp. cbn. apply IH. apply (Ht i nod p En Hp).
    + apply (HP i nod vs En He).
    + exists out. split.
      * destruct (fn_parents nod); [contradiction|exact Eout].
      * eapply (op_sp_ext sp S (dims i)); [|exact Hout]. intros z j _ _. cbn. rewrite (Hv (g0 z) i f _ Ef). rewrite map_map.
        destruct (fn_parents nod); [contradiction|reflexivity].
Qed.

Lemma forward_nodes_sound : exists om, convert_nodes g no_map its = Ok om /\
  forall i, (i < length g)%nat -> exists ts, om i = Some ts /\ op_sp sp S (dims i) (fun z => v i (g0 z)) ts.
Proof.
  destruct forward_eval as (vs & He & Hs).
  destruct (convert_nodes_eval tensor g no_map its vs) as (om & E & H); [apply topo_acyclic; exact Hacy| |intros i Q; exfalso; apply Q; reflexivity|exact He|].
  - intros i nod En Ep. exact (Hsrc i nod En Ep).
  - exists om. split; [exact E|]. intros i Hi. exists (vs i). split; [apply H; exact Hi|apply Hs; exact Hi].
Qed.

(** the bounds of the deepest outputs, concatenated in the order of the outputs *)
Lemma forward_outputs_sound : forall lv outs, unshared g -> longest_path (parents_of g) lv -> (forall o, In o outs -> (o < length g)%nat) -> g <> [] ->
  exists tss, convert_forward g outs no_map its = Ok (concat tss) /\
    Forall2 (fun o ts => op_sp sp S (dims o) (fun z => v o (g0 z)) ts) (filter (deepestb g lv) outs) tss.
Proof.
  intros lv outs Hu Hlv Ho Hg. destruct forward_eval as (vs & He & Hs). exists (map vs (filter (deepestb g lv) outs)).
  pose proof (topo_acyclic _ g Hacy) as Ht. assert (Hf : forall o, In o (filter (deepestb g lv) outs) -> (o < length g)%nat) by (intros o Q; apply filter_In in Q; apply Ho; apply Q).
  split.
  - apply convert_forward_eval; auto; [intros i Q; exfalso; apply Q; reflexivity|]. apply output_nodes_ok; auto.
  - rewrite <- (map_id (filter (deepestb g lv) outs)) at 1. apply Forall2_map_map. intros o Q. apply Hs. apply Hf. exact Q.
Qed.
End Forward.

Lemma deepest_b : forall A (g : fgraph A) lv o, deepest (parents_of g) lv o -> deepestb g lv o = true.
Proof.
  intros A g lv o [Ho Hd]. unfold parents_of in *. rewrite map_length in *. unfold deepestb. apply Nat.eqb_eq. apply Nat.le_antisymm.
  - apply max_list_nat_ge. apply in_map. apply in_seq. lia.
  - assert (Hne : map lv (seq 0 (length g)) <> []) by (destruct g; [cbn in Ho; lia|discriminate]).
    apply max_list_nat_in in Hne. apply in_map_iff in Hne. destruct Hne as (j & <- & Hj). apply in_seq in Hj. apply Hd. lia.
Qed.

Lemma deepest_b' : forall A (g : fgraph A) lv o, (o < length g)%nat -> deepestb g lv o = true -> deepest (parents_of g) lv o.
Proof.
  intros A g lv o Ho H. unfold deepestb in H. apply Nat.eqb_eq in H. split; unfold parents_of; rewrite map_length; [exact Ho|].
  intros j Hj. rewrite H. apply max_list_nat_ge. apply in_map. apply in_seq. lia.
Qed.

Lemma valid_length : forall D mode S n m f ts, valid D mode false S n m f ts -> length ts = nb_tensors mode false.
Proof. intros D mode S n m f ts [H _]. destruct mode; exact H. Qed.

(** the converted model bounds the first of the deepest outputs; the others are dropped *)
Lemma clone_forward_first : forall D n mode final z g ops v dims P lv outs o rest,
  (0 < n)%nat -> norm_ok D -> (mode = IBP -> final = IBP) ->
  acyclic (parents_of g) ->
  (forall i nod, nth_error g i = Some nod -> fn_kind nod = KInput -> fn_parents nod = [] /\ dims i = n /\ forall y, v i y = y) ->
  (forall i nod, nth_error g i = Some nod -> fn_parents nod = [] -> fn_kind nod = KInput) ->
  map snd ops = parents_of g -> network_value ops v ->
  (forall i nod op f ps, nth_error g i = Some nod -> fn_kind nod = KOp op -> nth_error ops i = Some (f, ps) ->
     fwd_sound (mk_spec false mode D n) (P i) (map dims ps) (dims i) op f) ->
  (forall its i nod vs, get_input_tensors (Some D) mode n z = Ok its -> nth_error g i = Some nod ->
     evaluates (firstn i g) no_map its vs -> P i (concat (map vs (fn_parents nod)))) ->
  unshared g -> longest_path (parents_of g) lv -> (forall o', In o' outs -> (o' < length g)%nat) ->
  filter (deepestb g lv) outs = o :: rest ->
  exists ts, clone_forward D n mode final g outs z = Ok ts /\ valid D final false (in_dom D n z) n (dims o) (v o) ts.
Proof.
  intros D n mode final z g ops v dims P lv outs o rest Hn HD Hmf Hacy Hin Hsrc Hops Hv Hlay HP Hu Hlv Ho Hfo.
  destruct (input_tensors_ok D mode n z Hn (fun _ => HD)) as (its & Ei & Vi). unfold clone_forward. rewrite Ei. cbn [bind].
  assert (Hg : g <> []).
  { intros ->. assert (In o (filter (deepestb [] lv) outs)) as Q by (rewrite Hfo; left; reflexivity). apply filter_In in Q. destruct Q as [Q _]. apply Ho in Q. cbn in Q. lia. }
  destruct (forward_outputs_sound (mk_spec false mode D n) (in_dom D n z) n (fun y => y) its g ops v dims P Vi Hacy Hin Hsrc Hops Hv Hlay
    (fun i nod vs H1 H2 => HP its i nod vs Ei H1 H2) lv outs Hu Hlv Ho Hg) as (tss & E & F).
  change (fun _ : nat => None) with (@no_map tensor). rewrite E. cbn [bind]. rewrite Hfo in F. inversion F as [|? ts ? tss' V F' Q1 Q2]; subst. cbn [concat].
  pose proof (valid_length _ _ _ _ _ _ _ V) as Hlen. cbn in Hlen. rewrite convert2mode_first by exact Hlen.
  assert (Hdok : dom_ok D mode) by (destruct mode; cbn; auto).
  exact (convert2mode_sound D n mode final _ _ _ ts Hn Hdok Hmf V).
Qed.

Lemma convert2mode_count : forall D n from to_ ts out, convert2mode D n from to_ ts = Ok out -> length out = nb_tensors to_ false.
Proof.
  intros D n from to_ ts out H. unfold convert2mode in H. destruct (get_fullinputs _ _ _ ts); [|discriminate H]. cbn [bind] in H. injection H; intros <-.
  destruct to_; reflexivity.
Qed.

Lemma clone_forward_count : forall D n mode final g outs z ts, clone_forward D n mode final g outs z = Ok ts -> length ts = nb_tensors final false.
Proof.
  intros D n mode final g outs z ts H. unfold clone_forward in H. destruct (get_input_tensors _ _ _ _); [|discriminate H]. cbn [bind] in H.
  destruct (convert_forward _ _ _ _); [|discriminate H]. cbn [bind] in H. apply convert2mode_count in H. exact H.
Qed.

(** ** clone with a backward method *)
Lemma bshape_parents : forall ids g, length ids = length g -> parents_of (bshape ids g) = map snd g.
Proof.
  induction ids as [|k ids IH]; intros [|[L ps] g] H; try discriminate H; [reflexivity|]. cbn. unfold parents_of, bshape in *. cbn. rewrite IH by (cbn in H; lia). reflexivity.
Qed.
Lemma bshape_ids : forall ids g, length ids = length g -> map fn_op (bshape ids g) = ids.
Proof.
  induction ids as [|k ids IH]; intros [|[L ps] g] H; try discriminate H; [reflexivity|]. cbn. f_equal. apply IH. cbn in H. lia.
Qed.
Lemma bshape_length : forall ids g, length ids = length g -> length (bshape ids g) = length g.
Proof. intros ids g H. unfold bshape. rewrite map_length, combine_length, H. lia. Qed.

Lemma well_formed_acyclic : forall n g, well_formed n g -> acyclic (map snd g).
Proof.
  intros n g H i ps p E Hp. rewrite nth_error_map in E. destruct (nth_error g i) as [[L qs]|] eqn:Eg; [|discriminate E]. cbn in E. injection E; intros ->.
  destruct (H i L ps Eg) as (_ & Q & _). apply Q. exact Hp.
Qed.

Lemma convert_backward_sound : forall D n mode final (S : vec -> Prop) its fmap ids g ops v (P : nat -> list tensor -> Prop) lv o,
  (0 < n)%nat -> norm_ok D -> (mode = IBP -> D = Box) ->
  valid D mode false S n n (fun y => y) its ->
  well_formed n g -> no_merge g -> models_last g ->
  map snd ops = map snd g -> network_value ops v ->
  (forall i L ps f, nth_error g i = Some (L, ps) -> nth_error ops i = Some (f, ps) -> bwd_sound (mk_spec false mode D n) (P i) L (fun y => f [y])) ->
  (forall i L ps ts, nth_error g i = Some (L, ps) -> fmap i = Some ts -> valid D mode false S n (ly_out L) (v i) ts) ->
  (forall i L ps imap ts, nth_error g i = Some (L, ps) ->
     get_input_nodes mode D n its fmap g (firstn i g) [] = Ok imap -> node_inputs mode D n its fmap g imap ps = Ok ts -> P i ts) ->
  length ids = length g -> NoDup ids -> longest_path (map snd g) lv -> deepest (map snd g) lv o ->
  exists L ps ts, nth_error g o = Some (L, ps) /\ convert_backward D n mode final ids g [o] None fmap its = Ok ts /\
    valid D final false S n (ly_out L) (v o) ts.
Proof.
  intros D n mode final S its fmap ids g ops v P lv o Hn HD HB Vi Hwf Hnm Hml Hops Hv Hlay Hfm HP Hids Hnd Hlv Hd.
  assert (Hol : (o < length g)%nat) by (destruct Hd as [Hd _]; rewrite map_length in Hd; exact Hd).
  destruct (crown_sound (mk_spec false mode D n) S (fun y => y) its fmap g ops v P [o]) as (res & E & F); cbn [sp_mode sp_dom sp_n sp_dc]; auto.
  { intros o' [<-|[]]. exact Hol. }
  inversion F as [|? ts ? tss (L & ps & Eg & V) F' Q1 Q2]; subst. inversion F'; subst.
  unfold convert_backward. cbn [andb length].
  assert (Eo : output_nodes (bshape ids g) [o] = Ok [o]).
  { rewrite (output_nodes_ok (bshape ids g)) with (lv := lv).
    - cbn [filter]. rewrite deepest_b; [reflexivity|]. rewrite bshape_parents by exact Hids. exact Hd.
    - apply topo_acyclic. rewrite bshape_parents by exact Hids. apply (well_formed_acyclic n). exact Hwf.
    - rewrite bshape_parents by exact Hids. exact Hlv.
    - unfold unshared. rewrite bshape_ids by exact Hids. exact Hnd.
    - intros Q. apply (f_equal (@length _)) in Q. rewrite bshape_length in Q by exact Hids. cbn in Q. lia.
    - intros o' [<-|[]]. rewrite bshape_length by exact Hids. exact Hol. }
  rewrite Eo. cbn [bind sp_mode sp_dom sp_n] in *. rewrite E. cbn [bind concat]. rewrite app_nil_r.
  exists L, ps. assert (Hdok : dom_ok D mode) by (destruct mode; cbn; auto).
  assert (Hgen : (mode = IBP -> final = IBP) -> exists c, convert2mode D n mode final ts = Ok c /\ valid D final false S n (ly_out L) (v o) c).
  { intros Hmf. apply (convert2mode_sound D n mode final S _ _ ts Hn Hdok Hmf V). }
  destruct (mode_eqb mode IBP) eqn:Em.
  - assert (mode = IBP) by (destruct mode; try discriminate Em; reflexivity). subst mode. rewrite (HB eq_refl) in *.
    destruct final.
    + destruct (Hgen (fun _ => eq_refl)) as (c & Ec & Vc). rewrite Ec. cbn. eauto.
    + destruct (convert2mode_ibp Box n AFFINE S _ _ ts ltac:(discriminate) V) as (u & l & x & Et & Ec & Hc & Ha & _).
      rewrite Ec. cbn [bind mode_eqb negb andb]. destruct Vi as [Hl Vi]. destruct its as [|iu [|il [|]]]; try discriminate Hl.
      eexists. split; [exact Eg|]. split; [reflexivity|]. split; [reflexivity|]. cbn. split; [|exact Ha].
      intros y Hy i Hi. cbn. exact (Vi y i Hy Hi).
    + destruct (convert2mode_ibp Box n HYBRID S _ _ ts ltac:(discriminate) V) as (u & l & x & Et & Ec & Hc & Ha & _).
      rewrite Ec. cbn [bind mode_eqb negb andb]. destruct Vi as [Hl Vi]. destruct its as [|iu [|il [|]]]; try discriminate Hl.
      eexists. split; [exact Eg|]. split; [reflexivity|]. split; [reflexivity|]. cbn. split; [|split; [exact Hc|exact Ha]].
      intros y Hy i Hi. cbn. exact (Vi y i Hy Hi).
  - destruct Hgen as (c & Ec & Vc); [intros ->; discriminate Em|]. rewrite Ec. rewrite andb_false_r. cbn [bind]. eauto.
Qed.

Lemma clone_crown_sound : forall D n mode final z ids g ops v (P : nat -> list tensor -> Prop) lv o,
  (0 < n)%nat -> norm_ok D -> (mode = IBP -> D = Box) ->
  well_formed n g -> no_merge g -> models_last g ->
  map snd ops = map snd g -> network_value ops v ->
  (forall i L ps f, nth_error g i = Some (L, ps) -> nth_error ops i = Some (f, ps) -> bwd_sound (mk_spec false mode D n) (P i) L (fun y => f [y])) ->
  (forall its i L ps imap ts, get_input_tensors (Some D) mode n z = Ok its -> nth_error g i = Some (L, ps) ->
     get_input_nodes mode D n its no_map g (firstn i g) [] = Ok imap -> node_inputs mode D n its no_map g imap ps = Ok ts -> P i ts) ->
  length ids = length g -> NoDup ids -> longest_path (map snd g) lv -> deepest (map snd g) lv o ->
  exists L ps ts, nth_error g o = Some (L, ps) /\ clone_backward D n mode final None ids g [o] None z = Ok ts /\
    valid D final false (in_dom D n z) n (ly_out L) (v o) ts.
Proof.
  intros D n mode final z ids g ops v P lv o Hn HD HB Hwf Hnm Hml Hops Hv Hlay HP Hids Hnd Hlv Hd.
  destruct (input_tensors_ok D mode n z Hn (fun _ => HD)) as (its & Ei & Vi). unfold clone_backward. rewrite Ei. cbn [bind].
  change (fun _ : nat => None) with (@no_map tensor).
  apply (convert_backward_sound D n mode final (in_dom D n z) its no_map ids g ops v P lv o); auto.
  - intros; discriminate.
  - intros i L ps imap ts. apply (HP its). exact Ei.
Qed.

Lemma clone_crown_forward_sound : forall D n mode final z h ids g ops v (P P' : nat -> list tensor -> Prop) lv o,
  (0 < n)%nat -> norm_ok D -> (mode = IBP -> D = Box) ->
  well_formed n g -> no_merge g -> models_last g ->
  map snd ops = map snd g -> network_value ops v ->
  (forall i L ps f, nth_error g i = Some (L, ps) -> nth_error ops i = Some (f, ps) -> bwd_sound (mk_spec false mode D n) (P i) L (fun y => f [y])) ->
  parents_of h = map snd g -> unshared h ->
  (forall i nod L ps, nth_error h i = Some nod -> nth_error g i = Some (L, ps) -> fn_kind nod = KInput -> ps = [] /\ ly_out L = n /\ forall y, v i y = y) ->
  (forall i nod, nth_error h i = Some nod -> fn_parents nod = [] -> fn_kind nod = KInput) ->
  (forall i nod op f ps L, nth_error h i = Some nod -> fn_kind nod = KOp op -> nth_error ops i = Some (f, ps) -> nth_error g i = Some (L, ps) ->
     fwd_sound (mk_spec false mode D n) (P' i) (map (fun p => match nth_error g p with Some (L', _) => ly_out L' | None => O end) ps) (ly_out L) op f) ->
  (forall its i nod vs, get_input_tensors (Some D) mode n z = Ok its -> nth_error h i = Some nod ->
     evaluates (firstn i h) no_map its vs -> P' i (concat (map vs (fn_parents nod)))) ->
  (forall its om i L ps imap ts, get_input_tensors (Some D) mode n z = Ok its -> convert_nodes h no_map its = Ok om -> nth_error g i = Some (L, ps) ->
     get_input_nodes mode D n its om g (firstn i g) [] = Ok imap -> node_inputs mode D n its om g imap ps = Ok ts -> P i ts) ->
  length ids = length g -> NoDup ids -> longest_path (map snd g) lv -> deepest (map snd g) lv o ->
  exists L ps ts, nth_error g o = Some (L, ps) /\ clone_backward D n mode final (Some h) ids g [o] None z = Ok ts /\
    valid D final false (in_dom D n z) n (ly_out L) (v o) ts.
Proof.
  intros D n mode final z h ids g ops v P P' lv o Hn HD HB Hwf Hnm Hml Hops Hv Hlay Hpar Hu Hin Hsrc Hfl HP' HP Hids Hnd Hlv Hd.
  destruct (input_tensors_ok D mode n z Hn (fun _ => HD)) as (its & Ei & Vi). unfold clone_backward. rewrite Ei. cbn [bind].
  assert (Hacy : acyclic (parents_of h)) by (rewrite Hpar; apply (well_formed_acyclic n); exact Hwf).
  assert (Hlen : length h = length g) by (apply (f_equal (@length _)) in Hpar; unfold parents_of in Hpar; rewrite !map_length in Hpar; exact Hpar).
  assert (Hnode : forall i nod, nth_error h i = Some nod -> exists L, nth_error g i = Some (L, fn_parents nod)).
  { intros i nod En. assert (Q : nth_error (map snd g) i = Some (fn_parents nod)) by (rewrite <- Hpar; unfold parents_of; rewrite nth_error_map, En; reflexivity).
    rewrite nth_error_map in Q. destruct (nth_error g i) as [[L qs]|]; [|discriminate Q]. cbn in Q. injection Q; intros ->. eauto. }
  set (dims := fun p => match nth_error g p with Some (L', _) => ly_out L' | None => O end).
  destruct (forward_nodes_sound (mk_spec false mode D n) (in_dom D n z) n (fun y => y) its h ops v dims P' Vi Hacy) as (om & Eom & Hom).
  - intros i nod En Ek. destruct (Hnode i nod En) as (L & Eg). destruct (Hin i nod L _ En Eg Ek) as (E1 & E2 & E3).
    split; [exact E1|]. split; [|exact E3]. unfold dims. rewrite Eg. exact E2.
  - exact Hsrc.
  - rewrite Hpar. exact Hops.
  - exact Hv.
  - intros i nod op f ps En Ek Ef. destruct (Hnode i nod En) as (L & Eg).
    assert (ps = fn_parents nod).
    { assert (Q : nth_error (map snd ops) i = Some ps) by (rewrite nth_error_map, Ef; reflexivity). rewrite Hops, nth_error_map, Eg in Q. cbn in Q. congruence. }
    subst ps. unfold dims at 2. rewrite Eg. apply (Hfl i nod op f (fn_parents nod) L En Ek Ef Eg).
  - intros i nod vs. apply (HP' its). exact Ei.
  - assert (Hd' : deepest (parents_of h) lv o) by (rewrite Hpar; exact Hd).
    assert (Hol : (o < length h)%nat) by (destruct Hd' as [Q _]; unfold parents_of in Q; rewrite map_length in Q; exact Q).
    change (fun _ : nat => None) with (@no_map tensor). rewrite Eom. cbn [bind].
    rewrite (output_nodes_ok h (topo_acyclic _ h Hacy) lv).
    + cbn [bind]. apply (convert_backward_sound D n mode final (in_dom D n z) its om ids g ops v P lv o); auto.
      * intros i L ps ts Eg Et. assert (Hi : (i < length h)%nat) by (rewrite Hlen; apply nth_error_Some; congruence).
        destruct (Hom i Hi) as (ts' & E1 & V'). rewrite Et in E1. injection E1; intros <-. unfold dims in V'. rewrite Eg in V'. exact V'.
      * intros i L ps imap ts. apply (HP its om); auto.
    + rewrite Hpar. exact Hlv.
    + exact Hu.
    + intros Q. rewrite Q in Hol. cbn in Hol. lia.
    + intros o' [<-|[]]. exact Hol.
Qed.
