(** Proofs about M_MergeLayers. *)
From Coq Require Import Reals Lra Lia Psatz List Arith Bool.
From Verif Require Import RLib Spec M_Core M_Utils M_MergeLayers P_Core P_Merge P_Utils.
Import ListNotations.
Local Open Scope R_scope.

(** ** completion by type, all modes, with the default flags *)

Definition rowd (R : full (list tensor)) (i : nat) : full tensor :=
  let g (s : full (list tensor) -> list tensor) := nth i (s R) empty_tensor in
  mk_full (g f_x) (g f_uc) (g f_wu) (g f_bu) (g f_lc) (g f_wl) (g f_bl) (g f_h) (g f_g).

Lemma row_is_rowd : forall R i r, row_is R i r -> rowd R i = r.
Proof.
  intros R i [x uc wu bu lc wl bl h g] (A & B & C & D & E & F & G & H & I). unfold rowd. cbn in *.
  rewrite (nth_error_nth_d _ _ _ empty_tensor _ A), (nth_error_nth_d _ _ _ empty_tensor _ B),
    (nth_error_nth_d _ _ _ empty_tensor _ C), (nth_error_nth_d _ _ _ empty_tensor _ D),
    (nth_error_nth_d _ _ _ empty_tensor _ E), (nth_error_nth_d _ _ _ empty_tensor _ F),
    (nth_error_nth_d _ _ _ empty_tensor _ G), (nth_error_nth_d _ _ _ empty_tensor _ H),
    (nth_error_nth_d _ _ _ empty_tensor _ I). reflexivity.
Qed.

Lemma merge_loop_affine : forall D n dc is s,
  norm_ok D ->
  exists s', merge_loop (mk_spec dc AFFINE D n) (merge_refs AFFINE dc) s is = Ok s' /\
    (forall o, o <> 0%nat -> sread s' o = sread s o).
Proof.
  intros D n dc is. induction is as [|i is IH]; intros s Hd.
  - exists s. split; auto.
  - cbn [merge_loop]. unfold merge_step. cbn [sp_dom sp_n sp_mode mode_eqb].
    set (x := nth i (sread s (f_x (merge_refs AFFINE dc))) empty_tensor).
    destruct (get_upper_ok D n x (nth i (sread s (f_wu (merge_refs AFFINE dc))) empty_tensor)
      (nth i (sread s (f_bu (merge_refs AFFINE dc))) empty_tensor 0%nat) Hd) as [ua Eu].
    destruct (get_lower_ok D n x (nth i (sread s (f_wl (merge_refs AFFINE dc))) empty_tensor)
      (nth i (sread s (f_bl (merge_refs AFFINE dc))) empty_tensor 0%nat) Hd) as [la El].
    rewrite Eu, El. cbn [bind].
    destruct (IH (swrite (swrite s (f_uc (merge_refs AFFINE dc)) i (vt ua)) (f_lc (merge_refs AFFINE dc)) i (vt la)) Hd)
      as (s' & E' & H').
    exists s'. split; [exact E'|]. intros o Ho. rewrite H' by auto.
    replace (f_lc (merge_refs AFFINE dc)) with 0%nat by (destruct dc; reflexivity).
    replace (f_uc (merge_refs AFFINE dc)) with 0%nat by (destruct dc; reflexivity).
    rewrite !sread_swrite_other by auto. reflexivity.
Qed.

Lemma by_type_sound : forall sp (S : vec -> Prop) (ms : nat -> nat) (fs : nat -> vec -> vec) ls,
  (0 < sp_n sp)%nat -> dom_ok (sp_dom sp) (sp_mode sp) ->
  (forall i l, nth_error ls i = Some l -> op_sp sp S (ms i) (fs i) l) ->
  exists R, get_fullinputs_by_type sp false true (concat ls) = Ok R /\
    length (f_x R) = length ls /\
    (get_ibp (sp_mode sp) = true -> length (f_uc R) = length ls /\ length (f_lc R) = length ls) /\
    (get_affine (sp_mode sp) = true -> length (f_wu R) = length ls /\ length (f_bu R) = length ls /\
       length (f_wl R) = length ls /\ length (f_bl R) = length ls) /\
    forall i, (i < length ls)%nat ->
      vfull (sp_dom sp) (get_ibp (sp_mode sp)) (get_affine (sp_mode sp)) S (sp_n sp) (ms i) (fs i) (rowd R i).
Proof.
  intros sp S ms fs ls Hn Hd Hv.
  assert (Hlen : forall l, In l ls -> length l = spec_nb (sp_mode sp) (sp_dc sp)).
  { intros l Hl. apply In_nth_error in Hl. destruct Hl as [i Hi]. apply (Hv i l Hi). }
  destruct (merge_slices _ _ ls Hlen) as [HL HR].
  assert (Hbase : forall i l r, nth_error ls i = Some l -> unpack empty_tensor (sp_mode sp) (sp_dc sp) l = Ok r ->
     vfull (sp_dom sp) (get_ibp (sp_mode sp)) (get_affine (sp_mode sp)) S (sp_n sp) (ms i) (fs i) r).
  { intros i l r Hi Er. destruct (valid_unpack _ _ _ _ _ _ _ _ (Hv i l Hi)) as (r' & Er' & V & _). congruence. }
  destruct (sp_mode sp) eqn:Em.
  - (* IBP *)
    exists (deref (merge_store empty_tensor IBP (sp_dc sp) (concat ls)) (merge_refs IBP (sp_dc sp))).
    unfold get_fullinputs_by_type. rewrite Em. cbn [mode_eqb andb orb].
    destruct HL as (L1 & L2 & L3 & L4 & L5 & L6 & L7 & _).
    split; [reflexivity|]. split; auto. split; [auto|]. split; [auto|].
    intros i Hi. destruct (nth_error ls i) as [l|] eqn:El; [|apply nth_error_None in El; lia].
    destruct (HR i l El) as (r & Er & Q). rewrite (row_is_rowd _ _ _ Q). eapply Hbase; eauto.
  - (* AFFINE *)
    exists (deref (merge_store empty_tensor AFFINE (sp_dc sp) (concat ls)) (merge_refs AFFINE (sp_dc sp))).
    unfold get_fullinputs_by_type. rewrite Em. cbn [mode_eqb andb orb].
    destruct HL as (L1 & L2 & L3 & L4 & L5 & L6 & L7 & _).
    split; [reflexivity|]. split; auto. split; [discriminate|]. split; [auto|].
    intros i Hi. destruct (nth_error ls i) as [l|] eqn:El; [|apply nth_error_None in El; lia].
    destruct (HR i l El) as (r & Er & Q). rewrite (row_is_rowd _ _ _ Q). eapply Hbase; eauto.
  - (* HYBRID *)
    destruct sp as [dc mode D n]; cbn [sp_mode sp_dc sp_dom sp_n] in *. subst mode.
    destruct (merge_by_type_ok (mk_spec dc HYBRID D n) false true ls) as (R & ER & AL & Hrow); auto; try discriminate.
    exists R. split; auto. destruct AL as (L1 & L2 & L3 & L4 & L5 & L6 & L7 & _).
    split; [auto|]. split; [auto|]. split; [auto|].
    intros i Hi. destruct (nth_error ls i) as [l|] eqn:El; [|apply nth_error_None in El; lia].
    destruct (Hrow i l El) as (r & Er & Q). rewrite (row_is_rowd _ _ _ Q).
    destruct (get_full_sound (mk_spec dc HYBRID D n) false true S (ms i) (fs i) l Hn Hd (Hv i l El)) as (r' & Er' & V).
    assert (r = r') by congruence. subst r'. destruct V as [V1 V2]. split; auto.
Qed.

(** ** Add and Average *)

Lemma fold_sum_t : forall l (acc : tensor) i j,
  fold_left (fun (acc t : tensor) => fun i j => acc i j + t i j) l acc i j =
  acc i j + rsum (length l) (fun k => nth k l empty_tensor i j).
Proof.
  induction l as [|t q IH]; intros acc i j; cbn [fold_left length]; [simpl; lra|].
  rewrite IH. change (S (length q)) with (1 + length q)%nat. rewrite rsum_app. simpl. lra.
Qed.

Lemma sum_t_rsum : forall l i j, sum_t l i j = rsum (length l) (fun k => nth k l empty_tensor i j).
Proof. intros. unfold sum_t. rewrite fold_sum_t. lra. Qed.

Lemma sum_list_rsum : forall l, sum_list l = rsum (length l) (fun k => nth k l 0).
Proof.
  induction l as [|a q IH]; [reflexivity|]. cbn [sum_list fold_right length].
  change (S (length q)) with (1 + length q)%nat. rewrite rsum_app. simpl.
  unfold sum_list in IH. rewrite IH. lra.
Qed.

Lemma vals_length : forall fs z j, length (vals fs z j) = length fs.
Proof. intros. apply map_length. Qed.

Definition f_dflt : vec -> vec := fun _ _ => 0.

Lemma vals_nth : forall fs z j k, nth k (vals fs z j) 0 = nth k fs f_dflt z j.
Proof. intros. unfold vals. change 0 with ((fun f : vec -> vec => f z j) f_dflt). apply map_nth. Qed.

Lemma sum_vals : forall fs z j, sum_list (vals fs z j) = rsum (length fs) (fun k => nth k fs f_dflt z j).
Proof.
  intros. rewrite sum_list_rsum, vals_length. apply rsum_ext. intros. apply vals_nth.
Qed.

Lemma Forall2_nth_error : forall A B (P : A -> B -> Prop) la lb, Forall2 P la lb ->
  forall i b (d : A), nth_error lb i = Some b -> P (nth i la d) b.
Proof.
  intros A B P la lb H. induction H; intros i b d Hi; [destruct i; discriminate|].
  destruct i; cbn in *; [congruence | eauto].
Qed.

Lemma Forall2_length' : forall A B (P : A -> B -> Prop) la lb, Forall2 P la lb -> length la = length lb.
Proof. intros A B P la lb H. induction H; cbn; auto. Qed.

Lemma merge_reduce_sound : forall sp (S : vec -> Prop) m (c : R) (op : list tensor -> tensor) fs ls,
  (0 < sp_n sp)%nat -> dom_ok (sp_dom sp) (sp_mode sp) -> sp_dc sp = false -> 0 <= c ->
  (forall l i j, length l = length ls -> op l i j = c * rsum (length l) (fun k => nth k l empty_tensor i j)) ->
  Forall2 (op_sp sp S m) fs ls -> ls <> [] ->
  exists out, merge_reduce sp op op (concat ls) = Ok out /\
    op_sp sp S m (fun z j => c * sum_list (vals fs z j)) out.
Proof.
  intros sp S m c op fs ls Hn Hd Hdc Hc Hop HF Hne.
  pose proof (Forall2_length' _ _ _ _ _ HF) as HFl.
  destruct (by_type_sound sp S (fun _ => m) (fun i => nth i fs f_dflt) ls Hn Hd) as (R & ER & Lx & Li & La & Hrow).
  { intros i l Hi. apply (Forall2_nth_error _ _ _ _ _ HF i l f_dflt Hi). }
  unfold merge_reduce. rewrite ER. cbn [bind].
  destruct (f_x R) as [|x xs] eqn:Ex.
  { destruct ls; [congruence | discriminate Lx]. }
  rewrite Hdc.
  assert (Hpos : (0 < length ls)%nat) by (destruct ls; [congruence | cbn; lia]).
  assert (G : vfull (sp_dom sp) (get_ibp (sp_mode sp)) (get_affine (sp_mode sp)) S (sp_n sp) m
     (fun z j => c * sum_list (vals fs z j))
     (mk_full x (op (f_uc R)) (op (f_wu R)) (op (f_bu R)) (op (f_lc R)) (op (f_wl R)) (op (f_bl R)) empty_tensor empty_tensor)).
  { split.
    - intros Hi. destruct (Li Hi) as [L1 L2]. intros z j Hz Hj. cbn [f_uc f_lc].
      rewrite !Hop by auto. rewrite sum_vals, L1, L2, HFl.
      assert (H : forall i, (i < length ls)%nat -> nth i (f_lc R) empty_tensor 0%nat j <= nth i fs f_dflt z j <= nth i (f_uc R) empty_tensor 0%nat j).
      { intros i Hik. destruct (Hrow i Hik) as [V _]. exact (V Hi z j Hz Hj). }
      split; apply Rmult_le_compat_l; auto; apply rsum_le; intros i Hik; apply H; auto.
    - intros Ha. destruct (La Ha) as (L1 & L2 & L3 & L4). split.
      + intros z Hz. destruct (Hrow 0%nat Hpos) as [_ V]. destruct (V Ha) as [V1 _].
        unfold rowd in V1. cbn [f_x] in V1. rewrite Ex in V1. exact (V1 z Hz).
      + intros z j Hz Hj. cbn [f_wu f_bu f_wl f_bl].
        assert (H : forall i, (i < length ls)%nat ->
           aff (sp_n sp) (nth i (f_wl R) empty_tensor) (nth i (f_bl R) empty_tensor 0%nat) z j <= nth i fs f_dflt z j <=
           aff (sp_n sp) (nth i (f_wu R) empty_tensor) (nth i (f_bu R) empty_tensor 0%nat) z j).
        { intros i Hik. destruct (Hrow i Hik) as [_ V]. destruct (V Ha) as [_ V2]. exact (V2 z j Hz Hj). }
        assert (E : forall W B, length W = length ls -> length B = length ls ->
          aff (sp_n sp) (op W) (op B 0%nat) z j =
          c * rsum (length ls) (fun k => aff (sp_n sp) (nth k W empty_tensor) (nth k B empty_tensor 0%nat) z j)).
        { intros W B LW LB. unfold aff. rewrite Hop by auto.
          rewrite (dot_ext _ _ (fun i => c * rsum (length W) (fun k => nth k W empty_tensor i j)) z z) by (intros; auto).
          rewrite dot_scal_l, (dot_sum_l (sp_n sp) (length W) (fun i k => nth k W empty_tensor i j)).
          rewrite rsum_plus, LW, LB. lra. }
        rewrite !E by auto. rewrite sum_vals, HFl.
        split; apply Rmult_le_compat_l; auto; apply rsum_le; intros i Hik; apply H; auto. }
  destruct G as [G1 G2].
  destruct (get_ibp (sp_mode sp)) eqn:Ei, (get_affine (sp_mode sp)) eqn:Ea;
    (eexists; split; [reflexivity|]); rewrite <- Hdc; apply vfull_valid; rewrite Ei, Ea; split; auto; discriminate.
Qed.

Lemma decomon_add_sound : forall sp (S : vec -> Prop) m fs ls,
  (0 < sp_n sp)%nat -> dom_ok (sp_dom sp) (sp_mode sp) -> sp_dc sp = false ->
  Forall2 (op_sp sp S m) fs ls -> ls <> [] ->
  exists out, decomon_add sp (concat ls) = Ok out /\
    op_sp sp S m (fun z j => sum_list (vals fs z j)) out.
Proof.
  intros sp S m fs ls Hn Hd Hdc HF Hne.
  destruct (merge_reduce_sound sp S m 1 sum_t fs ls Hn Hd Hdc) as (o & E & V); auto; try lra.
  { intros. rewrite sum_t_rsum. lra. }
  exists o. split; auto. eapply op_sp_ext; [|exact V]. intros. cbn. lra.
Qed.

Lemma decomon_average_sound : forall sp (S : vec -> Prop) m fs ls,
  (0 < sp_n sp)%nat -> dom_ok (sp_dom sp) (sp_mode sp) -> sp_dc sp = false ->
  Forall2 (op_sp sp S m) fs ls -> ls <> [] ->
  exists out, decomon_average sp (concat ls) = Ok out /\
    op_sp sp S m (fun z j => sum_list (vals fs z j) / INR (length fs)) out.
Proof.
  intros sp S m fs ls Hn Hd Hdc HF Hne.
  pose proof (Forall2_length' _ _ _ _ _ HF) as HFl.
  assert (0 < INR (length ls)) by (apply lt_0_INR; destruct ls; [congruence | cbn; lia]).
  destruct (merge_reduce_sound sp S m (/ INR (length ls)) avg_t fs ls Hn Hd Hdc) as (o & E & V); auto.
  { left. apply Rinv_0_lt_compat. auto. }
  { intros l i j Hl. unfold avg_t. rewrite sum_t_rsum, Hl. unfold Rdiv. lra. }
  exists o. split; auto. eapply op_sp_ext; [|exact V]. intros. cbn. rewrite HFl. unfold Rdiv. lra.
Qed.

(** ** Subtract, Maximum, Minimum *)

Lemma split_valid : forall sp (S : vec -> Prop) m fs ls, Forall2 (op_sp sp S m) fs ls ->
  split_to_merge (nb_tensors (sp_mode sp) (sp_dc sp)) (concat ls) = ls.
Proof.
  intros sp S m fs ls H. rewrite nb_tensors_spec. apply split_to_merge_concat.
  - destruct (sp_mode sp), (sp_dc sp); cbn; lia.
  - intros l Hl. induction H; [contradiction|]. destruct Hl as [<-|Hl]; [apply H|auto].
Qed.

Lemma decomon_subtract_sound : forall sp (S : vec -> Prop) m f0 f1 in0 in1,
  (0 < sp_n sp)%nat -> dom_ok (sp_dom sp) (sp_mode sp) -> sp_dc sp = false ->
  op_sp sp S m f0 in0 -> op_sp sp S m f1 in1 ->
  exists out, decomon_subtract sp (in0 ++ in1) = Ok out /\ op_sp sp S m (fun z j => f0 z j - f1 z j) out.
Proof.
  intros sp S m f0 f1 in0 in1 Hn Hd Hdc H0 H1. unfold decomon_subtract. rewrite Hdc, <- Hdc.
  replace (in0 ++ in1) with (concat [in0; in1]) by (cbn; rewrite app_nil_r; auto).
  rewrite (split_valid sp S m [f0; f1]) by (do 2 (apply Forall2_cons; [assumption|]); apply Forall2_nil).
  apply subtract_sound; auto.
Qed.

Lemma decomon_subtract_arity : forall sp (S : vec -> Prop) m fs ls,
  sp_dc sp = false -> Forall2 (op_sp sp S m) fs ls -> length ls <> 2%nat ->
  decomon_subtract sp (concat ls) = Err ValueError.
Proof.
  intros sp S m fs ls Hdc H Hl. unfold decomon_subtract. rewrite Hdc, <- Hdc.
  rewrite (split_valid sp S m fs ls H). destruct ls as [|a [|b [|c q]]]; auto. cbn in Hl. lia.
Qed.

(** width conditions met along the chain of maxima *)
Fixpoint max_fold_gaps (ke : R) (sp : spec) (m : nat) (o : list tensor) (l : list (list tensor)) : Prop :=
  match l with
  | [] => True
  | i :: q => max_gaps_ok ke sp m o i /\
      forall o', maximum ke sp None o i = Ok o' -> max_fold_gaps ke sp m o' q
  end.

Lemma max_fold_sound : forall ke sp (S : vec -> Prop) m fs ls,
  0 < ke -> (0 < sp_n sp)%nat -> dom_ok (sp_dom sp) (sp_mode sp) ->
  Forall2 (op_sp sp S m) fs ls -> forall f0 o,
  op_sp sp S m f0 o -> max_fold_gaps ke sp m o ls ->
  exists out, foldR (maximum ke sp None) ls o = Ok out /\
    op_sp sp S m (fun z j => max_list (f0 z j) (vals fs z j)) out.
Proof.
  intros ke sp S m fs ls Hke Hn Hd HF. induction HF as [|f l fs ls Hf HF IH]; intros f0 o Ho Hg.
  - exists o. split; auto.
  - destruct Hg as [Hg1 Hg2].
    destruct (maximum_sound ke sp None S m f0 f o l Hke Hn Hd I Ho Hf Hg1) as (o' & E' & V').
    cbn [foldR]. rewrite E'. cbn [bind].
    destruct (IH _ o' V' (Hg2 o' E')) as (out & E & V). exists out. split; auto.
Qed.

Definition layer_max_gaps (ke : R) (sp : spec) (m : nat) (ls : list (list tensor)) : Prop :=
  match ls with [] => True | a :: q => max_fold_gaps ke sp m a q end.

Lemma decomon_maximum_sound : forall ke sp (S : vec -> Prop) m f0 fs ls,
  0 < ke -> (0 < sp_n sp)%nat -> dom_ok (sp_dom sp) (sp_mode sp) -> sp_dc sp = false ->
  Forall2 (op_sp sp S m) (f0 :: fs) ls -> layer_max_gaps ke sp m ls ->
  exists out, decomon_maximum ke sp (concat ls) = Ok out /\
    op_sp sp S m (fun z j => max_list (f0 z j) (vals fs z j)) out.
Proof.
  intros ke sp S m f0 fs ls Hke Hn Hd Hdc HF Hg. unfold decomon_maximum. rewrite Hdc, <- Hdc.
  rewrite (split_valid sp S m _ ls HF). inversion HF as [|? a ? q Ha HF']; subst.
  destruct q as [|b q].
  - inversion HF'; subst. cbn [concat]. rewrite app_nil_r. exists a. split; auto.
  - exact (max_fold_sound ke sp S m fs (b :: q) Hke Hn Hd HF' f0 a Ha Hg).
Qed.

Lemma mapR_minus_sound : forall sp (S : vec -> Prop) m fs ls,
  (0 < sp_n sp)%nat -> dom_ok (sp_dom sp) (sp_mode sp) ->
  Forall2 (op_sp sp S m) fs ls ->
  exists ls', mapR (minus sp) ls = Ok ls' /\ Forall2 (op_sp sp S m) (map (fun (f : vec -> vec) z j => - f z j) fs) ls'.
Proof.
  intros sp S m fs ls Hn Hd HF. induction HF as [|f l fs ls Hf HF IH].
  - exists []. split; [reflexivity|constructor].
  - destruct (minus_sound sp S m f l Hn Hd Hf) as (o & E & V). destruct IH as (ls' & E' & V').
    exists (o :: ls'). cbn [mapR]. rewrite E. cbn [bind]. rewrite E'. cbn [bind]. split; auto.
    cbn [map]. constructor; auto.
Qed.

Definition layer_min_gaps (ke : R) (sp : spec) (m : nat) (ls : list (list tensor)) : Prop :=
  forall ls', mapR (minus sp) ls = Ok ls' -> layer_max_gaps ke sp m ls'.

Lemma max_list_opp : forall l a, - max_list (- a) (map Ropp l) = min_list a l.
Proof.
  unfold max_list, min_list. induction l as [|b q IH]; intros a; cbn; [lra|].
  rewrite <- IH. f_equal. f_equal. rcases.
Qed.

Lemma decomon_minimum_sound : forall ke sp (S : vec -> Prop) m f0 fs ls,
  0 < ke -> (0 < sp_n sp)%nat -> dom_ok (sp_dom sp) (sp_mode sp) -> sp_dc sp = false ->
  Forall2 (op_sp sp S m) (f0 :: fs) ls -> layer_min_gaps ke sp m ls ->
  exists out, decomon_minimum ke sp (concat ls) = Ok out /\
    op_sp sp S m (fun z j => min_list (f0 z j) (vals fs z j)) out.
Proof.
  intros ke sp S m f0 fs ls Hke Hn Hd Hdc HF Hg. unfold decomon_minimum. rewrite Hdc, <- Hdc.
  rewrite (split_valid sp S m _ ls HF).
  destruct (mapR_minus_sound sp S m _ ls Hn Hd HF) as (ls' & El & HF'). rewrite El. cbn [bind].
  cbn [map] in HF'. inversion HF' as [|? a ? q Ha HF'']; subst.
  specialize (Hg _ El). cbn in Hg.
  destruct q as [|b q].
  - assert (fs = []) by (inversion HF''; destruct fs; [auto|discriminate]). subst fs.
    inversion HF as [|? c ? q Hc HF3]; subst. inversion HF3; subst. cbn [concat]. rewrite app_nil_r.
    exists c. split; auto.
  - change (o <- maximum ke sp None a b; (o' <- foldR (maximum ke sp None) q o; minus sp o'))
      with (o <- maximum ke sp None a b; (fun o => o' <- foldR (maximum ke sp None) q o; minus sp o') o).
    destruct (max_fold_sound ke sp S m _ (b :: q) Hke Hn Hd HF'' _ a Ha Hg) as (o & Eo & Vo).
    cbn [foldR] in Eo. destruct (maximum ke sp None a b) as [o1|]; [|discriminate]. cbn [bind] in *.
    rewrite Eo. cbn [bind].
    destruct (minus_sound sp S m _ o Hn Hd Vo) as (o' & E' & V'). exists o'. split; auto.
    eapply op_sp_ext; [|exact V']. intros z j _ _. cbn. unfold vals. rewrite map_map.
    rewrite <- (max_list_opp (map (fun f => f z j) fs)). rewrite map_map. reflexivity.
Qed.

(** in ibp mode the width conditions are vacuous *)
Lemma max_gaps_ibp : forall ke sp m a b, sp_mode sp = IBP -> max_gaps_ok ke sp m a b.
Proof. intros ke sp m a b H d _. apply gaps_ok_ibp; auto. Qed.
Lemma max_fold_gaps_ibp : forall ke sp m ls o, sp_mode sp = IBP -> max_fold_gaps ke sp m o ls.
Proof. induction ls; intros o H; cbn; auto. split; [apply max_gaps_ibp|]; auto. Qed.
Lemma layer_gaps_ibp : forall ke sp m ls, sp_mode sp = IBP -> layer_max_gaps ke sp m ls /\ layer_min_gaps ke sp m ls.
Proof.
  intros ke sp m ls H.
  assert (A : forall l, layer_max_gaps ke sp m l) by (intros [|a q]; cbn; auto; apply max_fold_gaps_ibp; auto).
  split; auto. intros l _. auto.
Qed.
