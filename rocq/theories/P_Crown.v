(** Soundness of the backward pass on graphs. *)
From Coq Require Import Reals List Arith Bool ZArith Lra Lia Psatz.
From Verif Require Import RLib Spec Spec_Layers Spec_Backward M_Core M_Utils M_MergeLayers M_Ops M_Layers M_Pool M_Backward M_Crown
  P_Core P_Merge P_Utils P_MergeLayers P_Layers P_Backward P_BackwardOps P_BackwardMore.
Import ListNotations.
Local Open Scope R_scope.

(** the backward layer of L relaxes f on the values its inputs may take; P: condition on its input tensors *)
Definition bwd_sound (sp : spec) (P : list tensor -> Prop) (L : layer) (f : vec -> vec) : Prop :=
  forall S g ts, op_sp sp S (ly_in L) g ts -> P ts ->
    exists B, ly_bwd L ts = Ok B /\ relaxes (image S g) (ly_in L) (ly_out L) f B.

(** parents come first, numbers of neurons agree *)
Definition well_formed (n : nat) (g : graph) : Prop :=
  forall i L ps, nth_error g i = Some (L, ps) ->
    (ps = [] -> ly_in L = n) /\
    (forall p, In p ps -> (p < i)%nat) /\
    (forall p L' ps', ps = [p] -> nth_error g p = Some (L', ps') -> ly_out L' = ly_in L).
(** no merge: every node has at most one parent *)
Definition no_merge (g : graph) : Prop := forall i L ps, nth_error g i = Some (L, ps) -> (length ps <= 1)%nat.
(** a nested model has no child *)
Definition models_last (g : graph) : Prop :=
  forall i L ps p L' ps', nth_error g i = Some (L, ps) -> In p ps -> nth_error g p = Some (L', ps') -> ly_model L' = false.

Section Crown.
Variable sp : spec.
Variable S : vec -> Prop.
Variable g0 : vec -> vec.
Variable its : list tensor.
Variable fmap : nat -> option (list tensor).
Variable g : graph.
Variable v : nat -> vec -> vec.
Variable fs : nat -> vec -> vec.
Variable P : nat -> list tensor -> Prop.

Local Notation n := (sp_n sp).
Local Notation mode := (sp_mode sp).
Local Notation D := (sp_dom sp).

Hypothesis Hn : (0 < n)%nat.
Hypothesis HD : norm_ok D.
Hypothesis Hdc : sp_dc sp = false.
Hypothesis Hibp : mode = IBP -> D = Box /\ forall z i, S z -> (i < n)%nat -> g0 z i = z i.
Hypothesis Hits : op_sp sp S n g0 its.
Hypothesis Hwf : well_formed n g.
Hypothesis Hnm : no_merge g.
Hypothesis Hml : models_last g.

Definition prev (ps : list nat) (y : vec) : vec := match ps with [p] => v p y | _ => y end.
Hypothesis Hv : forall y i L ps, nth_error g i = Some (L, ps) -> v i y = fs i (prev ps y).
Definition gin (ps : list nat) : vec -> vec := fun z => prev ps (g0 z).

Hypothesis Hlay : forall i L ps, nth_error g i = Some (L, ps) -> bwd_sound sp (P i) L (fs i).

Definition imap_ok (imap : list (list tensor)) : Prop :=
  forall i L ps ts, nth_error g i = Some (L, ps) -> nth_error imap i = Some ts ->
    op_sp sp S (ly_in L) (gin ps) ts /\ P i ts.

(** what crown returns: bounds on F(input value) as functions of the fused input or of the raw one *)
Definition final (fz : bool) (k : nat) (F : vec -> vec) (R : bb) : Prop :=
  if fz then relaxes S n k (fun z => F (g0 z)) R else relaxes (image S g0) n k F R.

Lemma relaxes_ext : forall (Y : vec -> Prop) m k (F G : vec -> vec) B, (forall y j, Y y -> (j < k)%nat -> F y j = G y j) ->
  relaxes Y m k F B -> relaxes Y m k G B.
Proof. intros Y m k F G B E H z j Hz Hj. rewrite <- E by auto. apply H; auto. Qed.

Lemma fuse_final : forall (fz : bool) k ts B (F : vec -> vec), op_sp sp S n g0 ts -> relaxes (image S g0) n k F B ->
  exists R, (if fz then fuse mode n ts B else Ok B) = Ok R /\ final fz k F R.
Proof.
  intros fz k ts B F Hts HB. destruct fz; [|exists B; split; auto].
  unfold final. destruct mode eqn:Em.
  - rewrite fuse_ibp. exists B. split; auto. destruct (Hibp eq_refl) as [_ Hg]. intros z j Hz Hj.
    specialize (HB (g0 z) j (ex_intro _ z (conj Hz eq_refl)) Hj). 
    assert (G : forall w b, aff n w b (g0 z) j = aff n w b z j) by (intros; unfold aff; f_equal; apply dot_ext; auto).
    rewrite !G in HB. exact HB.
  - unfold op_sp in Hts. rewrite Hdc, Em in Hts.
    destruct (fuse_sound D AFFINE S (image S g0) n n k g0 F ts B ltac:(discriminate) Hts HB) as (R & E & HR); [intros z Hz; exists z; auto|].
    eauto.
  - unfold op_sp in Hts. rewrite Hdc, Em in Hts.
    destruct (fuse_sound D HYBRID S (image S g0) n n k g0 F ts B ltac:(discriminate) Hts HB) as (R & E & HR); [intros z Hz; exists z; auto|].
    eauto.
Qed.

Lemma parents_cases : forall i L ps, nth_error g i = Some (L, ps) -> ps = [] \/ exists p, ps = [p] /\ (p < i)%nat.
Proof.
  intros i L ps H. pose proof (Hnm i L ps H) as Hl. destruct (Hwf i L ps H) as (_ & Hp & _).
  destruct ps as [|p [|]]; [left; auto|right; exists p; split; auto; apply Hp; left; auto|cbn in Hl; lia].
Qed.

Lemma node_relaxes : forall imap i L ps ts, imap_ok imap -> nth_error g i = Some (L, ps) -> nth_error imap i = Some ts ->
  exists B, ly_bwd L ts = Ok B /\ relaxes (image S (gin ps)) (ly_in L) (ly_out L) (fs i) B.
Proof. intros imap i L ps ts HI Hg Ht. destruct (HI i L ps ts Hg Ht) as [V Q]. apply (Hlay i L ps Hg S (gin ps) ts V Q). Qed.

Lemma crown_some : forall imap (fz : bool), imap_ok imap -> forall fuel i L ps C k F,
  (i < fuel)%nat -> nth_error g i = Some (L, ps) -> (i < length imap)%nat -> ly_model L = false ->
  relaxes (image S (fun z => v i (g0 z))) (ly_out L) k F C ->
  exists R, crown mode g imap fz fuel i (Some C) = Ok R /\ final fz k (fun y => F (v i y)) R.
Proof.
  intros imap fz HI. induction fuel as [|fuel IH]; intros i L ps C k F Hi Hg Hl Hm HC; [lia|].
  cbn [crown]. rewrite Hg.
  destruct (nth_error imap i) as [ts|] eqn:Ht; [|apply nth_error_None in Ht; lia].
  destruct (node_relaxes imap i L ps ts HI Hg Ht) as (B & EB & HB). rewrite EB. cbn [bind]. rewrite Hm.
  assert (HB' : relaxes (image S (gin ps)) (ly_in L) k (fun y => F (fs i y)) (merge_bb (ly_out L) B C)).
  { apply (merge_bb_sound _ (image S (fun z => v i (g0 z))) _ _ _ (fs i) F B C HB HC).
    intros y (z & Hz & ->). exists z. split; auto. rewrite (Hv (g0 z) i L ps Hg). reflexivity. }
  destruct (Hwf i L ps Hg) as (W1 & W2 & W3).
  destruct (parents_cases i L ps Hg) as [->|(p & -> & Hp)].
  - rewrite (W1 eq_refl) in *. destruct (HI i L [] ts Hg Ht) as [V _]. rewrite (W1 eq_refl) in V.
    destruct (fuse_final fz k ts (merge_bb (ly_out L) B C) (fun y => F (fs i y))) as (R & ER & HR); [exact V|exact HB'|].
    exists R. split; [destruct fz; exact ER|]. unfold final in *. 
    destruct fz; (eapply relaxes_ext; [|exact HR]); intros; cbn; rewrite (Hv _ i L [] Hg); reflexivity.
  - destruct (nth_error g p) as [[L' ps']|] eqn:Hgp; [|apply nth_error_None in Hgp].
    2:{ assert (i < length g)%nat by (apply nth_error_Some; congruence). lia. }
    pose proof (W3 p L' ps' eq_refl Hgp) as Hd. pose proof (Hml i L [p] p L' ps' Hg (or_introl eq_refl) Hgp) as Hm'.
    destruct (IH p L' ps' (merge_bb (ly_out L) B C) k (fun y => F (fs i y)) ltac:(lia) Hgp ltac:(lia) Hm') as (R & ER & HR).
    + rewrite Hd. exact HB'.
    + exists R. split; auto. unfold final in *. destruct fz; (eapply relaxes_ext; [|exact HR]); intros; cbn; rewrite (Hv _ i L [p] Hg); reflexivity.
Qed.

Lemma crown_none : forall imap (fz : bool), imap_ok imap -> forall fuel i L ps,
  (i < fuel)%nat -> nth_error g i = Some (L, ps) -> (i < length imap)%nat ->
  exists R, crown mode g imap fz fuel i None = Ok R /\ final fz (ly_out L) (v i) R.
Proof.
  intros imap fz HI fuel i L ps Hi Hg Hl. destruct fuel as [|fuel]; [lia|].
  cbn [crown]. rewrite Hg.
  destruct (nth_error imap i) as [ts|] eqn:Ht; [|apply nth_error_None in Ht; lia].
  destruct (node_relaxes imap i L ps ts HI Hg Ht) as (B & EB & HB). rewrite EB. cbn [bind].
  assert (Eb : (if ly_model L then B else B) = B) by (destruct (ly_model L); auto). rewrite Eb.
  destruct (Hwf i L ps Hg) as (W1 & W2 & W3).
  destruct (parents_cases i L ps Hg) as [->|(p & -> & Hp)].
  - destruct (HI i L [] ts Hg Ht) as [V _]. rewrite (W1 eq_refl) in *.
    destruct (fuse_final fz (ly_out L) ts B (fs i) V HB) as (R & ER & HR).
    exists R. split; [destruct fz; exact ER|]. unfold final in *.
    destruct fz; (eapply relaxes_ext; [|exact HR]); intros; cbn; rewrite (Hv _ i L [] Hg); reflexivity.
  - destruct (nth_error g p) as [[L' ps']|] eqn:Hgp; [|apply nth_error_None in Hgp].
    2:{ assert (i < length g)%nat by (apply nth_error_Some; congruence). lia. }
    pose proof (W3 p L' ps' eq_refl Hgp) as Hd. pose proof (Hml i L [p] p L' ps' Hg (or_introl eq_refl) Hgp) as Hm'.
    destruct (crown_some imap fz HI fuel p L' ps' B (ly_out L) (fs i) ltac:(lia) Hgp ltac:(lia) Hm') as (R & ER & HR).
    + rewrite Hd. exact HB.
    + exists R. split; auto. unfold final in *. destruct fz; (eapply relaxes_ext; [|exact HR]); intros; cbn; rewrite (Hv _ i L [p] Hg); reflexivity.
Qed.

Lemma convert_final : forall k F B, final true k F B ->
  exists out, convert2backward mode D n its B = Ok out /\ op_sp sp S k (fun z => F (g0 z)) out.
Proof.
  intros k F B HB. unfold op_sp in *. rewrite Hdc in *. apply (convert_sound D mode S n k g0 _ its B Hn HD Hibp Hits HB).
Qed.

(** forward bounds handed in, and conditions on the inputs of each node *)
Hypothesis Hfmap : forall i L ps ts, nth_error g i = Some (L, ps) -> fmap i = Some ts -> op_sp sp S (ly_out L) (fun z => v i (g0 z)) ts.
Hypothesis HP : forall i L ps imap ts, nth_error g i = Some (L, ps) ->
  get_input_nodes mode D n its fmap g (firstn i g) [] = Ok imap -> node_inputs mode D n its fmap g imap ps = Ok ts -> P i ts.

Lemma node_inputs_ok : forall imap i L ps, imap_ok imap -> length imap = i -> nth_error g i = Some (L, ps) ->
  exists ts, node_inputs mode D n its fmap g imap ps = Ok ts /\ op_sp sp S (ly_in L) (gin ps) ts.
Proof.
  intros imap i L ps HI Hl Hg. destruct (Hwf i L ps Hg) as (W1 & W2 & W3).
  destruct (parents_cases i L ps Hg) as [->|(p & -> & Hp)].
  - exists its. split; [reflexivity|]. rewrite (W1 eq_refl). exact Hits.
  - destruct (nth_error g p) as [[L' ps']|] eqn:Hgp; [|apply nth_error_None in Hgp].
    2:{ assert (i < length g)%nat by (apply nth_error_Some; congruence). lia. }
    rewrite <- (W3 p L' ps' eq_refl Hgp). unfold node_inputs. cbn [mapR].
    destruct (fmap p) as [ts|] eqn:Ef.
    + exists ts. cbn. rewrite app_nil_r. split; auto. apply (Hfmap p L' ps' ts Hgp Ef).
    + destruct (crown_none imap true HI (Datatypes.S p) p L' ps' ltac:(lia) Hgp ltac:(lia)) as (B & EB & HB). rewrite EB. cbn [bind].
      destruct (convert_final _ _ _ HB) as (o & Eo & Vo). rewrite Eo. cbn [bind concat]. exists o. rewrite app_nil_r. auto.
Qed.

Lemma input_nodes_app : forall a b imap, get_input_nodes mode D n its fmap g (a ++ b) imap =
  (m <- get_input_nodes mode D n its fmap g a imap ; get_input_nodes mode D n its fmap g b m).
Proof.
  induction a as [|[L ps] a IH]; intros b imap; cbn [app get_input_nodes]; [reflexivity|].
  destruct (node_inputs mode D n its fmap g imap ps); cbn [bind]; auto.
Qed.

Lemma input_nodes_ok : forall i, (i <= length g)%nat ->
  exists imap, get_input_nodes mode D n its fmap g (firstn i g) [] = Ok imap /\ length imap = i /\ imap_ok imap.
Proof.
  induction i as [|i IH]; intros Hi.
  - exists []. split; [reflexivity|]. split; auto. intros j L ps ts _ H. destruct j; discriminate H.
  - destruct (IH ltac:(lia)) as (imap & E & Hl & HI).
    destruct (nth_error g i) as [[L ps]|] eqn:Hg; [|apply nth_error_None in Hg; lia].
    assert (Ef : firstn (Datatypes.S i) g = firstn i g ++ [(L, ps)]).
    { clear - Hg. revert g Hg. induction i; intros [|a q] Hg; try discriminate Hg; cbn in *; [congruence|]. f_equal. apply IHi; auto. }
    rewrite Ef, input_nodes_app, E. cbn [bind get_input_nodes].
    destruct (node_inputs_ok imap i L ps HI Hl Hg) as (ts & Ets & Vts). rewrite Ets. cbn [bind].
    exists (imap ++ [ts]). split; [reflexivity|]. split; [rewrite app_length; cbn; lia|].
    intros j L' ps' ts' Hj Ht. destruct (Nat.lt_ge_cases j i) as [Hlt|Hge].
    + rewrite nth_error_app1 in Ht by lia. apply (HI j L' ps' ts' Hj Ht).
    + rewrite nth_error_app2 in Ht by lia. destruct (j - length imap)%nat as [|q] eqn:Ed; [|destruct q; discriminate Ht].
      assert (j = i) by lia. subst j. rewrite Hg in Hj. injection Hj; intros <- <-. injection Ht; intros <-.
      split; auto. apply (HP i L ps imap ts Hg E Ets).
Qed.

Lemma crown_outs : forall imap outs, imap_ok imap -> length imap = length g -> (forall o, In o outs -> (o < length g)%nat) ->
  exists res, mapR (fun o => B <- crown mode g imap true (Datatypes.S o) o None ; convert2backward mode D n its B) outs = Ok res /\
    Forall2 (fun o ts => exists L ps, nth_error g o = Some (L, ps) /\ op_sp sp S (ly_out L) (fun z => v o (g0 z)) ts) outs res.
Proof.
  intros imap outs HI Hl. induction outs as [|o outs IH]; intros Ho; cbn [mapR].
  - exists []. split; auto.
  - pose proof (Ho o (or_introl eq_refl)) as Hlt.
    destruct (nth_error g o) as [[L ps]|] eqn:Hg; [|apply nth_error_None in Hg; lia].
    destruct (crown_none imap true HI (Datatypes.S o) o L ps ltac:(lia) Hg ltac:(lia)) as (B & EB & HB). rewrite EB. cbn [bind].
    destruct (convert_final _ _ _ HB) as (t & Et & Vt). rewrite Et. cbn [bind].
    destruct IH as (res & ER & FR); [intros; apply Ho; right; auto|]. rewrite ER. cbn [bind].
    exists (t :: res). split; auto. constructor; auto. exists L, ps. auto.
Qed.

Lemma crown_model_sound : forall outs, (forall o, In o outs -> (o < length g)%nat) ->
  exists res, crown_model mode D n g outs None fmap its = Ok res /\
    Forall2 (fun o ts => exists L ps, nth_error g o = Some (L, ps) /\ op_sp sp S (ly_out L) (fun z => v o (g0 z)) ts) outs res.
Proof.
  intros outs Ho. unfold crown_model. cbn [andb].
  destruct (input_nodes_ok (length g) ltac:(lia)) as (imap & E & Hl & HI). rewrite firstn_all in E. rewrite E. cbn [bind].
  apply crown_outs; auto.
Qed.

(** with bounds on what follows the output *)
Lemma crown_model_back_sound : forall o L ps C k F, nth_error g o = Some (L, ps) -> ly_model L = false ->
  relaxes (image S (fun z => v o (g0 z))) (ly_out L) k F C ->
  exists t, crown_model mode D n g [o] (Some C) fmap its = Ok [t] /\ op_sp sp S k (fun z => F (v o (g0 z))) t.
Proof.
  intros o L ps C k F Hg Hm HC. unfold crown_model. cbn [andb length Nat.ltb Nat.leb].
  destruct (input_nodes_ok (length g) ltac:(lia)) as (imap & E & Hl & HI). rewrite firstn_all in E. rewrite E. cbn [bind mapR].
  assert (Hlt : (o < length g)%nat) by (apply nth_error_Some; congruence).
  destruct (crown_some imap true HI (Datatypes.S o) o L ps C k F ltac:(lia) Hg ltac:(lia) Hm HC) as (B & EB & HB). rewrite EB. cbn [bind].
  destruct (convert_final _ _ _ HB) as (t & Et & Vt). rewrite Et. cbn [bind]. exists t. auto.
Qed.

Lemma crown_nofuse_sound : forall o L ps, (forall p, fmap p = None) -> nth_error g o = Some (L, ps) ->
  exists B, crown_model_nofuse mode D n g o its = Ok B /\ relaxes (image S g0) n (ly_out L) (v o) B.
Proof.
  intros o L ps Hf Hg. unfold crown_model_nofuse.
  assert (Q : forall todo imap, get_input_nodes mode D n its (fun _ => None) g todo imap = get_input_nodes mode D n its fmap g todo imap).
  { induction todo as [|[L' ps'] todo IH]; intros imap; cbn [get_input_nodes]; [reflexivity|].
    assert (Q : node_inputs mode D n its (fun _ => None) g imap ps' = node_inputs mode D n its fmap g imap ps').
    { unfold node_inputs. destruct ps' as [|p q]; auto. f_equal.
      generalize (p :: q). induction l as [|a l IHl]; cbn [mapR]; auto. rewrite Hf, IHl. reflexivity. }
    rewrite Q. destruct (node_inputs mode D n its fmap g imap ps'); cbn [bind]; auto. }
  rewrite Q. destruct (input_nodes_ok (length g) ltac:(lia)) as (imap & E & Hl & HI). rewrite firstn_all in E. rewrite E. cbn [bind].
  assert (Hlt : (o < length g)%nat) by (apply nth_error_Some; congruence).
  apply (crown_none imap false HI (Datatypes.S o) o L ps ltac:(lia) Hg ltac:(lia)).
Qed.
End Crown.

(** ** nested models *)
Lemma disconnected_ok : forall sp S m g ts, (0 < sp_n sp)%nat -> dom_ok (sp_dom sp) (sp_mode sp) -> op_sp sp S m g ts ->
  exists its, get_disconnected_input sp ts = Ok its /\
    op_sp (mk_spec false (sp_mode sp) Box m) (image S g) m (fun y => y) its.
Proof.
  intros sp S m g ts Hn Hd H. destruct (full_boxes sp S m g ts Hn Hd H) as (r & E & C).
  unfold get_disconnected_input. rewrite E. cbn [bind]. eexists. split; [reflexivity|].
  unfold op_sp. cbn [sp_dom sp_mode sp_dc sp_n]. apply vfull_valid. split.
  - intros _ y j (z & Hz & ->) Hj. cbn. apply C; auto.
  - intros Ha. rewrite Ha. cbn [f_x f_wu f_bu f_wl f_bl]. split.
    + intros y (z & Hz & ->). intros i Hi. cbn. apply C; auto.
    + intros y j _ Hj. unfold vt. rewrite !identity_aff by auto. lra.
Qed.

(** condition on the inputs met by the layers of the sub-graph *)
Definition sub_cond (sp : spec) (m : nat) (sub : graph) (P : nat -> list tensor -> Prop) (ts : list tensor) : Prop :=
  forall its i L ps imap t, get_disconnected_input sp ts = Ok its -> nth_error sub i = Some (L, ps) ->
    get_input_nodes (sp_mode sp) Box m its (fun _ => None) sub (firstn i sub) [] = Ok imap ->
    node_inputs (sp_mode sp) Box m its (fun _ => None) sub imap ps = Ok t -> P i t.

Lemma nested_sound : forall sp m k sub out v fs P L0 ps0, (0 < sp_n sp)%nat -> dom_ok (sp_dom sp) (sp_mode sp) -> (0 < m)%nat ->
  well_formed m sub -> no_merge sub -> models_last sub ->
  (forall y i L ps, nth_error sub i = Some (L, ps) -> v i y = fs i (prev v ps y)) ->
  (forall i L ps, nth_error sub i = Some (L, ps) -> bwd_sound (mk_spec false (sp_mode sp) Box m) (P i) L (fs i)) ->
  nth_error sub out = Some (L0, ps0) -> ly_out L0 = k ->
  bwd_sound sp (sub_cond sp m sub P) (nested sp m k sub out) (v out).
Proof.
  intros sp m k sub out v fs P L0 ps0 Hn Hd Hm Hwf Hnm Hml Hv Hlay Ho Hk S g ts Hts HP. cbn [nested ly_in ly_out ly_bwd] in *.
  destruct (disconnected_ok sp S m g ts Hn Hd Hts) as (its & Ei & Vi). rewrite Ei. cbn [bind].
  destruct (crown_nofuse_sound (mk_spec false (sp_mode sp) Box m) (image S g) (fun y => y) its (fun _ => None) sub v fs P Hm I eq_refl
    (fun _ => conj eq_refl (fun z i _ _ => eq_refl)) Vi Hwf Hnm Hml Hv Hlay) with (o := out) (L := L0) (ps := ps0) as (B & EB & HB); auto.
  - intros; discriminate.
  - intros i L ps imap t Hg E1 E2. apply (HP its i L ps imap t Ei Hg E1 E2).
  - exists B. split; [exact EB|]. rewrite <- Hk. intros y j Hy Hj. apply (HB y j); auto. exists y. auto.
Qed.

(** ** merges *)
Inductive reaches (g : graph) : nat -> nat -> Prop :=
| reach_refl : forall i, reaches g i i
| reach_step : forall i L ps p j, nth_error g i = Some (L, ps) -> In p ps -> reaches g p j -> reaches g i j.

(** a successful backward pass meets no merge on the way to the input *)
Lemma crown_ok_chain : forall mode g imap fz fuel i back B, crown mode g imap fz fuel i back = Ok B ->
  forall j L ps, reaches g i j -> nth_error g j = Some (L, ps) -> (length ps <= 1)%nat.
Proof.
  intros mode g imap fz. induction fuel as [|fuel IH]; intros i back B E j L ps Hr Hj; [discriminate E|].
  cbn [crown] in E. destruct (nth_error g i) as [[L0 ps0]|] eqn:Hi; [|discriminate E].
  destruct (nth_error imap i); [|discriminate E]. destruct (ly_bwd L0 l); [|discriminate E]. cbn [bind] in E.
  assert (Hl : (length ps0 <= 1)%nat) by (destruct ps0 as [|p [|]]; cbn; try lia; discriminate E).
  inversion Hr as [|i' L1 ps1 p j' Hi' Hp Hr']; subst.
  - rewrite Hi in Hj. injection Hj; intros <- _. auto.
  - rewrite Hi in Hi'. injection Hi'; intros <- _. destruct ps0 as [|p0 [|]]; [destruct Hp| |cbn in Hl; lia].
    destruct Hp as [<-|[]]. eapply IH; eauto.
Qed.

Lemma crown_merge_raises : forall mode D n g outs back fmap its res o j L ps,
  crown_model mode D n g outs back fmap its = Ok res -> In o outs -> reaches g o j -> nth_error g j = Some (L, ps) -> (length ps <= 1)%nat.
Proof.
  intros mode D n g outs back fmap its res o j L ps E Ho Hr Hj. unfold crown_model in E.
  destruct (_ && _)%bool; [discriminate E|]. destruct (get_input_nodes mode D n its fmap g g []) as [imap|]; [|discriminate E]. cbn [bind] in E.
  revert res E. induction outs as [|a outs IH]; intros res E; [destruct Ho|]. cbn [mapR] in E.
  destruct (crown mode g imap true (Datatypes.S a) a back) as [B|] eqn:EB; [|discriminate E]. cbn [bind] in E.
  destruct Ho as [->|Ho]; [eapply crown_ok_chain; eauto|].
  destruct (convert2backward mode D n its B); [|discriminate E]. cbn [bind] in E.
  destruct (mapR _ outs) as [r|] eqn:Em; [|discriminate E]. apply (IH Ho r eq_refl).
Qed.

(** ** backward layers as nodes *)
Definition n_layer (m k : nat) (B : result bb) : layer := mk_layer m k (fun _ => B) false.
Definition dense_layer (rows d units : nat) (kernel : mat) (bias : option vec) : layer :=
  n_layer (rows * d) (rows * units) (Ok (backward_dense d units kernel bias)).
Definition input_layer (n : nat) : layer := n_layer n n (Ok backward_identity).
Definition act_layer (ke : R) (sp : spec) (a : act) (sl : slope) (ft : option (vec * vec)) (m : nat) : layer :=
  mk_layer m m (backward_activation ke sp a sl ft m) false.

Lemma exact_layer : forall sp m k f B, is_map m k f B -> bwd_sound sp (fun _ => True) (n_layer m k (Ok B)) f.
Proof. intros sp m k f B H S g ts _ _. exists B. split; [reflexivity|]. apply map_relaxes; auto. Qed.

Lemma dense_layer_sound : forall sp rows d units kernel bias, (0 < units)%nat ->
  bwd_sound sp (fun _ => True) (dense_layer rows d units kernel bias) (keras_dense d units kernel (bias_of bias)).
Proof. intros. apply exact_layer. apply dense_map; auto. Qed.
Lemma input_layer_sound : forall sp n, bwd_sound sp (fun _ => True) (input_layer n) (fun y => y).
Proof. intros. apply exact_layer. apply identity_map. Qed.
Lemma relu_layer_sound : forall ke sp sl ft m, 0 < ke -> (0 < sp_n sp)%nat -> dom_ok (sp_dom sp) (sp_mode sp) -> sp_dc sp = false ->
  ft_ok m (option_map snd ft) ->
  bwd_sound sp (boxes (gap_free ke) sp m) (act_layer ke sp ActRelu sl ft m) (fun y j => Rrelu (y j)).
Proof. intros ke sp sl ft m Hke Hn Hd Hdc Hft S g ts H HP. cbn in *. apply brelu_sound; auto. Qed.

(** ** a nested model followed by a layer: what follows is lost *)
Definition two : mat := fun _ _ => 2.
Definition lost_graph (sp : spec) : graph :=
  [(input_layer 1, []); (nested sp 1 1 [(input_layer 1, [])] 0, [0%nat]); (dense_layer 1 1 1 two None, [1%nat])].

Lemma crown_drops : forall mode g imap fz fuel i L ps C C', nth_error g i = Some (L, ps) -> ly_model L = true ->
  crown mode g imap fz fuel i (Some C) = crown mode g imap fz fuel i (Some C').
Proof. intros mode g imap fz fuel i L ps C C' Hg Hm. destruct fuel; [reflexivity|]. cbn [crown]. rewrite Hg. destruct (nth_error imap i); [|reflexivity]. destruct (ly_bwd L l); [|reflexivity]. cbn [bind]. rewrite Hm. reflexivity. Qed.

Definition id_ibp : list tensor := [fun _ _ => 1; fun _ _ => 1].

Lemma crown_nested_wrong :
  exists u l, crown_model IBP Box 1 (lost_graph (mk_spec false IBP Box 1)) [2%nat] None (fun _ => None) id_ibp = Ok [[u; l]] /\
    u 0%nat 0%nat = 1 /\ l 0%nat 0%nat = 1.
Proof.
  do 2 eexists. split; [reflexivity|]. split; cbv -[Rmax Rmin Rplus Rmult Rminus Ropp IZR Rlt Rle Rdiv Rinv]; rminmax; lra.
Qed.
