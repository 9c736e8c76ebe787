(** C72: set_domain on the models made by clone *)
From Coq Require Import String Reals List Arith Bool ZArith Lra Lia.
From Verif Require Import RLib Spec Spec_Domain Spec_Layers Spec_Backward Spec_Convert Spec_Network Spec_Wrapper M_Core M_State M_MergeLayers M_Backward M_Crown M_Convert M_Network M_Domain M_Wrapper M_Clone.
From Verif Require Import P_Core P_BackwardMore P_Graph P_Crown P_Convert P_Network P_NetworkSpec P_NetworkCrown P_NetworkThm P_StateDomain P_NetworkForward P_Domain P_Wrapper P_WrapperNoise P_Clone P_CloneThm.
From Verif Require Import Spec_Network.
Import ListNotations.
Local Open Scope R_scope.

(** ** histories *)
Definition set_to (m : wmodel) (D : domain) : wmodel := mk_wmodel D (wm_ibp m) (wm_affine m) (wm_bb m) (wm_n m) (wm_out m) (wm_predict m).
Lemma of_type_iff : forall D D', of_type D D' <-> same_type D D' = true.
Proof. intros [|] [|]; cbn; split; auto; discriminate. Qed.

Lemma changes_ok : forall Ds m, (forall D, In D Ds -> of_type D (wm_domain m)) -> wset_domains Ds m = Ok (set_to m (last_domain Ds (wm_domain m))).
Proof.
  unfold wset_domains, last_domain. induction Ds as [|A q IH]; intros m H; [destruct m; reflexivity|].
  cbn [foldR]. unfold wset_domain. pose proof (proj1 (of_type_iff A (wm_domain m)) (H A (or_introl eq_refl))) as T. rewrite T. cbn [bind].
  rewrite IH; cbn [wm_domain].
  - unfold set_to. cbn [wm_ibp wm_affine wm_bb wm_n wm_out wm_predict]. do 2 f_equal. destruct q as [|B q]; [reflexivity|]. assert (Q : forall d d', last (B :: q) d = last (B :: q) d') by (clear; revert B; induction q as [|C q IH]; intros B d d'; [reflexivity|apply (IH C)]). change (last (A :: B :: q) (wm_domain m)) with (last (B :: q) (wm_domain m)). apply Q.
  - intros D I. apply of_type_iff. pose proof (proj1 (of_type_iff D _) (H D (or_intror I))) as TD. destruct A, D, (wm_domain m); try discriminate; reflexivity.
Qed.
Lemma changes_inv : forall Ds m m', wset_domains Ds m = Ok m' -> forall D, In D Ds -> of_type D (wm_domain m).
Proof.
  unfold wset_domains. induction Ds as [|A q IH]; intros m m' H D I; [destruct I|]. cbn [foldR] in H. unfold wset_domain at 1 in H.
  destruct (same_type A (wm_domain m)) eqn:T; [|discriminate H]. cbn [bind] in H. destruct I as [<-|I]; [apply of_type_iff; exact T|].
  specialize (IH _ m' H D I). cbn [wm_domain] in IH. apply of_type_iff in IH. apply of_type_iff. exact (same_type_trans _ _ _ IH T).
Qed.
Lemma changes_spec : forall Ds m m', wset_domains Ds m = Ok m' <-> (forall D, In D Ds -> of_type D (wm_domain m)) /\ m' = set_to m (last_domain Ds (wm_domain m)).
Proof.
  intros Ds m m'. split.
  - intros H. pose proof (changes_inv Ds m m' H) as T. split; [exact T|]. rewrite (changes_ok Ds m T) in H. congruence.
  - intros [T ->]. exact (changes_ok Ds m T).
Qed.
Lemma changes_type : forall Ds m m', wset_domains Ds m = Ok m' -> same_type (wm_domain m') (wm_domain m) = true.
Proof.
  intros Ds m m' H. apply changes_spec in H. destruct H as [T ->]. cbn [set_to wm_domain]. unfold last_domain.
  assert (Q : last Ds (wm_domain m) = wm_domain m \/ In (last Ds (wm_domain m)) Ds).
  { clear. induction Ds as [|A q IH]; [left; reflexivity|]. destruct q as [|B q]; [right; left; reflexivity|]. destruct IH as [E|I]; [|right; right; exact I].
    right. right. clear E. revert B. induction q as [|C q IH]; intros B; [left; reflexivity|right; apply IH]. }
  destruct Q as [->|I]; [destruct (wm_domain m); reflexivity|apply of_type_iff, T; exact I].
Qed.

Section Changed.
Variables (ke : R) (a : clone_args) (n : nat) (out : list nat) (net : network) (o : nat).
Variables (Ds : list domain) (c m : wmodel) (meth : method) (mode : fmode) (fi fa : bool).
Hypothesis Hfl : clone_flags (ca_method a) (ca_ibp a) (ca_affine a) = Ok (meth, mode, (fi, fa)).
Hypothesis Hc : clone ke a n out net o = Ok c.
Hypothesis Hm : wset_domains Ds c = Ok m.

Lemma changed_predict : forall z bb, wm_predict m (wm_domain m) z bb = converted_domains ke (wm_domain m) (args_domain a) meth mode (get_mode fi fa) (ca_fwd a) (ca_bwd a) n net o z.
Proof.
  intros z bb. rewrite (clone_value ke a n out net o meth mode fi fa Hfl) in Hc. injection Hc as <-. apply changes_spec in Hm. destruct Hm as [_ ->]. reflexivity.
Qed.
Lemma changed_type : same_type (wm_domain m) (args_domain a) = true.
Proof.
  pose proof (changes_type Ds c m Hm) as T. rewrite (clone_value ke a n out net o meth mode fi fa Hfl) in Hc. injection Hc as <-. exact T.
Qed.
Lemma changed_fields : wm_ibp m = fi /\ wm_affine m = fa /\ wm_bb m = false /\ wm_n m = n /\ wm_out m = out.
Proof.
  rewrite (clone_value ke a n out net o meth mode fi fa Hfl) in Hc. injection Hc as <-. apply changes_spec in Hm. destruct Hm as [_ ->]. auto.
Qed.
End Changed.

(** ** affine mode: as a new clone *)
Definition on_domain (a : clone_args) (D : domain) : clone_args := mk_args (Some D) (ca_method a) (ca_ibp a) (ca_affine a) (ca_fwd a) (ca_bwd a).
(** no pooling in the fast approximation *)
Definition slow_pools (fwd : nat -> lopts) (net : network) : Prop := forall i g ps, nth_error net i = Some (Some (NMaxPool g), ps) -> lo_fast (fwd i) = false.

Theorem changed_affine : forall ke a n out net o Ds c m meth,
  clone_flags (ca_method a) (ca_ibp a) (ca_affine a) = Ok (meth, AFFINE, (false, true)) -> slow_pools (ca_fwd a) net ->
  clone ke a n out net o = Ok c -> wset_domains Ds c = Ok m ->
  exists c', clone ke (on_domain a (wm_domain m)) n out net o = Ok c' /\ wm_domain c' = wm_domain m /\
    forall z, wm_predict m (wm_domain m) z None = wm_predict c' (wm_domain c') z None.
Proof.
  intros ke a n out net o Ds c m meth Hfl Hs Hc Hm. pose proof (clone_value ke (on_domain a (wm_domain m)) n out net o meth AFFINE false true Hfl) as E.
  eexists. split; [exact E|]. split; [reflexivity|]. intros z. rewrite (changed_predict ke a n out net o Ds c m meth AFFINE false true Hfl Hc Hm z None).
  cbn [wm_predict wm_domain args_domain on_domain ca_domain ca_fwd ca_bwd]. rewrite domains_same. apply domains_affine.
  - right. intros i L ps Ei. destruct L; try exact I. right. exact (Hs i g ps Ei).
  - exact (changed_type ke a n out net o Ds c m meth AFFINE false true Hfl Hc Hm).
Qed.

(** ** interval mode: as before *)
Theorem changed_ibp : forall ke a n out net o Ds c m meth fi fa,
  clone_flags (ca_method a) (ca_ibp a) (ca_affine a) = Ok (meth, IBP, (fi, fa)) -> (get_direction meth = BACKWARD -> args_domain a = Box) ->
  clone ke a n out net o = Ok c -> wset_domains Ds c = Ok m ->
  forall z, wm_predict m (wm_domain m) z None = wm_predict c (wm_domain c) z None.
Proof.
  intros ke a n out net o Ds c m meth fi fa Hfl HB Hc Hm z. rewrite (changed_predict ke a n out net o Ds c m meth IBP fi fa Hfl Hc Hm z None).
  rewrite domains_ibp; [|exact HB|exact (changed_type ke a n out net o Ds c m meth IBP fi fa Hfl Hc Hm)].
  rewrite (clone_value ke a n out net o meth IBP fi fa Hfl) in Hc. injection Hc as <-. cbn [wm_predict wm_domain]. rewrite domains_same. reflexivity.
Qed.

(** ** every mode, for a domain inside the one of the conversion *)
Definition changed_gaps (ke : R) (Da Ds : domain) (m : method) (mode : fmode) (fwd : nat -> lopts) (bwd : nat -> bopts) (n : nat) (net : network) (z : tensor) : Prop :=
  match m with
  | FORWARD_IBP | FORWARD_AFFINE | FORWARD_HYBRID => forward_gaps2 ke Da Ds mode fwd n net z
  | CROWN => backward_gaps2 ke Da Ds mode (fun _ om => om = no_map) bwd n net z
  | _ => forward_gaps2 ke Da Ds mode fwd n net z /\
         backward_gaps2 ke Da Ds mode (fun its om => convert_nodes (net_domains ke (mk_spec false mode Da n) (mk_spec false mode Ds n) fwd net) no_map its = Ok om) bwd n net z
  end.

Lemma changed_sound_gen : forall ke Da Ds m mode final fwd bwd n net o v z,
  0 < ke -> (0 < n)%nat -> norm_ok Ds -> norm_ok Da -> inside Da Ds n -> same_type Da Ds = true -> net_ok n net -> net_value net v -> single_output net o ->
  (mode = IBP \/ exists y, in_dom Da n z y) ->
  clone_fits Ds m mode final fwd bwd net -> changed_gaps ke Da Ds m mode fwd bwd n net z ->
  exists ts, converted_domains ke Da Ds m mode final fwd bwd n net o z = Ok ts /\ valid Da final false (in_dom Da n z) n (net_dim n net o) (v o) ts.
Proof.
  intros ke Da Ds m mode final fwd bwd n net o v z Hke Hn ND ND' HI T Hnet Hv Ho He Hf Hg.
  destruct (get_direction m) eqn:Ed.
  - assert (K : (mode = IBP -> final = IBP) /\ layers_ok mode fwd net /\ forward_gaps2 ke Da Ds mode fwd n net z) by (destruct m; try discriminate Ed; cbn [clone_fits changed_gaps] in *; tauto).
    destruct K as (K1 & K2 & K3). unfold converted_domains. rewrite Ed. apply forward_inside; auto.
  - destruct (mode_eqb mode IBP) eqn:Em.
    + assert (mode = IBP) by (destruct mode; try discriminate Em; reflexivity). subst mode.
      assert (Ds = Box) by (destruct m; try discriminate Ed; apply Hf; reflexivity). subst Ds. destruct Da; [|discriminate T]. rewrite domains_same.
      apply converted_sound; auto. destruct m; try discriminate Ed; cbn [changed_gaps clone_gaps] in *.
      * exact Hg.
      * destruct Hg as [_ Hg]. split; [intros its i L ps vs _ _ _; apply nl_ibp_gaps; reflexivity|]. intros its om. rewrite <- net_domains_same. exact (Hg its om).
      * destruct Hg as [_ Hg]. split; [intros its i L ps vs _ _ _; apply nl_ibp_gaps; reflexivity|]. intros its om. rewrite <- net_domains_same. exact (Hg its om).
      * destruct Hg as [_ Hg]. split; [intros its i L ps vs _ _ _; apply nl_ibp_gaps; reflexivity|]. intros its om. rewrite <- net_domains_same. exact (Hg its om).
    + assert (Hm : mode <> IBP) by (intros ->; discriminate Em). destruct He as [He|He]; [contradiction|].
      unfold converted_domains. rewrite Ed. destruct m; try discriminate Ed; cbn [clone_fits changed_gaps] in *.
      * destruct Hf as [_ HB]. apply backward_inside; auto. discriminate.
      * destruct Hf as (_ & HB & HF), Hg as [G1 G2]. apply backward_inside; auto.
      * destruct Hf as (_ & HB & HF), Hg as [G1 G2]. apply backward_inside; auto.
      * destruct Hf as (_ & HB & HF), Hg as [G1 G2]. apply backward_inside; auto.
Qed.

Theorem changed_inside : forall ke a n out net o v Ds c m meth mode fi fa z,
  net_facts ke n out net o v -> clone_flags (ca_method a) (ca_ibp a) (ca_affine a) = Ok (meth, mode, (fi, fa)) -> final_some fi fa ->
  clone ke a n out net o = Ok c -> wset_domains Ds c = Ok m ->
  norm_ok (args_domain a) -> norm_ok (wm_domain m) -> inside (wm_domain m) (args_domain a) n -> (mode = IBP \/ exists y, in_dom (wm_domain m) n z y) ->
  clone_fits (args_domain a) meth mode (get_mode fi fa) (ca_fwd a) (ca_bwd a) net ->
  changed_gaps ke (wm_domain m) (args_domain a) meth mode (ca_fwd a) (ca_bwd a) n net z ->
  exists ts, wmode m = Some (get_mode fi fa) /\ wm_predict m (wm_domain m) z None = Ok ts /\
    valid (wm_domain m) (get_mode fi fa) false (in_dom (wm_domain m) n z) n (prodn out) (v o) ts.
Proof.
  intros ke a n out net o v Ds c m meth mode fi fa z (Hke & Hn & Hnet & Hv & Ho & Hout) Hfl Hfs Hc Hm ND ND' HI He Hf Hg.
  destruct (changed_sound_gen ke (wm_domain m) (args_domain a) meth mode (get_mode fi fa) (ca_fwd a) (ca_bwd a) n net o v z Hke Hn ND ND' HI
    (changed_type ke a n out net o Ds c m meth mode fi fa Hfl Hc Hm) Hnet Hv Ho He Hf Hg) as (ts & E & V).
  exists ts. destruct (changed_fields ke a n out net o Ds c m meth mode fi fa Hfl Hc Hm) as (F1 & F2 & _).
  split; [unfold wmode; rewrite F1, F2; exact (final_mode fi fa Hfs)|]. split; [rewrite (changed_predict ke a n out net o Ds c m meth mode fi fa Hfl Hc Hm z None); exact E|].
  rewrite Hout. exact V.
Qed.

(** ** get_range_noise on a DecomonModel whose domain is another ball *)
Definition noise_fits (ke : R) (a : clone_args) (n : nat) (net : network) (eps0 eps : R) (p : pord) (P : list R -> Prop) : Prop :=
  exists m mode fi fa, args_domain a = Ball eps0 p /\ clone_flags (ca_method a) (ca_ibp a) (ca_affine a) = Ok (m, mode, (fi, fa)) /\ final_some fi fa /\
    clone_fits (Ball eps0 p) m mode (get_mode fi fa) (ca_fwd a) (ca_bwd a) net /\
    forall x, P x -> changed_gaps ke (Ball eps p) (Ball eps0 p) m mode (ca_fwd a) (ca_bwd a) n net (xtensor x).

Lemma noise_clone : forall ke a n out net o eps0 p0 m mode fi fa eps p, args_domain a = Ball eps0 p0 -> clone_flags (ca_method a) (ca_ibp a) (ca_affine a) = Ok (m, mode, (fi, fa)) -> 0 <= eps ->
  exists c, clone ke a n out net o = Ok c /\ takes_domain (Decomon c) (Ball eps p) /\ wm_n c = n /\ wm_out c = out /\ wset_domains [Ball eps p] c = Ok (with_domain (Decomon c) (Ball eps p)).
Proof.
  intros ke a n out net o eps0 p0 m mode fi fa eps p HD Hfl He. pose proof (clone_value ke a n out net o m mode fi fa Hfl) as E. eexists. split; [exact E|].
  cbn [takes_domain wm_domain wm_n wm_out with_domain]. rewrite HD. split; [reflexivity|]. split; [reflexivity|]. split; [reflexivity|].
  rewrite changes_ok; [reflexivity|]. cbn [wm_domain]. intros D [<-|[]]. exact I.
Qed.

Theorem noise_smaller : forall ke a n out net o v x eps0 eps p bs,
  net_facts ke n out net o v -> 0 <= eps <= eps0 -> known_norm p -> points_ok n x -> noise_fits ke a n net eps0 eps p (fun q => exists b, (b < alen x)%nat /\ q = point x b) ->
  exists c u l, clone ke a n out net o = Ok c /\ get_range_noise (Decomon c) x eps p bs = Ok (u, l) /\ alen u = alen x /\ alen l = alen x /\
    forall b j y, (b < alen x)%nat -> (j < prodn out)%nat -> in_ball n p eps (lvec (point x b)) y -> cell l b j <= v o y j <= cell u b j.
Proof.
  intros ke a n out net o v x eps0 eps p bs NF [He Hle] Hp PO (m & mode & fi & fa & HD & Hfl & Hfs & Hfit & Hg).
  destruct (noise_clone ke a n out net o eps0 p m mode fi fa eps p HD Hfl He) as (c & E & TD & En & Eo & Es). exists c.
  destruct (range_noise_sound (Decomon c) (v o) x eps p bs He Hp TD) as (u & l & Eu & _ & _ & Lu & Ll & H).
  - cbn [with_domain wm_n]. rewrite En. exact PO.
  - intros b Hb. assert (Hn : (0 < n)%nat) by apply NF.
    destruct (changed_inside ke a n out net o v [Ball eps p] c (with_domain (Decomon c) (Ball eps p)) m mode fi fa (xtensor (point x b)) NF Hfl Hfs E Es) as (ts & Em & Ep & V);
      cbn [with_domain wm_domain wm_n] in *; rewrite ?HD, ?En; auto using ball_norm, ball_inside, ball_point.
    + apply Hg. eauto.
    + exists (get_mode fi fa), ts, false. split; [exact Em|]. cbn [wm_domain]. split; [exact Ep|]. unfold wm_k. cbn [with_domain wm_n wm_out]. rewrite ?En, ?Eo. exact V.
  - exists u, l. split; [exact E|]. split; [exact Eu|]. split; [exact Lu|]. split; [exact Ll|]. cbn [with_domain wm_n] in H. unfold wm_k in H. cbn [wm_out] in H. rewrite En, Eo in H. exact H.
Qed.

(** affine mode: for every radius *)
Theorem noise_affine : forall ke a n out net o v x eps0 p0 eps p bs meth,
  net_facts ke n out net o v -> 0 <= eps -> known_norm p -> points_ok n x ->
  clone_flags (ca_method a) (ca_ibp a) (ca_affine a) = Ok (meth, AFFINE, (false, true)) -> slow_pools (ca_fwd a) net -> args_domain a = Ball eps0 p0 ->
  ball_ready ke (on_domain a (Ball eps p)) n net eps p (fun q => exists b, (b < alen x)%nat /\ q = point x b) ->
  exists c u l, clone ke a n out net o = Ok c /\ get_range_noise (Decomon c) x eps p bs = Ok (u, l) /\ alen u = alen x /\ alen l = alen x /\
    forall b j y, (b < alen x)%nat -> (j < prodn out)%nat -> in_ball n p eps (lvec (point x b)) y -> cell l b j <= v o y j <= cell u b j.
Proof.
  intros ke a n out net o v x eps0 p0 eps p bs meth NF He Hp PO Hfl Hs HD HR.
  destruct (noise_clone ke a n out net o eps0 p0 meth AFFINE false true eps p HD Hfl He) as (c & E & TD & En & Eo & Es). exists c.
  destruct (changed_affine ke a n out net o [Ball eps p] c (with_domain (Decomon c) (Ball eps p)) meth Hfl Hs E Es) as (c' & E' & Ed & Eq). cbn [with_domain wm_domain] in E', Ed, Eq.
  destruct HR as (m2 & mode2 & fi & fa & HD2 & Hfl2 & Hfs & Hfit & Hg). cbn [on_domain ca_method ca_ibp ca_affine ca_fwd ca_bwd] in Hfl2, Hfit, Hg. rewrite Hfl in Hfl2. injection Hfl2 as <- <- <- <-.
  destruct (range_noise_sound (Decomon c) (v o) x eps p bs He Hp TD) as (u & l & Eu & _ & _ & Lu & Ll & H).
  - cbn [with_domain wm_n]. rewrite En. exact PO.
  - intros b Hb. destruct NF as (Hke & Hn & Hnet & Hv & Ho & Hout).
    destruct (clone_sound ke (on_domain a (Ball eps p)) n out net o v (xtensor (point x b)) meth AFFINE false true) as (c'' & ts & E'' & Ed' & Eb & En' & Eo' & Em & Ep & V); auto.
    + exact (ball_norm eps p Hp).
    + right. apply ball_point; assumption.
    + cbn [on_domain args_domain ca_domain ca_fwd ca_bwd]. apply Hg. eauto.
    + rewrite E' in E''. injection E'' as <-. cbn [on_domain args_domain ca_domain] in *.
      destruct (changed_fields ke a n out net o [Ball eps p] c (with_domain (Decomon c) (Ball eps p)) meth AFFINE false true Hfl E Es) as (F1 & F2 & _).
      exists AFFINE, ts, false. split; [unfold wmode; rewrite F1, F2; reflexivity|]. cbn [with_domain wm_domain]. split.
      * change (wm_predict c (Ball eps p) (xtensor (point x b)) None = Ok ts). pose proof (Eq (xtensor (point x b))) as Q. cbn [wm_predict] in Q. rewrite Q, Ed. exact Ep.
      * unfold wm_k in *. cbn [with_domain wm_n wm_out]. rewrite En, Eo. rewrite Eo' in V. exact V.
  - exists u, l. split; [exact E|]. split; [exact Eu|]. split; [exact Lu|]. split; [exact Ll|]. cbn [with_domain wm_n] in H. unfold wm_k in H. cbn [wm_out] in H. rewrite En, Eo in H. exact H.
Qed.
