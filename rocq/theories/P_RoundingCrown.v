(** Proofs: rounding errors of the crown methods (C73). *)
From Coq Require Import Reals List Arith Bool ZArith Lia Lra Psatz FunctionalExtensionality.
From Verif Require Import RLib Spec Spec_Layers Spec_Backward Spec_Convert Spec_Near Spec_Rounding Spec_RoundingCrown M_Core M_Utils M_MergeLayers M_Ops M_Layers M_Pool M_Backward M_Crown M_Convert M_Network M_Rounding M_RoundingCrown.
From Verif Require Import P_Core P_Utils P_Layers P_Backward P_BackwardMore P_Graph P_Crown P_Convert P_Network P_NetworkSpec P_NetworkCrown P_NetworkForward P_NetworkThm P_Near P_NearCrown P_Rounding.
From Verif Require Import Spec_Network.
Import ListNotations.
Local Open Scope R_scope.

(** ** Rounding a relaxation *)
Lemma relaxes_close : forall (T : vec -> Prop) h k e d Y f B B', 0 <= d -> domain_within T h Y ->
  relaxes_e T h k e f B -> bb_close h k d B B' -> relaxes_e T h k (e + d * (1 + INR h * Y)) f B'.
Proof.
  intros T h k e d Y f B B' Hd HY H (C1 & C2 & C3 & C4). unfold relaxes_e in *.
  apply (affine_close T h k e d Y f (bb_wu B) (bb_wu B') (vt (bb_bu B)) (vt (bb_bu B')) (bb_wl B) (bb_wl B') (vt (bb_bl B)) (vt (bb_bl B'))); auto;
    intros i j _ Hj; unfold vt; auto.
Qed.

Lemma rsum_abs_close : forall h (a b : vec) d, (forall i, (i < h)%nat -> Rabs (b i - a i) <= d) ->
  rsum h (fun i => Rabs (b i)) <= rsum h (fun i => Rabs (a i)) + INR h * d.
Proof.
  intros h a b d. induction h as [|h IH]; intros H; [cbn; lra|]. rewrite S_INR. cbn [rsum].
  specialize (IH ltac:(intros; apply H; lia)). pose proof (H h ltac:(lia)). pose proof (Rabs_triang (a h) (b h - a h)) as Q.
  replace (a h + (b h - a h)) with (b h) in Q by ring. lra.
Qed.

Lemma cols_close : forall h k N d B B', cols h k N B -> bb_close h k d B B' -> cols h k (N + INR h * d) B'.
Proof.
  intros h k N d B B' H (C1 & _ & C3 & _) j Hj. destruct (H j Hj) as [H1 H2]. split.
  - eapply Rle_trans; [apply (rsum_abs_close h (fun i => bb_wu B i j)); intros i Hi; apply C1; auto|]. lra.
  - eapply Rle_trans; [apply (rsum_abs_close h (fun i => bb_wl B i j)); intros i Hi; apply C3; auto|]. lra.
Qed.

Lemma cols_weaken : forall h k N N' B, N <= N' -> cols h k N B -> cols h k N' B.
Proof. intros h k N N' B Q H j Hj. destruct (H j Hj). lra. Qed.

(** ** Fuse and Convert2BackwardMode on inputs known up to an error *)
Lemma convert_near_e : forall D mode (S : vec -> Prop) n m e e0 f ts B, (0 < n)%nat -> norm_ok D -> (mode = IBP -> D = Box /\ e0 = 0) ->
  near D mode S n n e0 (fun y => y) ts -> relaxes_e S n m e f B ->
  exists out, convert2backward mode D n ts B = Ok out /\ near D mode S n m e f out.
Proof.
  intros D mode S n m e e0 f ts [wu bu wl bl] Hn Hd Hi Hv HB. unfold relaxes_e in HB. cbn [bb_wu bb_bu bb_wl bb_bl] in HB.
  destruct mode; cbn [near] in Hv.
  - destruct (Hi eq_refl) as [-> ->].
    destruct ts as [|u [|l [|]]]; try contradiction.
    unfold convert2backward. cbn [bind mode_eqb andb]. rewrite get_upper_no_kw, get_lower_no_kw. cbn [bind bb_wu bb_bu bb_wl bb_bl].
    eexists. split; [reflexivity|]. cbn [near Nat.eqb].
    intros z j Hz Hj. unfold vt. specialize (HB z j Hz Hj).
    assert (Hb : in_box n (l 0%nat) (u 0%nat) z) by (intros i Hi'; specialize (Hv z i Hz Hi'); lra).
    pose proof (get_upper_box_sound n _ _ wu bu z j Hb). pose proof (get_lower_box_sound n _ _ wl bl z j Hb). lra.
  - destruct ts as [|x [|wu' [|bu' [|wl' [|bl' [|]]]]]]; try contradiction. destruct Hv as [X _].
    eexists. split; [reflexivity|]. split; [exact X|]. exact HB.
  - destruct ts as [|x [|u [|wu' [|bu' [|l [|wl' [|bl' [|]]]]]]]]; try contradiction. destruct Hv as [X _].
    unfold convert2backward. cbn [bind mode_eqb andb bb_wu bb_bu bb_wl bb_bl].
    destruct (get_upper_ok D n x wu bu Hd) as [ru Eu]. destruct (get_lower_ok D n x wl bl Hd) as [rl El].
    rewrite Eu, El. cbn [bind]. eexists. split; [reflexivity|]. split; [exact X|]. split; [|exact HB].
    intros z j Hz Hj. unfold vt. specialize (HB z j Hz Hj).
    pose proof (get_upper_sound D n x wu bu ru z j Hn Eu (X z Hz)). pose proof (get_lower_sound D n x wl bl rl z j Hn El (X z Hz)). lra.
Qed.

Lemma fuse_near_e : forall D mode (S : vec -> Prop) n k dd N e0 ts B (F : vec -> vec), 0 <= e0 -> 0 <= N ->
  near D mode S n n e0 (fun y => y) ts -> relaxes_e S n k dd F B -> cols n k N B ->
  exists Q, fuse mode n ts B = Ok Q /\ relaxes_e S n k (dd + N * e0) F Q.
Proof.
  intros D mode S n k dd N e0 ts B F He HN Hts HB Hc. destruct mode; cbn [near] in Hts.
  - exists B. split; [reflexivity|]. eapply relaxes_e_weaken; [| |exact HB]; [nra|reflexivity].
  - destruct ts as [|x [|wu [|bu [|wl [|bl [|]]]]]]; try contradiction. destruct Hts as [X A].
    eexists. split; [reflexivity|]. exact (merge_near S S n n k e0 dd N (fun y => y) F (mk_bb wu (bu 0%nat) wl (bl 0%nat)) B He A HB Hc (fun z H => H)).
  - destruct ts as [|x [|u [|wu [|bu [|l [|wl [|bl [|]]]]]]]]; try contradiction. destruct Hts as (X & _ & A).
    eexists. split; [reflexivity|]. exact (merge_near S S n n k e0 dd N (fun y => y) F (mk_bb wu (bu 0%nat) wl (bl 0%nat)) B He A HB Hc (fun z H => H)).
Qed.

Section CrownRun.
Variable sp : spec.
Variable S : vec -> Prop.
Variable its : list tensor.
Variable g : graph.
Variable imap : nat -> list tensor.
Variable v : nat -> vec -> vec.
Variable fs : nat -> vec -> vec.
Variables (d Y om dr e0 : R) (W : nat).
(** errors carried by the relaxations and by the products *)
Variables A K : nat -> R.

Local Notation n := (sp_n sp).
Local Notation mode := (sp_mode sp).
Local Notation D := (sp_dom sp).

Hypothesis Hn : (0 < n)%nat.
Hypothesis HD : norm_ok D.
Hypothesis Hibp : mode = IBP -> D = Box /\ e0 = 0.
Hypothesis He0 : 0 <= e0.
Hypothesis Hits : near D mode S n n e0 (fun y => y) its.
Hypothesis Hwf : well_formed n g.
Hypothesis Hnm : no_merge g.
Hypothesis Hml : models_last g.
Hypothesis Hv : forall y i L ps, nth_error g i = Some (L, ps) -> v i y = fs i (prev v ps y).
Hypothesis Hd : 0 <= d.
Hypothesis HY : 0 <= Y.
Hypothesis Hom : INR W * d <= om.
Hypothesis Hdr : d * (1 + INR W * Y) <= dr.
Hypothesis HS : domain_within S n Y.
Hypothesis HW : (n <= W)%nat.
Hypothesis Hin : forall i L ps, nth_error g i = Some (L, ps) -> (ly_in L <= W)%nat /\ domain_within (image S (prev v ps)) (ly_in L) Y.

Definition Eout (i : nat) : R := A i + K i + dr.
Definition rin (ps : list nat) : R := match ps with [p] => Eout p | _ => e0 end.
Hypothesis HA : forall i L ps, nth_error g i = Some (L, ps) -> 0 <= A i /\ 0 <= K i.
Hypothesis Hlay : forall i L ps, nth_error g i = Some (L, ps) ->
  exists le G, 0 <= le /\ 0 <= G /\ bwd_near sp L (rin ps) le G (fs i) /\
    match ps with
    | [p] => le + dr + (G + om) * A p <= A i /\ dr + om * A p + K p <= K i
    | _ => le + dr + (G + om) * e0 <= A i /\ 2 * dr + om * e0 <= K i
    end.

Lemma om_pos : 0 <= om. Proof. pose proof (pos_INR W). assert (0 <= INR W * d) by nra. lra. Qed.
Lemma dr_pos : 0 <= dr. Proof. pose proof (pos_INR W). assert (0 <= INR W * Y) by nra. assert (0 <= d * (1 + INR W * Y)) by nra. lra. Qed.
Lemma round_e : forall (T : vec -> Prop) h k e f B B', (h <= W)%nat -> domain_within T h Y ->
  relaxes_e T h k e f B -> bb_close h k d B B' -> relaxes_e T h k (e + dr) f B'.
Proof.
  intros T h k e f B B' Hh HT H C. pose proof (relaxes_close T h k e d Y f B B' Hd HT H C) as Q.
  eapply relaxes_e_weaken; [| |exact Q]; [|reflexivity]. apply le_INR in Hh.
  assert (INR h * Y <= INR W * Y) by (apply Rmult_le_compat_r; auto). assert (d * (1 + INR h * Y) <= d * (1 + INR W * Y)) by (apply Rmult_le_compat_l; lra). lra.
Qed.
Lemma round_c : forall h k N B B', (h <= W)%nat -> cols h k N B -> bb_close h k d B B' -> cols h k (N + om) B'.
Proof.
  intros h k N B B' Hh H C. pose proof (cols_close h k N d B B' H C) as Q. eapply cols_weaken; [|exact Q]. apply le_INR in Hh.
  assert (INR h * d <= INR W * d) by (apply Rmult_le_compat_r; auto). lra.
Qed.

Definition tensors_near (i : nat) : Prop := forall L ps, nth_error g i = Some (L, ps) -> near_sp sp S (ly_in L) (rin ps) (prev v ps) (imap i).

Lemma parent_cases : forall i L ps, nth_error g i = Some (L, ps) -> ps = [] \/ exists p, ps = [p] /\ (p < i)%nat.
Proof.
  intros i L ps H. pose proof (Hnm i L ps H) as Hl. destruct (Hwf i L ps H) as (_ & Hp & _).
  destruct ps as [|p [|]]; [left; auto|right; exists p; split; auto; apply Hp; left; auto|cbn in Hl; lia].
Qed.

Lemma rcrown_some : forall i, (forall j, (j <= i)%nat -> tensors_near j) -> forall L ps C k dC N F Q,
  nth_error g i = Some (L, ps) -> ly_model L = false -> 0 <= N ->
  relaxes_e (image S (v i)) (ly_out L) k dC F C -> cols (ly_out L) k N C ->
  rcrown mode g imap d k i (Some C) Q -> relaxes_e S n k (dC + N * A i + K i) (fun y => F (v i y)) Q.
Proof.
  intros i. induction i as [i IH] using lt_wf_ind. intros HT L ps C k dC N F Q Hg Hm HN HC HcC HQ.
  pose proof om_pos as Pom. pose proof dr_pos as Pdr. destruct (Hin i L ps Hg) as [Hw Hy]. destruct (Hwf i L ps Hg) as (W1 & W2 & W3).
  destruct (Hlay i L ps Hg) as (le & G & Hle & HG & HL & HE). destruct (HL S (prev v ps) (imap i) (HT i ltac:(lia) L ps Hg)) as (B0 & EB & HB & HcB).
  assert (STEP : forall B M, bb_close (ly_in L) (ly_out L) d B0 B -> bb_close (ly_in L) k d (merge_bb (ly_out L) B C) M ->
     relaxes_e (image S (prev v ps)) (ly_in L) k (dC + N * (le + dr) + dr) (fun y => F (fs i y)) M /\ cols (ly_in L) k (N * (G + om) + om) M).
  { intros B M CB CM. pose proof (round_e _ _ _ _ _ _ _ Hw Hy HB CB) as HB'. pose proof (round_c _ _ _ _ _ Hw HcB CB) as HcB'. split.
    - eapply round_e; [exact Hw|exact Hy| |exact CM]. apply (merge_near _ (image S (v i)) _ _ _ (le + dr) dC N (fs i) F B C ltac:(lra) HB' HC HcC).
      intros y (z & Hz & ->). exists z. split; auto. rewrite (Hv z i L ps Hg). reflexivity.
    - eapply round_c; [exact Hw| |exact CM]. apply (merge_cols _ _ _ (G + om) N _ _ ltac:(lra) HcB' HcC). }
  assert (Hom' : 0 <= N * (G + om)) by (apply Rmult_le_pos; lra).
  inversion HQ as [i' L' back B M Z Hg' CB CM CF|i' L' p back B M Z Hg' CB CM CR]; subst; rewrite Hg in Hg'; injection Hg' as <- Eps; subst ps.
  - cbn [merged] in CM. rewrite Hm in CM. destruct (STEP B M (CB B0 EB) CM) as [HM HcM]. pose proof (HT i ltac:(lia) L [] Hg) as T0. rewrite (W1 eq_refl) in *. cbn [prev rin] in *.
    destruct (fuse_near_e D mode S n k (dC + N * (le + dr) + dr) (N * (G + om) + om) e0 (imap i) M (fun y => F (fs i y)) He0 ltac:(lra) T0) as (F0 & EF & HF);
      [intros z j Hz Hj; apply HM; [exists z; auto|exact Hj]|exact HcM|].
    pose proof (round_e S n k _ _ F0 Q HW HS HF) as HF'. assert (CQ : bb_close n k d F0 Q) by (apply CF; exact EF).
    eapply relaxes_e_weaken; [| |exact (HF' CQ)].
    + destruct HE as [H1 H2]. assert (N * (le + dr + (G + om) * e0) <= N * A i) by (apply Rmult_le_compat_l; assumption). lra.
    + intros y j _ _. rewrite (Hv _ i L [] Hg). reflexivity.
  - cbn [merged] in CM. rewrite Hm in CM. destruct (STEP B M (CB B0 EB) CM) as [HM HcM]. specialize (W2 p (or_introl eq_refl)).
    destruct (nth_error g p) as [[L' ps']|] eqn:Hgp; [|apply nth_error_None in Hgp; assert (i < length g)%nat by (apply nth_error_Some; congruence); lia].
    pose proof (W3 p L' ps' eq_refl Hgp) as Hdm. pose proof (Hml i L [p] p L' ps' Hg (or_introl eq_refl) Hgp) as Hm'. destruct (HA p L' ps' Hgp) as [PA PK].
    rewrite <- Hdm in HM, HcM. pose proof (IH p W2 ltac:(intros j Hj; apply HT; lia) L' ps' M k (dC + N * (le + dr) + dr) (N * (G + om) + om) (fun y => F (fs i y)) Q Hgp Hm' ltac:(lra) HM HcM CR) as HR.
    eapply relaxes_e_weaken; [| |exact HR].
    + destruct HE as [H1 H2]. assert (N * (le + dr + (G + om) * A p) <= N * A i) by (apply Rmult_le_compat_l; assumption). lra.
    + intros y j _ _. rewrite (Hv _ i L [p] Hg). reflexivity.
Qed.

Lemma rcrown_none : forall i, (forall j, (j <= i)%nat -> tensors_near j) -> forall L ps Q,
  nth_error g i = Some (L, ps) -> rcrown mode g imap d (ly_out L) i None Q -> relaxes_e S n (ly_out L) (A i + K i) (v i) Q.
Proof.
  intros i HT L ps Q Hg HQ.
  pose proof om_pos as Pom. pose proof dr_pos as Pdr. destruct (Hin i L ps Hg) as [Hw Hy]. destruct (Hwf i L ps Hg) as (W1 & W2 & W3).
  destruct (Hlay i L ps Hg) as (le & G & Hle & HG & HL & HE). destruct (HL S (prev v ps) (imap i) (HT i ltac:(lia) L ps Hg)) as (B0 & EB & HB & HcB).
  inversion HQ as [i' L' back B M Z Hg' CB CM CF|i' L' p back B M Z Hg' CB CM CR]; subst; rewrite Hg in Hg'; injection Hg' as <- Eps; subst ps; cbn [merged] in CM; subst M;
    pose proof (round_e _ _ _ _ _ _ _ Hw Hy HB (CB B0 EB)) as HB'; pose proof (round_c _ _ _ _ _ Hw HcB (CB B0 EB)) as HcB'.
  - pose proof (HT i ltac:(lia) L [] Hg) as T0. rewrite (W1 eq_refl) in *. cbn [prev rin] in *.
    destruct (fuse_near_e D mode S n (ly_out L) (le + dr) (G + om) e0 (imap i) B (fs i) He0 ltac:(lra) T0) as (F0 & EF & HF);
      [intros z j Hz Hj; apply HB'; [exists z; auto|exact Hj]|exact HcB'|].
    pose proof (round_e S n _ _ _ F0 Q HW HS HF) as HF'. assert (CQ : bb_close n (ly_out L) d F0 Q) by (apply CF; exact EF).
    eapply relaxes_e_weaken; [| |exact (HF' CQ)].
    + destruct HE as [H1 H2]. assert (0 <= om * e0) by (apply Rmult_le_pos; lra). lra.
    + intros y j _ _. rewrite (Hv _ i L [] Hg). reflexivity.
  - specialize (W2 p (or_introl eq_refl)).
    destruct (nth_error g p) as [[L' ps']|] eqn:Hgp; [|apply nth_error_None in Hgp; assert (i < length g)%nat by (apply nth_error_Some; congruence); lia].
    pose proof (W3 p L' ps' eq_refl Hgp) as Hdm. pose proof (Hml i L [p] p L' ps' Hg (or_introl eq_refl) Hgp) as Hm'. destruct (HA p L' ps' Hgp) as [PA PK].
    rewrite <- Hdm in HB', HcB'. pose proof (rcrown_some p ltac:(intros j Hj; apply HT; lia) L' ps' B (ly_out L) (le + dr) (G + om) (fs i) Q Hgp Hm' ltac:(lra) HB' HcB' CR) as HR.
    eapply relaxes_e_weaken; [| |exact HR].
    + destruct HE as [H1 H2]. assert (0 <= om * A p) by (apply Rmult_le_pos; lra). lra.
    + intros y j _ _. rewrite (Hv _ i L [p] Hg). reflexivity.
Qed.

Lemma reach_W : d * reach mode n Y <= dr.
Proof.
  eapply Rle_trans; [|exact Hdr]. apply Rmult_le_compat_l; [exact Hd|]. apply le_INR in HW. assert (INR n * Y <= INR W * Y) by (apply Rmult_le_compat_r; auto).
  pose proof (pos_INR n). assert (0 <= INR n * Y) by nra. unfold reach. destruct mode; lra.
Qed.

Lemma rnode_near : forall i, (forall j, (j <= i)%nat -> tensors_near j) -> forall L ps ts,
  nth_error g i = Some (L, ps) -> rnode mode D n g imap its d i ts -> near_sp sp S (ly_out L) (Eout i) (v i) ts.
Proof.
  intros i HT L ps ts Hg HQ. destruct (HQ L ps Hg) as (B & HB & Hc). pose proof (rcrown_none i HT L ps B Hg HB) as H.
  destruct (convert_near_e D mode S n _ _ e0 _ its B Hn HD Hibp Hits H) as (out & Eo & Vo).
  pose proof (near_close D mode S n _ _ d Y _ out ts Hd HY (fun _ => HS) Vo (Hc out Eo)) as V.
  unfold near_sp. eapply near_weaken; [| |exact V]; [|reflexivity]. pose proof reach_W. unfold Eout. lra.
Qed.

Variable fwd : option (nat -> list tensor).
Hypothesis Hfwd : forall f i L ps, fwd = Some f -> nth_error g i = Some (L, ps) -> near_sp sp S (ly_out L) (Eout i) (v i) (f i).
Hypothesis Hrun : forall i L ps, nth_error g i = Some (L, ps) ->
  match ps with
  | [] => imap i = its
  | [p] => match fwd with Some f => imap i = f p | None => rnode mode D n g imap its d p (imap i) end
  | _ => True
  end.

Lemma tensors_near_all : forall i, tensors_near i.
Proof.
  intros i. induction i as [i IH] using lt_wf_ind. intros L ps Hg. pose proof (Hrun i L ps Hg) as Q. destruct (Hwf i L ps Hg) as (W1 & W2 & W3).
  destruct (parent_cases i L ps Hg) as [->|(p & -> & Hp)].
  - rewrite Q, (W1 eq_refl). exact Hits.
  - destruct (nth_error g p) as [[L' ps']|] eqn:Hgp; [|apply nth_error_None in Hgp; assert (i < length g)%nat by (apply nth_error_Some; congruence); lia].
    rewrite <- (W3 p L' ps' eq_refl Hgp). cbn [rin prev]. destruct fwd as [f|] eqn:Ef.
    + rewrite Q. apply (Hfwd f p L' ps' eq_refl Hgp).
    + apply (rnode_near p ltac:(intros j Hj; apply IH; lia) L' ps' (imap i) Hgp Q).
Qed.
End CrownRun.

(** ** Networks *)
Lemma state_step : forall om net nod, crown_state om (net ++ [nod]) = crown_step om (crown_state om net) nod.
Proof. intros. unfold crown_state. rewrite fold_left_app. reflexivity. Qed.
Lemma state_pos : forall om net, 0 <= om -> 2 + om <= fst (crown_state om net) /\ 2 + om <= snd (crown_state om net).
Proof.
  intros om net Ho. induction net as [|nod net IH] using rev_ind; [unfold crown_state; cbn; lra|]. rewrite state_step. unfold crown_step.
  destruct (fst nod) as [L|]; [|exact IH]. cbn [fst snd]. destruct IH as [H1 H2]. pose proof (Rmax_l 1 (nl_gain L)).
  assert (0 <= om * fst (crown_state om net)) by (apply Rmult_le_pos; lra). split; nra.
Qed.
Lemma state_app : forall om net net', 0 <= om ->
  fst (crown_state om net) <= fst (crown_state om (net ++ net')) /\ snd (crown_state om net) <= snd (crown_state om (net ++ net')).
Proof.
  intros om net net' Ho. induction net' as [|nod net' IH] using rev_ind; [rewrite app_nil_r; lra|]. rewrite app_assoc, state_step. unfold crown_step.
  destruct (fst nod) as [L|]; [|exact IH]. cbn [fst snd]. destruct (state_pos om (net ++ net') Ho) as [H1 H2]. destruct IH as [I1 I2]. pose proof (Rmax_l 1 (nl_gain L)).
  assert (0 <= om * fst (crown_state om (net ++ net'))) by (apply Rmult_le_pos; lra). split; nra.
Qed.
Lemma state_firstn : forall om net i k, 0 <= om -> (i <= k)%nat ->
  fst (crown_state om (firstn i net)) <= fst (crown_state om (firstn k net)) /\ snd (crown_state om (firstn i net)) <= snd (crown_state om (firstn k net)).
Proof.
  intros om net i k Ho H. rewrite <- (firstn_skipn i (firstn k net)). rewrite firstn_firstn, Nat.min_l by exact H. apply state_app. exact Ho.
Qed.
Lemma state_slack : forall om net, 0 <= om -> slack_from 1 net <= fst (crown_state om net) + snd (crown_state om net).
Proof.
  intros om net Ho. induction net as [|nod net IH] using rev_ind; [unfold crown_state, slack_from; cbn; lra|]. rewrite state_step, slack_from_step. unfold crown_step.
  destruct (fst nod) as [L|]; [|exact IH]. cbn [fst snd]. destruct (state_pos om net Ho) as [H1 H2]. pose proof (Rmax_l 1 (nl_gain L)).
  assert (0 <= om * fst (crown_state om net)) by (apply Rmult_le_pos; lra). nra.
Qed.

(** the forward pass of crown-forward-xxx *)
Lemma forward_run_near : forall ke D n mode (S : vec -> Prop) opts net v d X its f,
  0 < ke -> (0 < n)%nat -> norm_ok D -> net_ok n net -> net_value net v -> layers_ok mode opts net ->
  (forall i L ps, nth_error net i = Some (Some L, ps) -> nl_piecewise L) ->
  0 <= d -> 0 <= X -> (mode <> IBP -> domain_within S n X) -> near D mode S n n (d * reach mode n X) (fun y => y) its -> rounded_forward ke D n mode opts net d its f ->
  forall i, (i < length net)%nat ->
    near D mode S n (net_dim n net i) (slack_from 1 (firstn (Datatypes.S i) net) * (ke + d * reach mode n X)) (v i) (f i).
Proof.
  intros ke D n mode S opts net v d X its f Hke Hn HD Hnet Hval Hlay Hpw Hd HX HS Vin Hrun.
  set (sp := mk_spec false mode D n). set (e' := ke + d * reach mode n X).
  assert (Hr : 0 <= d * reach mode n X) by (pose proof (reach_pos mode n X HX); nra).
  assert (He' : 0 < e') by (unfold e'; lra).
  assert (Hdok : dom_ok D mode) by (destruct mode; cbn; auto).
  intros i. induction i as [i IH] using lt_wf_ind. intros Hi.
  destruct (nth_error net i) as [[q ps]|] eqn:En; [|apply nth_error_None in En; lia].
  destruct (Hnet i q ps En) as [Hp Ho]. specialize (Hrun i q ps En). rewrite (firstn_S _ _ _ _ En), slack_from_step. cbn [fst]. unfold net_dim at 1. rewrite En.
  pose proof (slack_from_pos 1 (firstn i net) ltac:(lra)) as Hpos. destruct q as [L|].
  - destruct Ho as [Hps Hdim]. destruct (Hlay i L ps En) as [Hok Hft].
    destruct (layer_near ke sp S (opts i) L (slack_from 1 (firstn i net) * e') (map v ps) (map f ps) (v i) Hke Hn Hdok eq_refl (Hpw i L ps En) Hok Hft) as (out & Eo & Vo).
    + nra.
    + rewrite <- Hdim, combine_map. apply Forall2_map_map. intros p Q. cbn. specialize (IH p (Hp p Q) ltac:(specialize (Hp p Q); lia)).
      eapply near_weaken; [| |exact IH]; [|reflexivity]. apply Rmult_le_compat_r; [lra|]. apply slack_from_firstn; [lra|]. specialize (Hp p Q). lia.
    + rewrite <- Hdim, !map_length. reflexivity.
    + intros y. rewrite map_map. exact (Hval y i (Some L) ps En).
    + pose proof (near_close D mode _ n (nl_out L) _ d X _ out (f i) Hd HX HS Vo (Hrun out Eo)) as V.
      eapply near_weaken; [| |exact V]; [|reflexivity]. pose proof (Rmax_l 1 (nl_gain L)) as G1. unfold e' in *. nra.
  - subst ps. rewrite Hrun. apply (near_weaken D mode _ n n (d * reach mode n X) _ (fun y => y)); [unfold e' in *; nra| |exact Vin].
    intros y j _ _. symmetry. exact (Hval y i None [] En j).
Qed.

(** the last conversion *)
Lemma last_near : forall D n mode final (S : vec -> Prop) m e f its c, (0 < n)%nat -> norm_ok D -> (mode = IBP -> D = Box) ->
  near D mode S n n (match mode with IBP => 0 | _ => e end) (fun y => y) its -> near D mode S n m e f c ->
  exists out, last_step D n mode final its c = Ok out /\ near D final S n m e f out.
Proof.
  intros D n mode final S m e f its c Hn HD HB Vi V. assert (Hdok : dom_ok D mode) by (destruct mode; cbn; auto). unfold last_step.
  assert (Hgen : (mode = IBP -> final = IBP) -> exists c', convert2mode D n mode final c = Ok c' /\ near D final S n m e f c').
  { intros Hmf. apply (convert2mode_near D n mode final S _ _ _ c Hn Hdok Hmf V). }
  destruct (mode_eqb mode IBP) eqn:Em.
  - assert (mode = IBP) by (destruct mode; try discriminate Em; reflexivity). subst mode. rewrite (HB eq_refl) in *.
    destruct (mode_eqb final IBP) eqn:Ef.
    + destruct final; try discriminate Ef. destruct (Hgen (fun _ => eq_refl)) as (c' & Ec' & Vc). rewrite Ec'. cbn. eauto.
    + destruct its as [|iu [|il [|]]]; try contradiction Vi. destruct c as [|u [|l [|]]]; try contradiction V. cbn in V, Vi.
      assert (Ha : affine_near S n m e f (fun _ _ => 0) (u 0%nat) (fun _ _ => 0) (l 0%nat)).
      { intros z j Hz Hj. unfold aff. rewrite dot_0_l. specialize (V z j Hz Hj). lra. }
      assert (Hx : forall y, S y -> in_dom Box n (fun k => if Nat.eqb k 0 then il 0%nat else iu 0%nat) y).
      { intros y Hy i Hi. cbn. specialize (Vi y i Hy Hi). lra. }
      destruct final; [discriminate Ef| |].
      * eexists. split; [reflexivity|]. split; [exact Hx|exact Ha].
      * eexists. split; [reflexivity|]. split; [exact Hx|split; [exact V|exact Ha]].
  - destruct Hgen as (c' & Ec' & Vc); [intros ->; discriminate Em|]. rewrite Ec'. rewrite andb_false_r. cbn [bind]. eauto.
Qed.

Lemma rounded_crown_near : forall ke D n mode final z opts bo net v o d W Y r,
  0 < ke -> (0 < n)%nat -> norm_ok D -> (mode = IBP -> D = Box) ->
  net_ok n net -> net_value net v -> blayers_ok bo net -> (c_fwd r <> None -> layers_ok mode opts net) -> (o < length net)%nat ->
  (forall i L ps, nth_error net i = Some (Some L, ps) -> nl_piecewise L) ->
  0 <= d -> 0 <= Y -> nodes_within (in_dom D n z) n net v W Y -> rounded_crown ke D n mode final opts bo net o z d r ->
  near D final (in_dom D n z) n (net_dim n net o) (crown_error (INR W * d) net * (ke + d * (1 + INR W * Y))) (v o) (c_out r).
Proof.
  intros ke D n mode final z opts bo net v o d W Y r Hke Hn HD HB Hnet Hval Hlay Hflay Ho Hpw Hd HY (HnW & HS & Hnod) (Hi & Hf & Hnodes & Hlast & Hout).
  set (sp := mk_spec false mode D n) in *. set (g := backward_net ke sp bo n net) in *. set (om := INR W * d). set (dr := d * (1 + INR W * Y)). set (S := in_dom D n z) in *.
  assert (Hdok : dom_ok D mode) by (destruct mode; cbn; auto).
  assert (Pom : 0 <= om) by (unfold om; pose proof (pos_INR W); nra).
  assert (Pdr : 0 <= dr) by (unfold dr; pose proof (pos_INR W); assert (0 <= INR W * Y) by nra; nra).
  assert (HRd : forall m', d * reach m' n Y <= dr).
  { intros m'. unfold dr. apply Rmult_le_compat_l; [exact Hd|]. apply le_INR in HnW. assert (INR n * Y <= INR W * Y) by (apply Rmult_le_compat_r; auto).
    pose proof (pos_INR n). assert (0 <= INR n * Y) by nra. unfold reach. destruct m'; lra. }
  set (u := ke + dr). assert (Hu : 0 < u) by (unfold u; lra).
  set (A := fun i => fst (crown_state om (firstn (Datatypes.S i) net)) * u). set (K := fun i => snd (crown_state om (firstn (Datatypes.S i) net)) * u).
  set (e0 := match mode with IBP => 0 | _ => dr end).
  assert (He0 : 0 <= e0 <= dr) by (unfold e0; destruct mode; lra).
  assert (PAK : forall i, 0 <= A i /\ 0 <= K i) by (intros i; unfold A, K; destruct (state_pos om (firstn (Datatypes.S i) net) Pom); split; apply Rmult_le_pos; lra).
  (* the inputs *)
  destruct (input_tensors_ok D mode n z Hn (fun _ => HD)) as (its & Ei & Vi). apply valid_near in Vi. fold S in Vi.
  assert (Vin : near D mode S n n e0 (fun y => y) (c_inputs r)).
  { specialize (Hi its Ei). unfold inputs_close in Hi. unfold e0. destruct mode.
    - pose proof (near_close D IBP S n n 0 0 Y _ its (c_inputs r) ltac:(lra) HY (fun _ => HS) Vi Hi) as Q. eapply near_weaken; [| |exact Q]; [lra|reflexivity].
    - pose proof (near_close D AFFINE S n n 0 d Y _ its (c_inputs r) Hd HY (fun _ => HS) Vi Hi) as Q. eapply near_weaken; [| |exact Q]; [|reflexivity]. pose proof (HRd AFFINE). lra.
    - pose proof (near_close D HYBRID S n n 0 d Y _ its (c_inputs r) Hd HY (fun _ => HS) Vi Hi) as Q. eapply near_weaken; [| |exact Q]; [|reflexivity]. pose proof (HRd HYBRID). lra. }
  assert (Vin' : near D mode S n n (d * reach mode n Y) (fun y => y) (c_inputs r)).
  { pose proof (reach_pos mode n Y HY). specialize (Hi its Ei). unfold inputs_close in Hi. destruct mode.
    - pose proof (near_close D IBP S n n 0 0 Y _ its (c_inputs r) ltac:(lra) HY (fun _ => HS) Vi Hi) as Q. eapply near_weaken; [| |exact Q]; [nra|reflexivity].
    - pose proof (near_close D AFFINE S n n 0 d Y _ its (c_inputs r) Hd HY (fun _ => HS) Vi Hi) as Q. eapply near_weaken; [| |exact Q]; [lra|reflexivity].
    - pose proof (near_close D HYBRID S n n 0 d Y _ its (c_inputs r) Hd HY (fun _ => HS) Vi Hi) as Q. eapply near_weaken; [| |exact Q]; [lra|reflexivity]. }
  pose proof (bnet_agree sp bo net v Hnet Hlay Hval) as Hag.
  assert (HinW : forall i L ps, nth_error g i = Some (L, ps) -> (ly_in L <= W)%nat /\ domain_within (image S (prev (net_fn net) ps)) (ly_in L) Y).
  { intros i L ps E. destruct (bnet_node_inv ke sp bo net i L ps E) as (q & En & ->). destruct q as [L'|].
    - destruct (bnet_unary sp bo net Hnet Hlay i L' ps En) as (p & -> & Ein). destruct (Hnet i (Some L') [p] En) as [Hp _]. specialize (Hp p (or_introl eq_refl)).
      assert (Hpl : (p < length net)%nat) by (assert (i < length net)%nat by (apply nth_error_Some; congruence); lia).
      destruct (Hnod p Hpl) as [Hd1 Hd2]. cbn [blayer_of backward_layer ly_in]. rewrite Ein. cbn [nth sp_n sp]. split; [exact Hd1|].
      intros y j (y0 & Hy & ->) Hj. cbn [prev]. rewrite (Hag y0 p Hpl j Hj). apply Hd2; auto.
    - destruct (Hnet i None ps En) as [_ ->]. cbn. split; [exact HnW|]. intros y j (y0 & Hy & ->) Hj. apply HS; auto. }
  assert (Heo : forall i, Eout dr A K i <= (fst (crown_state om (firstn (Datatypes.S i) net)) + snd (crown_state om (firstn (Datatypes.S i) net))) * u + dr).
  { intros i. unfold Eout, A, K. lra. }
  assert (Hblay : forall i L ps, nth_error g i = Some (L, ps) ->
    exists le G, 0 <= le /\ 0 <= G /\ bwd_near sp L (rin dr e0 A K ps) le G (bfs net i) /\
      match ps with
      | [p] => le + dr + (G + om) * A p <= A i /\ dr + om * A p + K p <= K i
      | _ => le + dr + (G + om) * e0 <= A i /\ 2 * dr + om * e0 <= K i
      end).
  { intros i L ps E. destruct (bnet_node_inv ke sp bo net i L ps E) as (q & En & ->). unfold bfs. rewrite En.
    destruct (state_pos om (firstn i net) Pom) as [P1 P2]. destruct q as [L'|].
    - destruct (bnet_unary sp bo net Hnet Hlay i L' ps En) as (p & -> & _). destruct (Hnet i (Some L') [p] En) as [Hp _]. specialize (Hp p (or_introl eq_refl)).
      destruct (Hlay i L' [p] En) as [Hok Hft]. destruct (PAK p) as [PA PK]. cbn [rin blayer_of].
      assert (He : 0 <= Eout dr A K p) by (unfold Eout; lra).
      destruct (bwd_layer_near ke sp (bo i) L' (Eout dr A K p) Hke Hn Hdok eq_refl Hok (Hpw i L' [p] En) Hft He) as (le & G & H1 & H2 & H3 & H4).
      exists le, G. split; [exact H1|]. split; [exact H2|]. split; [exact H4|].
      destruct (state_firstn om net (Datatypes.S p) i Pom ltac:(lia)) as [M1 M2].
      assert (EA : A i = (Rmax 1 (nl_gain L') * (fst (crown_state om (firstn i net)) + snd (crown_state om (firstn i net)) + 1) + 1 + om * fst (crown_state om (firstn i net))) * u).
      { unfold A. rewrite (firstn_S _ _ _ _ En), state_step. reflexivity. }
      assert (EK : K i = (snd (crown_state om (firstn i net)) + 1 + om * fst (crown_state om (firstn i net))) * u).
      { unfold K. rewrite (firstn_S _ _ _ _ En), state_step. reflexivity. }
      assert (QA : A p <= fst (crown_state om (firstn i net)) * u) by (unfold A; apply Rmult_le_compat_r; lra).
      assert (QK : K p <= snd (crown_state om (firstn i net)) * u) by (unfold K; apply Rmult_le_compat_r; lra).
      assert (QE : Eout dr A K p + ke <= (fst (crown_state om (firstn i net)) + snd (crown_state om (firstn i net)) + 1) * u) by (unfold Eout, u in *; lra).
      pose proof (Rmax_l 1 (nl_gain L')) as M.
      assert (Q1 : Rmax 1 (nl_gain L') * (Eout dr A K p + ke) <= Rmax 1 (nl_gain L') * ((fst (crown_state om (firstn i net)) + snd (crown_state om (firstn i net)) + 1) * u)) by (apply Rmult_le_compat_l; lra).
      assert (Q2 : om * A p <= om * (fst (crown_state om (firstn i net)) * u)) by (apply Rmult_le_compat_l; lra).
      assert (Q3 : G * A p <= G * Eout dr A K p) by (apply Rmult_le_compat_l; [lra|unfold Eout; lra]).
      assert (Q4 : dr <= u) by (unfold u; lra).
      rewrite EA, EK. split; lra.
    - destruct (Hnet i None ps En) as [_ ->]. cbn [rin blayer_of]. exists 0, 1. split; [lra|]. split; [lra|]. split; [eapply exact_near; [reflexivity|exact (identity_map n)|apply lip_id]|].
      destruct (state_pos om (firstn (Datatypes.S i) net) Pom) as [R1 R2].
      assert (Q1 : (2 + om) * u <= A i) by (unfold A; apply Rmult_le_compat_r; lra). assert (Q2 : (2 + om) * u <= K i) by (unfold K; apply Rmult_le_compat_r; lra).
      assert (Q4 : dr <= u) by (unfold u; lra). assert (om * e0 <= om * u) by (apply Rmult_le_compat_l; lra). split; lra. }
  assert (Hfw : forall f i L ps, c_fwd r = Some f -> nth_error g i = Some (L, ps) -> near_sp sp S (ly_out L) (Eout dr A K i) (net_fn net i) (f i)).
  { intros f i L ps Ef E. rewrite Ef in Hf. destruct (bnet_node_inv ke sp bo net i L ps E) as (q & En & ->).
    assert (Hil : (i < length net)%nat) by (apply nth_error_Some; congruence).
    pose proof (forward_run_near ke D n mode S opts net v d Y (c_inputs r) f Hke Hn HD Hnet Hval (Hflay ltac:(rewrite Ef; discriminate)) Hpw Hd HY (fun _ => HS) Vin' Hf i Hil) as V.
    rewrite (blayer_out ke sp bo net i q ps En). unfold near_sp. eapply near_weaken; [| |exact V].
    - pose proof (state_slack om (firstn (Datatypes.S i) net) Pom) as Q. pose proof (slack_from_pos 1 (firstn (Datatypes.S i) net) ltac:(lra)) as Q'. pose proof (HRd mode). unfold Eout, A, K.
      assert (slack_from 1 (firstn (Datatypes.S i) net) * (ke + d * reach mode n Y) <= slack_from 1 (firstn (Datatypes.S i) net) * u) by (apply Rmult_le_compat_l; unfold u; lra).
      assert (slack_from 1 (firstn (Datatypes.S i) net) * u <= (fst (crown_state om (firstn (Datatypes.S i) net)) + snd (crown_state om (firstn (Datatypes.S i) net))) * u) by (apply Rmult_le_compat_r; lra). lra.
    - intros y j _ Hj. symmetry. apply (Hag y i Hil j Hj). }
  assert (HT : forall i, tensors_near sp S g (c_nodes r) (net_fn net) dr e0 A K i).
  { apply (tensors_near_all sp S (c_inputs r) g (c_nodes r) (net_fn net) (bfs net) d Y om dr e0 W A K Hn HD) with (fwd := c_fwd r); auto; try lra.
    - intros Q. split; [exact (HB Q)|]. unfold e0. cbn in Q. rewrite Q. reflexivity.
    - apply (bnet_wf ke sp bo net Hnet Hlay).
    - apply (bnet_no_merge ke sp bo net Hnet Hlay).
    - apply (bnet_models ke sp bo net).
    - apply (bfs_value ke sp bo net Hnet Hlay).
    - unfold om. lra.
    - unfold dr. lra. }
  destruct (nth_error net o) as [[q ps]|] eqn:En; [|apply nth_error_None in En; lia].
  pose proof (bnet_node ke sp bo net o q ps En) as Eg.
  assert (VL : near_sp sp S (ly_out (blayer_of ke sp bo o q)) (Eout dr A K o) (net_fn net o) (c_last r)).
  { apply (rnode_near sp S (c_inputs r) g (c_nodes r) (net_fn net) (bfs net) d Y om dr e0 W A K Hn HD) with (ps := ps); auto; try lra.
    - intros Q. split; [exact (HB Q)|]. unfold e0. cbn in Q. rewrite Q. reflexivity.
    - apply (bnet_wf ke sp bo net Hnet Hlay).
    - apply (bnet_models ke sp bo net).
    - apply (bfs_value ke sp bo net Hnet Hlay).
    - unfold om. lra.
    - unfold dr. lra. }
  rewrite (blayer_out ke sp bo net o q ps En) in VL. unfold near_sp in VL. cbn [sp_dom sp_mode sp_n sp] in VL.
  assert (PE : dr <= Eout dr A K o) by (unfold Eout; destruct (PAK o); lra).
  destruct (last_near D n mode final S (net_dim n net o) (Eout dr A K o) (net_fn net o) (c_inputs r) (c_last r) Hn HD HB) as (out & Eo & Vo).
  { eapply near_weaken; [| |exact Vin]; [|reflexivity]. unfold e0. destruct mode; lra. }
  { exact VL. }
  pose proof (near_close D final S n _ _ d Y _ out (c_out r) Hd HY (fun _ => HS) Vo (Hout out Eo)) as V.
  eapply near_weaken; [| |exact V].
  - pose proof (HRd final). specialize (Heo o). unfold crown_error. fold om dr u. destruct (state_firstn om net (Datatypes.S o) (length net) Pom ltac:(lia)) as [M1 M2]. rewrite firstn_all in M1, M2.
    assert ((fst (crown_state om (firstn (Datatypes.S o) net)) + snd (crown_state om (firstn (Datatypes.S o) net))) * u <= (fst (crown_state om net) + snd (crown_state om net)) * u) by (apply Rmult_le_compat_r; lra).
    assert (dr <= u) by (unfold u; lra). lra.
  - intros y j _ Hj. apply (Hag y o Ho j Hj).
Qed.
