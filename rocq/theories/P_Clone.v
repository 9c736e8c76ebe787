(** C67: the functions of wrapper.py on the clone of a network. *)
From Coq Require Import String Reals Lra Lia List Arith Bool ZArith.
From Verif Require Import RLib Spec Spec_Network Spec_Wrapper M_Core M_Backward M_Crown M_Convert M_Network M_Domain M_Wrapper M_Clone.
From Verif Require Import P_Core P_Graph P_Crown P_Convert P_Network P_NetworkSpec P_NetworkCrown P_Domain P_Wrapper P_WrapperAdvBox P_WrapperBox P_WrapperNoise.
Import ListNotations.
Local Open Scope R_scope.

(** what the method asks of the layers and of the domain *)
Definition clone_fits (D : domain) (m : method) (mode final : fmode) (fwd : nat -> lopts) (bwd : nat -> bopts) (net : network) : Prop :=
  match m with
  | FORWARD_IBP | FORWARD_AFFINE | FORWARD_HYBRID => (mode = IBP -> final = IBP) /\ layers_ok mode fwd net
  | CROWN => (mode = IBP -> D = Box) /\ blayers_ok bwd net
  | _ => (mode = IBP -> D = Box) /\ blayers_ok bwd net /\ layers_ok mode fwd net
  end.
(** no interval narrower than epsilon during the conversion (nl_gaps, bl_gaps) *)
Definition forward_gaps (ke : R) (D : domain) (mode : fmode) (fwd : nat -> lopts) (n : nat) (net : network) (z : tensor) : Prop :=
  forall its i L ps vs, get_input_tensors (Some D) mode n z = Ok its -> nth_error net i = Some (Some L, ps) ->
    evaluates (firstn i (decomon_net ke (mk_spec false mode D n) fwd net)) no_map its vs ->
    nl_gaps ke (mk_spec false mode D n) (fwd i) L (concat (map vs ps)).
Definition backward_gaps (ke : R) (D : domain) (mode : fmode) (om : list tensor -> omap tensor -> Prop) (bwd : nat -> bopts) (n : nat) (net : network) (z : tensor) : Prop :=
  forall its m i L ps imap ts, get_input_tensors (Some D) mode n z = Ok its -> om its m -> nth_error net i = Some (Some L, ps) ->
    let g := backward_net ke (mk_spec false mode D n) bwd n net in
    get_input_nodes mode D n its m g (firstn i g) [] = Ok imap -> node_inputs mode D n its m g imap ps = Ok ts ->
    bl_gaps ke (mk_spec false mode D n) L ts.
Definition clone_gaps (ke : R) (D : domain) (m : method) (mode : fmode) (fwd : nat -> lopts) (bwd : nat -> bopts) (n : nat) (net : network) (z : tensor) : Prop :=
  match m with
  | FORWARD_IBP | FORWARD_AFFINE | FORWARD_HYBRID => forward_gaps ke D mode fwd n net z
  | CROWN => backward_gaps ke D mode (fun _ om => om = no_map) bwd n net z
  | _ => forward_gaps ke D mode fwd n net z /\
         backward_gaps ke D mode (fun its om => convert_nodes (decomon_net ke (mk_spec false mode D n) fwd net) no_map its = Ok om) bwd n net z
  end.

Lemma converted_sound : forall ke D m mode final fwd bwd n net o v z,
  0 < ke -> (0 < n)%nat -> norm_ok D -> net_ok n net -> net_value net v -> single_output net o -> (mode = IBP \/ exists y, in_dom D n z y) ->
  clone_fits D m mode final fwd bwd net -> clone_gaps ke D m mode fwd bwd n net z ->
  exists ts, converted ke D m mode final fwd bwd n net o z = Ok ts /\ valid D final false (in_dom D n z) n (net_dim n net o) (v o) ts.
Proof.
  intros ke D m mode final fwd bwd n net o v z Hke Hn HD Hnet Hv Ho He Hf Hg.
  assert (Hl : length (seq 0 (length net)) = length net) by apply seq_length.
  assert (Hd : NoDup (seq 0 (length net))) by apply seq_NoDup.
  unfold converted. destruct m; cbn [get_direction clone_fits clone_gaps] in *.
  - destruct Hf as [Hb HB]. apply net_clone_crown; auto. intros its i L ps imap ts Ei En g Eg Et. exact (Hg its no_map i L ps imap ts Ei eq_refl En Eg Et).
  - destruct Hf as (Hb & HB & HF), Hg as [Gf Gb]. apply net_clone_crown_forward; auto. intros its om i L ps imap ts Ei En g Ec Eg Et. exact (Gb its om i L ps imap ts Ei Ec En Eg Et).
  - destruct Hf as (Hb & HB & HF), Hg as [Gf Gb]. apply net_clone_crown_forward; auto. intros its om i L ps imap ts Ei En g Ec Eg Et. exact (Gb its om i L ps imap ts Ei Ec En Eg Et).
  - destruct Hf as (Hb & HB & HF), Hg as [Gf Gb]. apply net_clone_crown_forward; auto. intros its om i L ps imap ts Ei En g Ec Eg Et. exact (Gb its om i L ps imap ts Ei Ec En Eg Et).
  - destruct Hf as [Hb HF]. apply net_clone; auto.
  - destruct Hf as [Hb HF]. apply net_clone; auto.
  - destruct Hf as [Hb HF]. apply net_clone; auto.
Qed.

(** ** The models built by clone *)

Definition final_some (fi fa : bool) : Prop := (fi || fa)%bool = true.
Lemma final_mode : forall fi fa, final_some fi fa ->
  (match fi, fa with true, true => Some HYBRID | false, true => Some AFFINE | true, false => Some IBP | false, false => None end) = Some (get_mode fi fa).
Proof. intros [] [] H; try reflexivity; discriminate H. Qed.

Lemma clone_sound : forall ke a n out net o v z m mode fi fa, let D := args_domain a in
  0 < ke -> (0 < n)%nat -> norm_ok D -> net_ok n net -> net_value net v -> single_output net o -> prodn out = net_dim n net o ->
  clone_flags (ca_method a) (ca_ibp a) (ca_affine a) = Ok (m, mode, (fi, fa)) -> final_some fi fa ->
  (mode = IBP \/ exists y, in_dom D n z y) -> clone_fits D m mode (get_mode fi fa) (ca_fwd a) (ca_bwd a) net -> clone_gaps ke D m mode (ca_fwd a) (ca_bwd a) n net z ->
  exists c ts, clone ke a n out net o = Ok c /\ wm_domain c = D /\ wm_bb c = false /\ wm_n c = n /\ wm_out c = out /\ wmode c = Some (get_mode fi fa) /\
    wm_predict c D z None = Ok ts /\ valid D (get_mode fi fa) false (in_dom D n z) n (wm_k c) (v o) ts.
Proof.
  intros ke a n out net o v z m mode fi fa D Hke Hn HD Hnet Hv Ho Hout Hfl Hfi He Hfit Hg.
  destruct (converted_sound ke D m mode (get_mode fi fa) (ca_fwd a) (ca_bwd a) n net o v z Hke Hn HD Hnet Hv Ho He Hfit Hg) as (ts & E & V).
  unfold clone. rewrite Hfl. cbn [bind]. eexists _, ts. split; [reflexivity|]. unfold wm_k, wmode. cbn [wm_domain wm_bb wm_n wm_out wm_ibp wm_affine wm_predict].
  rewrite domains_same, Hout. repeat split; auto; try apply V. exact (final_mode fi fa Hfi).
Qed.

(** the clone does not depend on the values it is called with *)
Lemma clone_value : forall ke a n out net o m mode fi fa, clone_flags (ca_method a) (ca_ibp a) (ca_affine a) = Ok (m, mode, (fi, fa)) ->
  clone ke a n out net o = Ok (mk_wmodel (args_domain a) fi fa false n out
    (fun D z _ => converted_domains ke D (args_domain a) m mode (get_mode fi fa) (ca_fwd a) (ca_bwd a) n net o z)).
Proof. intros ke a n out net o m mode fi fa H. unfold clone. rewrite H. reflexivity. Qed.

(** a network and its clone, with a box *)
Definition net_facts (ke : R) (n : nat) (out : list nat) (net : network) (o : nat) (v : nat -> vec -> vec) : Prop :=
  0 < ke /\ (0 < n)%nat /\ net_ok n net /\ net_value net v /\ single_output net o /\ prodn out = net_dim n net o.

Lemma clone_sound_on : forall ke a n out net o v p m mode fi fa,
  net_facts ke n out net o v -> args_domain a = Box ->
  clone_flags (ca_method a) (ca_ibp a) (ca_affine a) = Ok (m, mode, (fi, fa)) -> final_some fi fa ->
  (mode = IBP \/ exists y, in_sample n p y) -> clone_fits Box m mode (get_mode fi fa) (ca_fwd a) (ca_bwd a) net -> clone_gaps ke Box m mode (ca_fwd a) (ca_bwd a) n net (ztensor p) ->
  exists c, clone ke a n out net o = Ok c /\ is_box (wm_domain c) = true /\ wm_bb c = false /\ wm_n c = n /\ wm_out c = out /\ sound_on c (v o) p.
Proof.
  intros ke a n out net o v p m mode fi fa (Hke & Hn & Hnet & Hv & Ho & Hout) HD Hfl Hfi He Hfit Hg.
  destruct (clone_sound ke a n out net o v (ztensor p) m mode fi fa) as (c & ts & E & Ed & Eb & En & Eo & Em & Ep & V); auto; try (rewrite HD; auto; exact I).
  rewrite HD in *. exists c. split; [exact E|]. rewrite Ed. split; [reflexivity|]. split; [exact Eb|]. split; [exact En|]. split; [exact Eo|].
  exists (get_mode fi fa), ts, false. split; [exact Em|]. rewrite Ed, En. split; [exact Ep|exact V].
Qed.

(** ** From end to end *)

Lemma consistent_point : forall n xmin xmax b, boxes_ok n xmin xmax -> consistent n xmin xmax -> (b < alen xmin)%nat -> exists y, in_sample n (the_box xmin xmax b) y.
Proof. intros n xmin xmax b _ C Hb. exists (fun i => cell xmin b i). intros i Hi. specialize (C b i Hb Hi). unfold the_box, lvec; cbn [fst snd]. unfold cell in *. lra. Qed.

(** the method, the layers and the values seen during the conversion are fit for the boxes P *)
Definition clone_ready (ke : R) (a : clone_args) (n : nat) (net : network) (P : list R * list R -> Prop) : Prop :=
  exists m mode fi fa, args_domain a = Box /\ clone_flags (ca_method a) (ca_ibp a) (ca_affine a) = Ok (m, mode, (fi, fa)) /\ final_some fi fa /\
    clone_fits Box m mode (get_mode fi fa) (ca_fwd a) (ca_bwd a) net /\ forall p, P p -> clone_gaps ke Box m mode (ca_fwd a) (ca_bwd a) n net (ztensor p).

Lemma clone_sound_all : forall ke a n out net o v (P : list R * list R -> Prop),
  net_facts ke n out net o v -> clone_ready ke a n net P -> (forall p, P p -> exists y, in_sample n p y) ->
  exists c, clone ke a n out net o = Ok c /\ is_box (wm_domain c) = true /\ wm_bb c = false /\ wm_n c = n /\ wm_out c = out /\ forall p, P p -> sound_on c (v o) p.
Proof.
  intros ke a n out net o v P NF (m & mode & fi & fa & HD & Hfl & Hfi & Hfit & Hg) HP.
  pose proof (clone_value ke a n out net o m mode fi fa Hfl) as E. eexists. split; [exact E|]. rewrite HD in *. cbn [wm_domain wm_bb wm_n wm_out].
  repeat split. intros p Hp. destruct (clone_sound_on ke a n out net o v p m mode fi fa) as (c & Ec & _ & _ & _ & _ & S); auto.
  rewrite E in Ec. injection Ec as <-. exact S.
Qed.

Definition samples_of (xmin xmax : arr R) (p : list R * list R) : Prop := exists b, (b < alen xmin)%nat /\ p = the_box xmin xmax b.

Theorem net_adv_box : forall ke a n out net o v xmin xmax src tgt bs ns,
  net_facts ke n out net o v -> clone_ready ke a n net (samples_of xmin xmax) ->
  (0 < prodn out)%nat -> boxes_ok n xmin xmax -> consistent n xmin xmax -> mask_ok (alen xmin) (prodn out) src -> mask_opt (alen xmin) (prodn out) tgt -> small ns ->
  exists c r, clone ke a n out net o = Ok c /\ get_adv_box (Keras c) xmin xmax (LArr src) (option_map LArr tgt) bs ns = Ok r /\ length r = alen xmin /\
    forall b y, (b < alen xmin)%nat -> in_sample n (the_box xmin xmax b) y -> nth b r 0 < 0 -> no_attack (prodn out) (pair_of src tgt b) (v o) y.
Proof.
  intros ke a n out net o v xmin xmax src tgt bs ns NF CR K BO C M1 M2 NS.
  destruct (clone_sound_all ke a n out net o v (samples_of xmin xmax) NF CR) as (c & E & Ed & Eb & En & Eo & S).
  { intros p (b & Hb & ->). exact (consistent_point n xmin xmax b BO C Hb). }
  assert (Ek : wm_k c = prodn out) by (unfold wm_k; rewrite Eo; reflexivity).
  destruct (adv_box_sound (Keras c) (v o) xmin xmax src tgt bs ns) as (r & Er & Lr & H).
  - unfold adv_args. cbn [the_model]. rewrite Ek, En. repeat split; auto; try apply BO; apply M1.
  - exact Eb.
  - exact NS.
  - intros b Hb. apply S. exists b. auto.
  - exists c, r. split; [exact E|]. split; [exact Er|]. split; [exact Lr|]. intros b y Hb Hy Hr. cbn [the_model] in H. rewrite Ek, En in H. exact (proj2 (H b y Hb Hy) Hr).
Qed.

Theorem net_range_box : forall ke a n out net o v xmin xmax bs ns,
  net_facts ke n out net o v -> clone_ready ke a n net (samples_of xmin xmax) -> boxes_ok n xmin xmax -> consistent n xmin xmax -> small ns ->
  exists c u l, clone ke a n out net o = Ok c /\ get_range_box (Keras c) xmin xmax bs ns = Ok (u, l) /\ a_tail u = out /\ a_tail l = out /\ alen u = alen xmin /\ alen l = alen xmin /\
    forall b y j, (b < alen xmin)%nat -> in_sample n (the_box xmin xmax b) y -> (j < prodn out)%nat -> cell l b j <= v o y j <= cell u b j.
Proof.
  intros ke a n out net o v xmin xmax bs ns NF CR BO C NS.
  destruct (clone_sound_all ke a n out net o v (samples_of xmin xmax) NF CR) as (c & E & Ed & Eb & En & Eo & S).
  { intros p (b & Hb & ->). exact (consistent_point n xmin xmax b BO C Hb). }
  assert (Ek : wm_k c = prodn out) by (unfold wm_k; rewrite Eo; reflexivity).
  destruct (range_box_sound (Keras c) (v o) xmin xmax bs ns) as (u & l & Er & Tu & Tl & Lu & Ll & H); cbn [the_model] in *; rewrite ?En, ?Eo, ?Ek in *; auto.
  - intros b Hb. apply S. exists b. auto.
  - exists c, u, l. auto 10.
Qed.
