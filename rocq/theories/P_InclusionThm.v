(** Isotonicity of the constant bounds of converted networks: theorems, limits and examples. *)
From Coq Require Import Reals Lra Lia Psatz List Arith Bool ZArith Permutation.
From Verif Require Import RLib Spec Spec_Layers Spec_Backward Spec_Convert Spec_Network Spec_Inclusion M_Core M_Utils M_MergeLayers M_Ops M_Layers M_Pool M_Crown M_Convert M_Network Spec_Near.
From Verif Require Import P_Core P_Merge P_Utils P_MergeLayers P_Axis P_Ops P_Layers P_Move P_Graph P_Convert P_ConvertThm P_Network P_NetworkSpec P_NetworkForward P_NetworkThm P_Near P_NearThm P_BackwardMore P_Inclusion.
From Verif Require Import Spec_Network.
Import ListNotations.
Local Open Scope R_scope.

(** the constant bounds of the input are the extreme coordinates: they are inside those of a larger domain *)
Lemma input_ins : forall sp D D' n mode z z' its its', (0 < n)%nat -> norm_ok D -> norm_ok D' -> sp_mode sp = mode -> get_ibp mode = true -> dom_nonempty D n z ->
  (forall y, in_dom D n z y -> in_dom D' n z' y) ->
  get_input_tensors (Some D) mode n z = Ok its -> get_input_tensors (Some D') IBP n z' = Ok its' -> ins sp n its its'.
Proof.
  intros sp D D' n mode z z' its its' Hn HD HD' Hs Hm Hne Hsub E E'. unfold ins. rewrite Hs.
  destruct (input_tensors_ok D mode n z Hn (fun _ => HD)) as (ts & Et & [Lt _]). rewrite E in Et. injection Et as <-.
  destruct (input_tensors_ok D' IBP n z' Hn (fun _ => HD')) as (ts' & Et' & [Lt' V']). rewrite E' in Et'. injection Et' as <-.
  split; [exact Lt|]. split; [exact Lt'|].
  assert (Ur : exists r, unpack empty_tensor mode false its = Ok r) by (destruct (input_tensors_exact D mode n z its 0%nat Hn HD Hm Hne E Hn) as (r & Er & _); eauto).
  destruct Ur as [r Er]. destruct its' as [|u [|l [|]]]; try discriminate Lt'. cbn in V'.
  exists r. eexists. split; [exact Er|]. split; [reflexivity|]. intros j Hj. cbn [f_lc f_uc].
  destruct (input_tensors_exact D mode n z its j Hn HD Hm Hne E Hj) as (q & Eq & [_ (y & Hy & Ey)] & [_ (w & Hw & Ew)]). rewrite Er in Eq. injection Eq as <-.
  rewrite <- Ey, <- Ew. split; [apply (V' w j (Hsub w Hw) Hj)|apply (V' y j (Hsub y Hy) Hj)].
Qed.

Lemma dom_point : forall D n z, (0 < n)%nat -> norm_ok D -> dom_nonempty D n z -> exists y, in_dom D n z y.
Proof.
  intros D n z Hn HD Hne. destruct (input_tensors_ok D IBP n z Hn (fun _ => HD)) as (ts & E & _).
  destruct (input_tensors_exact D IBP n z ts 0%nat Hn HD eq_refl Hne E Hn) as (r & _ & [_ (y & Hy & _)] & _). exists y. exact Hy.
Qed.

(** forward-ibp: bounds on a domain are inside the bounds on a larger domain, for every network *)
Lemma ibp_isotone : forall ke D D' n z z' opts opts' net o,
  0 < ke -> (0 < n)%nat -> norm_ok D -> norm_ok D' -> dom_nonempty D n z -> (forall y, in_dom D n z y -> in_dom D' n z' y) ->
  net_ok n net -> layers_ok IBP opts net -> layers_ok IBP opts' net -> (forall i, lo_fast (opts' i) = lo_fast (opts i)) -> single_output net o ->
  exists ts ts', clone_forward D n IBP IBP (decomon_net ke (mk_spec false IBP D n) opts net) [o] z = Ok ts /\
    clone_forward D' n IBP IBP (decomon_net ke (mk_spec false IBP D' n) opts' net) [o] z' = Ok ts' /\
    inside IBP IBP (net_dim n net o) ts ts'.
Proof.
  intros ke D D' n z z' opts opts' net o Hke Hn HD HD' Hne Hsub Hnet Hlay Hlay' Hfast Ho.
  destruct (dom_point D n z Hn HD Hne) as (y0 & Hy0).
  set (sp := mk_spec false IBP D n). set (sp' := mk_spec false IBP D' n).
  assert (Hval : net_value net (net_fn net)).
  { apply (net_value_exists n net Hnet). intros i L ps E. exists IBP, (lo_fast (opts i)). apply (Hlay i L ps E). }
  destruct (input_tensors_ok D IBP n z Hn (fun _ => HD)) as (its & Ei & Vi). destruct (input_tensors_ok D' IBP n z' Hn (fun _ => HD')) as (its' & Ei' & Vi').
  destruct (net_eval ke sp opts net (net_fn net) Hke Hn Logic.I eq_refl Hnet Hval Hlay (in_dom D n z) its Vi (or_introl eq_refl) ltac:(intros; apply nl_ibp_gaps; reflexivity)) as (vs & Hev & Hs).
  destruct (net_eval ke sp' opts' net (net_fn net) Hke Hn Logic.I eq_refl Hnet Hval Hlay' (in_dom D' n z') its' Vi' (or_introl eq_refl) ltac:(intros; apply nl_ibp_gaps; reflexivity)) as (vs' & Hev' & Hs').
  assert (I : ins sp (net_dim n net o) (vs o) (vs' o)).
  { apply (net_ins ke sp sp' eq_refl eq_refl eq_refl eq_refl HD HD' opts opts' net its its' vs vs' Hn eq_refl Hnet); [|exact (input_ins sp D D' n IBP z z' its its' Hn HD HD' eq_refl eq_refl Hne Hsub Ei Ei')|exact Hev|exact Hev'|exact (proj1 Ho)].
    intros i L ps E. split; [apply (Hlay i L ps E)|]. split; [apply Hfast|]. split; [intros _; right; reflexivity|].
    intros _. exists (in_dom D n z), y0. split; [exact Hy0|]. intros p Hp. eexists. apply Hs. rewrite net_length by exact Hn.
    assert (i < length net)%nat by (apply nth_error_Some; congruence). lia. }
  destruct (convert2mode_sound D n IBP IBP _ _ _ (vs o) Hn Logic.I ltac:(reflexivity) (Hs o ltac:(rewrite net_length by exact Hn; exact (proj1 Ho)))) as (ts & Et & _).
  destruct (convert2mode_sound D' n IBP IBP _ _ _ (vs' o) Hn Logic.I ltac:(reflexivity) (Hs' o ltac:(rewrite net_length by exact Hn; exact (proj1 Ho)))) as (ts' & Et' & _).
  exists ts, ts'. unfold clone_forward. rewrite Ei, Ei'. cbn [bind]. change (fun _ : nat => None) with (@no_map tensor). fold sp sp'.
  rewrite (single_eval ke sp opts net its vs o Hn Hnet Ho Hev), (single_eval ke sp' opts' net its' vs' o Hn Hnet Ho Hev'). cbn [bind].
  split; [exact Et|]. split; [exact Et'|].
  apply (ins_inside sp eq_refl eq_refl HD _ (vs o) (vs' o) D n D' n IBP ts ts' eq_refl eq_refl (or_introl eq_refl) (fun H => H) I Et Et').
Qed.

(** forward-hybrid: the constant bounds are inside those of forward-ibp, for the layers where hybrid bounds hold (C64) *)
Lemma hybrid_inside : forall ke D D' n z z' opts opts' net o final,
  0 < ke -> (0 < n)%nat -> norm_ok D -> norm_ok D' -> dom_nonempty D n z -> (forall y, in_dom D n z y -> in_dom D' n z' y) ->
  final <> AFFINE -> net_ok n net -> layers_ok HYBRID opts net -> layers_ok IBP opts' net -> (forall i, lo_fast (opts' i) = lo_fast (opts i)) -> single_output net o ->
  (forall i L ps, nth_error net i = Some (Some L, ps) -> pooling_layer L -> lo_fast (opts i) = true) ->
  (forall its i L ps vs, get_input_tensors (Some D) HYBRID n z = Ok its -> nth_error net i = Some (Some L, ps) ->
     evaluates (firstn i (decomon_net ke (mk_spec false HYBRID D n) opts net)) no_map its vs ->
     nl_gaps ke (mk_spec false HYBRID D n) (opts i) L (concat (map vs ps))) ->
  exists ts ts', clone_forward D n HYBRID final (decomon_net ke (mk_spec false HYBRID D n) opts net) [o] z = Ok ts /\
    clone_forward D' n IBP IBP (decomon_net ke (mk_spec false IBP D' n) opts' net) [o] z' = Ok ts' /\
    inside final IBP (net_dim n net o) ts ts'.
Proof.
  intros ke D D' n z z' opts opts' net o final Hke Hn HD HD' Hne Hsub Hfin Hnet Hlay Hlay' Hfast Ho Hpool HP.
  destruct (dom_point D n z Hn HD Hne) as (y0 & Hy0).
  set (sp := mk_spec false HYBRID D n). set (sp' := mk_spec false IBP D' n).
  assert (Hval : net_value net (net_fn net)).
  { apply (net_value_exists n net Hnet). intros i L ps E. exists HYBRID, (lo_fast (opts i)). apply (Hlay i L ps E). }
  assert (Hdok : dom_ok D HYBRID) by exact HD.
  destruct (input_tensors_ok D HYBRID n z Hn (fun _ => HD)) as (its & Ei & Vi). destruct (input_tensors_ok D' IBP n z' Hn (fun _ => HD')) as (its' & Ei' & Vi').
  destruct (net_eval ke sp opts net (net_fn net) Hke Hn Hdok eq_refl Hnet Hval Hlay (in_dom D n z) its Vi (or_intror (ex_intro _ y0 Hy0)) (fun i L ps vs E He => HP its i L ps vs Ei E He)) as (vs & Hev & Hs).
  destruct (net_eval ke sp' opts' net (net_fn net) Hke Hn Logic.I eq_refl Hnet Hval Hlay' (in_dom D' n z') its' Vi' (or_introl eq_refl) ltac:(intros; apply nl_ibp_gaps; reflexivity)) as (vs' & Hev' & Hs').
  assert (I : ins sp (net_dim n net o) (vs o) (vs' o)).
  { apply (net_ins ke sp sp' eq_refl eq_refl eq_refl eq_refl HD HD' opts opts' net its its' vs vs' Hn eq_refl Hnet); [|exact (input_ins sp D D' n HYBRID z z' its its' Hn HD HD' eq_refl eq_refl Hne Hsub Ei Ei')|exact Hev|exact Hev'|exact (proj1 Ho)].
    intros i L ps E. split; [apply (Hlay i L ps E)|]. split; [apply Hfast|]. split; [intros Q; left; exact (Hpool i L ps E Q)|].
    intros _. exists (in_dom D n z), y0. split; [exact Hy0|]. intros p Hp. eexists. apply Hs. rewrite net_length by exact Hn.
    assert (i < length net)%nat by (apply nth_error_Some; congruence). lia. }
  destruct (convert2mode_sound D n HYBRID final _ _ _ (vs o) Hn Hdok ltac:(discriminate) (Hs o ltac:(rewrite net_length by exact Hn; exact (proj1 Ho)))) as (ts & Et & _).
  destruct (convert2mode_sound D' n IBP IBP _ _ _ (vs' o) Hn Logic.I ltac:(reflexivity) (Hs' o ltac:(rewrite net_length by exact Hn; exact (proj1 Ho)))) as (ts' & Et' & _).
  exists ts, ts'. unfold clone_forward. rewrite Ei, Ei'. cbn [bind]. change (fun _ : nat => None) with (@no_map tensor). fold sp sp'.
  rewrite (single_eval ke sp opts net its vs o Hn Hnet Ho Hev), (single_eval ke sp' opts' net its' vs' o Hn Hnet Ho Hev'). cbn [bind].
  split; [exact Et|]. split; [exact Et'|].
  apply (ins_inside sp eq_refl eq_refl HD _ (vs o) (vs' o) D n D' n final ts ts' eq_refl eq_refl); [|discriminate|exact I|exact Et|exact Et'].
  destruct final; [left; reflexivity|contradiction|right; reflexivity].
Qed.

(** and for piecewise affine networks without condition on the bounds met on the way *)
Lemma hybrid_inside_pw : forall ke D D' n z z' opts opts' net o final,
  0 < ke -> (0 < n)%nat -> norm_ok D -> norm_ok D' -> dom_nonempty D n z -> (forall y, in_dom D n z y -> in_dom D' n z' y) ->
  final <> AFFINE -> net_ok n net -> layers_ok HYBRID opts net -> layers_ok IBP opts' net -> (forall i, lo_fast (opts' i) = lo_fast (opts i)) -> single_output net o ->
  (forall i L ps, nth_error net i = Some (Some L, ps) -> nl_piecewise L /\ (pooling_layer L -> lo_fast (opts i) = true)) ->
  exists ts ts', clone_forward D n HYBRID final (decomon_net ke (mk_spec false HYBRID D n) opts net) [o] z = Ok ts /\
    clone_forward D' n IBP IBP (decomon_net ke (mk_spec false IBP D' n) opts' net) [o] z' = Ok ts' /\
    inside final IBP (net_dim n net o) ts ts'.
Proof.
  intros ke D D' n z z' opts opts' net o final Hke Hn HD HD' Hne Hsub Hfin Hnet Hlay Hlay' Hfast Ho Hpw.
  set (sp := mk_spec false HYBRID D n). set (sp' := mk_spec false IBP D' n).
  assert (Hval : net_value net (net_fn net)).
  { apply (net_value_exists n net Hnet). intros i L ps E. exists HYBRID, (lo_fast (opts i)). apply (Hlay i L ps E). }
  assert (Hdok : dom_ok D HYBRID) by exact HD.
  destruct (input_tensors_ok D HYBRID n z Hn (fun _ => HD)) as (its & Ei & Vi). destruct (input_tensors_ok D' IBP n z' Hn (fun _ => HD')) as (its' & Ei' & Vi').
  pose proof Vi as Vn. apply valid_near in Vn.
  destruct (net_eval_near ke sp opts net (net_fn net) (in_dom D n z) its Hke Hn Hdok eq_refl Hnet Hval Hlay (fun i L ps E => proj1 (Hpw i L ps E)) Vn) as (vs & Hev & Hs).
  destruct (net_eval ke sp' opts' net (net_fn net) Hke Hn Logic.I eq_refl Hnet Hval Hlay' (in_dom D' n z') its' Vi' (or_introl eq_refl) ltac:(intros; apply nl_ibp_gaps; reflexivity)) as (vs' & Hev' & Hs').
  assert (I : ins sp (net_dim n net o) (vs o) (vs' o)).
  { apply (net_ins ke sp sp' eq_refl eq_refl eq_refl eq_refl HD HD' opts opts' net its its' vs vs' Hn eq_refl Hnet); [|exact (input_ins sp D D' n HYBRID z z' its its' Hn HD HD' eq_refl eq_refl Hne Hsub Ei Ei')|exact Hev|exact Hev'|exact (proj1 Ho)].
    intros i L ps E. split; [apply (Hlay i L ps E)|]. split; [apply Hfast|]. split; [intros Q; left; exact (proj2 (Hpw i L ps E) Q)|].
    intros Q. exfalso. destruct (Hpw i L ps E) as [W _]. destruct L; cbn in Q, W; contradiction. }
  destruct (convert2mode_near D n HYBRID final _ _ _ _ (vs o) Hn Hdok ltac:(discriminate) (Hs o (proj1 Ho))) as (ts & Et & _).
  destruct (convert2mode_sound D' n IBP IBP _ _ _ (vs' o) Hn Logic.I ltac:(reflexivity) (Hs' o ltac:(rewrite net_length by exact Hn; exact (proj1 Ho)))) as (ts' & Et' & _).
  exists ts, ts'. unfold clone_forward. rewrite Ei, Ei'. cbn [bind]. change (fun _ : nat => None) with (@no_map tensor). fold sp sp'.
  rewrite (single_eval ke sp opts net its vs o Hn Hnet Ho Hev), (single_eval ke sp' opts' net its' vs' o Hn Hnet Ho Hev'). cbn [bind].
  split; [exact Et|]. split; [exact Et'|].
  apply (ins_inside sp eq_refl eq_refl HD _ (vs o) (vs' o) D n D' n final ts ts' eq_refl eq_refl); [|discriminate|exact I|exact Et|exact Et'].
  destruct final; [left; reflexivity|contradiction|right; reflexivity].
Qed.

(** ** limits *)
Definition seg (a b : R) : tensor := fun c _ => if Nat.eqb c 0 then a else b.
Definition pick3 (a b c : R) : vec := fun j => match j with 0%nat => a | 1%nat => b | _ => c end.
(** relu (x) + relu (x + 5) + relu (5 - x) *)
Definition sum_net : network :=
  [(None, []); (Some (NDense 1 1 3 (fun _ => pick3 1 1 (-1)) (Some (pick3 0 5 5))), [0%nat]); (Some (NActivation Arelu 3), [1%nat]);
   (Some (NDense 1 3 1 (fun _ _ => 1) None), [2%nat])].
Definition pool_net : network := [(None, []); (Some (NMaxPool (mk_geo true (mk_win 1 1 1 1 false) (mk_win 2 2 1 1 false) 1 1)), [0%nat])].
Definition plain_o (fast : bool) : nat -> lopts := fun _ => mk_opts V_SLOPE None fast.

Ltac rdec := repeat match goal with |- context [Rlt_dec ?a ?b] => destruct (Rlt_dec a b); try (exfalso; lra) | |- context [Rle_dec ?a ?b] => destruct (Rle_dec a b); try (exfalso; lra) end.

Lemma hull_up : forall ke u l, 0 < ke <= u - l -> l < 0 -> 0 < u -> u + l > 0 -> hull_relu ke V_SLOPE None u l = mk_hull (u / (u - l)) (- (u / (u - l)) * l) 1 0.
Proof.
  intros ke u l H Hl Hu Hs. unfold hull_relu. rewrite index_dead_0, index_linear_0 by auto. rewrite (Rmax_right ke) by lra. unfold Rrelu. rewrite (Rmax_left u), (Rmax_right l) by lra.
  rewrite Rsgn_pos by lra. unfold Rclip. f_equal; rminmax; lra.
Qed.
Lemma hull_down : forall ke u l, 0 < ke <= u - l -> l < 0 -> 0 < u -> u + l < 0 -> hull_relu ke V_SLOPE None u l = mk_hull (u / (u - l)) (- (u / (u - l)) * l) 0 0.
Proof.
  intros ke u l H Hl Hu Hs. unfold hull_relu. rewrite index_dead_0, index_linear_0 by auto. rewrite (Rmax_right ke) by lra. unfold Rrelu. rewrite (Rmax_left u), (Rmax_right l) by lra.
  rewrite Rsgn_neg by lra. unfold Rclip. f_equal; rminmax; lra.
Qed.

Ltac hulls ke := repeat match goal with |- context [hull_relu ke V_SLOPE None ?u ?l] =>
    let h := fresh "h" in let E := fresh "E" in remember (hull_relu ke V_SLOPE None u l) as h eqn:E;
    repeat (match type of E with
    | context [Rmax ?a ?b] => first [rewrite (Rmax_left a b) in E by lra | rewrite (Rmax_right a b) in E by lra]
    | context [Rmin ?a ?b] => first [rewrite (Rmin_left a b) in E by lra | rewrite (Rmin_right a b) in E by lra] end);
    first [rewrite hull_relu_linear in E by lra | rewrite hull_up in E by lra | rewrite hull_down in E by lra]; subst h end.
Ltac run := cbv -[Rmax Rmin Rplus Rmult Rminus Ropp IZR Rlt Rle Rdiv Rinv Req_EM_T hull_relu]; repeat (destruct (Req_EM_T 0 0) as [_|?]; [|congruence]); reflexivity.
Ltac open_net := cbv -[Rmax Rmin Rplus Rmult Rminus Ropp IZR Rlt Rle Rdiv Rinv hull_relu].

Lemma affine_not_isotone : forall ke, 0 < ke <= 1 -> exists u l u' l',
  clone_forward Box 1 AFFINE IBP (decomon_net ke (mk_spec false AFFINE Box 1) (plain_o true) relu_net) [1%nat] (seg (-1) 2) = Ok [u; l] /\
  clone_forward Box 1 AFFINE IBP (decomon_net ke (mk_spec false AFFINE Box 1) (plain_o true) relu_net) [1%nat] (seg (-3) 2) = Ok [u'; l'] /\
  l 0%nat 0%nat = -1 /\ l' 0%nat 0%nat = 0.
Proof.
  intros ke Hke. do 4 eexists. split; [run|]. split; [run|]. open_net. hulls ke. rminmax. lra.
Qed.



(** ** cases *)
Definition cube (a : R) : tensor := fun c _ => if Nat.eqb c 0 then - a else a.
Lemma image_inside : forall ke a b kernel bias gamma mean dense opts, 0 < ke -> 0 <= a <= b -> (forall i, plain (opts i)) -> exists ts ts',
  let g := decomon_net ke (mk_spec false IBP Box 9) opts (image_net kernel bias gamma mean dense) in
  clone_forward Box 9 IBP IBP g [8%nat] (cube a) = Ok ts /\ clone_forward Box 9 IBP IBP g [8%nat] (cube b) = Ok ts' /\ inside IBP IBP 3 ts ts'.
Proof.
  intros ke a b kernel bias gamma mean dense opts Hke Hab Ho. apply (ibp_isotone ke Box Box 9 (cube a) (cube b) opts opts (image_net kernel bias gamma mean dense) 8); auto.
  - lia.
  - exact I.
  - exact I.
  - intros i Hi. cbn. lra.
  - intros y Hy i Hi. specialize (Hy i Hi). cbn in *. lra.
  - apply image_net_ok.
  - apply image_layers_ok, Ho.
  - apply image_layers_ok, Ho.
  - apply image_output.
Qed.

(** a ball of radius eps in the maximum norm or the euclidean norm, in a box *)
Lemma ball_in_box : forall ke eps kernel bias gamma mean dense opts, 0 < ke -> 0 <= eps -> (forall i, plain (opts i)) -> exists ts ts',
  clone_forward (Ball eps Pinf) 9 IBP IBP (decomon_net ke (mk_spec false IBP (Ball eps Pinf) 9) opts (image_net kernel bias gamma mean dense)) [8%nat] (fun _ _ => 0) = Ok ts /\
  clone_forward Box 9 IBP IBP (decomon_net ke (mk_spec false IBP Box 9) opts (image_net kernel bias gamma mean dense)) [8%nat] (cube eps) = Ok ts' /\ inside IBP IBP 3 ts ts'.
Proof.
  intros ke eps kernel bias gamma mean dense opts Hke He Ho. apply (ibp_isotone ke (Ball eps Pinf) Box 9 (fun _ _ => 0) (cube eps) opts opts (image_net kernel bias gamma mean dense) 8); auto.
  - lia.
  - exact I.
  - exact I.
  - intros y Hy i Hi. specialize (Hy i Hi). unfold cube. cbn [Nat.eqb]. unfold Rabs in Hy. destruct (Rcase_abs (y i - 0)); lra.
  - apply image_net_ok.
  - apply image_layers_ok, Ho.
  - apply image_layers_ok, Ho.
  - apply image_output.
Qed.

(** hybrid bounds of a piecewise affine network *)
Lemma sum_inside : forall ke a b final, 0 < ke -> a <= b -> final <> AFFINE -> exists ts ts',
  clone_forward Box 1 HYBRID final (decomon_net ke (mk_spec false HYBRID Box 1) (plain_o true) sum_net) [3%nat] (seg a b) = Ok ts /\
  clone_forward Box 1 IBP IBP (decomon_net ke (mk_spec false IBP Box 1) (plain_o true) sum_net) [3%nat] (seg a b) = Ok ts' /\ inside final IBP 1 ts ts'.
Proof.
  intros ke a b final Hke Hab Hf.
  assert (HL : forall mode, layers_ok mode (plain_o true) sum_net).
  { intros mode i L ps E. unfold sum_net in E. each_node E; (split; [cbn; try lia; auto|exact I]). }
  apply (hybrid_inside_pw ke Box Box 1 (seg a b) (seg a b) (plain_o true) (plain_o true) sum_net 3); auto.
  - exact I.
  - exact I.
  - intros i Hi. cbn. exact Hab.
  - intros i o ps E. unfold sum_net in E. each_node E; (split; [intros p Hp; cbn in Hp; lia|]); try reflexivity; (split; [discriminate|reflexivity]).
  - split; [cbn; lia|]. intros j Hj. cbn in Hj.
    assert (H3 : leads_to (map snd sum_net) 3 3) by constructor. assert (H2 : leads_to (map snd sum_net) 3 2) by (step 3%nat; assumption).
    assert (H1 : leads_to (map snd sum_net) 3 1) by (step 2%nat; assumption). assert (H0 : leads_to (map snd sum_net) 3 0) by (step 1%nat; assumption).
    destruct j as [|[|[|[|]]]]; auto; lia.
  - intros i L ps E. unfold sum_net in E. each_node E; cbn; auto.
Qed.
