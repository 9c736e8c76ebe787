(** Proofs: how far a piecewise affine layer moves when its inputs move (C73). *)
From Coq Require Import Reals List Arith Bool ZArith Lia Lra Psatz Permutation.
From Verif Require Import RLib Spec Spec_Layers Spec_Backward Spec_Convert Spec_Near Spec_Rounding M_Core M_Utils M_MergeLayers M_Ops M_Layers M_Pool M_Backward M_Crown M_Convert M_Network M_Rounding.
From Verif Require Import P_Core P_Merge P_Utils P_MergeLayers P_Axis P_Ops P_Sort P_Layers P_Move P_Graph P_Convert P_ConvertThm P_Pool P_Network P_NetworkForward.
From Verif Require Import P_Near P_Rounding.
From Verif Require Import Spec_Network.
Import ListNotations.
Local Open Scope R_scope.

Definition vclose (m : nat) (e : R) (x y : vec) : Prop := forall j, (j < m)%nat -> Rabs (x j - y j) <= e.

Lemma vclose_both : forall m e x y j, vclose m e x y -> (j < m)%nat -> y j - e <= x j <= y j + e.
Proof. intros m e x y j H Hj. specialize (H j Hj). apply Rabs_both in H. lra. Qed.

Lemma Rabs_le2 : forall a b, - b <= a <= b -> Rabs a <= b.
Proof. intros a b H. apply Rabs_le. exact H. Qed.

Lemma lin_lip : forall m mo A Ap An K e x y, pn_encl m mo A Ap An -> pn_gain mo Ap An K -> 0 <= e -> vclose m e x y ->
  forall j, (j < mo)%nat -> Rabs (A x j - A y j) <= K * e.
Proof.
  intros m mo A Ap An K e x y HE HK He H j Hj.
  pose proof (HE x (fun i => y i + e) (fun i => y i - e) ltac:(intros i Hi; apply (vclose_both m e x y i H Hi)) j Hj) as Q.
  pose proof (HE y y y ltac:(intros; lra) j Hj) as Q0. destruct (HK y y e j He Hj). apply Rabs_le2. lra.
Qed.

Lemma sum_lip : forall e fs gs (j : nat), Forall2 (fun x y : vec => Rabs (x j - y j) <= e) fs gs ->
  Rabs (sum_list (map (fun x => x j) fs) - sum_list (map (fun y => y j) gs)) <= INR (length fs) * e.
Proof.
  intros e fs gs j H. unfold sum_list. induction H as [|x y fs gs H HF IH]; [cbn; rewrite Rminus_0_r, Rabs_R0; lra|].
  cbn [length]. rewrite S_INR. cbn [map fold_right]. apply Rabs_both in H. apply Rabs_both in IH. apply Rabs_le2. lra.
Qed.

Lemma max_lip : forall e fs gs (j : nat) a b, Rabs (a - b) <= e -> Forall2 (fun x y : vec => Rabs (x j - y j) <= e) fs gs ->
  Rabs (max_list a (map (fun x => x j) fs) - max_list b (map (fun y => y j) gs)) <= e.
Proof.
  intros e fs gs j a b H HF. unfold max_list. revert a b H. induction HF as [|x y fs gs H HF IH]; intros a b Hab; [exact Hab|]. cbn [map fold_left]. apply IH.
  apply Rabs_both in H. apply Rabs_both in Hab. apply Rabs_le2. rcases.
Qed.
Lemma min_lip : forall e fs gs (j : nat) a b, Rabs (a - b) <= e -> Forall2 (fun x y : vec => Rabs (x j - y j) <= e) fs gs ->
  Rabs (min_list a (map (fun x => x j) fs) - min_list b (map (fun y => y j) gs)) <= e.
Proof.
  intros e fs gs j a b H HF. unfold min_list. revert a b H. induction HF as [|x y fs gs H HF IH]; intros a b Hab; [exact Hab|]. cbn [map fold_left]. apply IH.
  apply Rabs_both in H. apply Rabs_both in Hab. apply Rabs_le2. rcases.
Qed.

Lemma repeat_close : forall m k e xs ys j, length xs = k -> length ys = k -> (j < m)%nat ->
  (forall t d x y, nth_error (repeat m k) t = Some d -> nth_error xs t = Some x -> nth_error ys t = Some y -> vclose d e x y) ->
  Forall2 (fun x y : vec => Rabs (x j - y j) <= e) xs ys.
Proof.
  intros m k. induction k as [|k IH]; intros e xs ys j Hx Hy Hj H; destruct xs as [|x xs], ys as [|y ys]; try discriminate; [constructor|].
  cbn in Hx, Hy. constructor.
  - apply (H 0%nat m x y eq_refl eq_refl eq_refl j Hj).
  - apply IH; try lia. intros t d x' y' E1 E2 E3. apply (H (Datatypes.S t) d x' y' E1 E2 E3).
Qed.

Lemma gain_one : forall G e, 0 <= e -> e <= Rmax 1 G * e.
Proof. intros. pose proof (Rmax_l 1 G). nra. Qed.
Lemma gain_self : forall G e, 0 <= e -> G * e <= Rmax 1 G * e.
Proof. intros. pose proof (Rmax_r 1 G). nra. Qed.

Lemma layer_lip : forall mode fast L e xs ys r r', nl_piecewise L -> nl_ok mode fast L -> 0 <= e ->
  length xs = length (nl_in L) -> length ys = length (nl_in L) ->
  (forall t d x y, nth_error (nl_in L) t = Some d -> nth_error xs t = Some x -> nth_error ys t = Some y -> vclose d e x y) ->
  computes L xs r -> computes L ys r' -> vclose (nl_out L) (Rmax 1 (nl_gain L) * e) r r'.
Proof.
  intros mode fast L e xs ys r r' Hpw Hok He Hx Hy H Hr Hr' j Hj.
  destruct L; cbn [nl_in nl_out nl_ok nl_gain nl_piecewise] in *; try contradiction.
  (* one input *)
  all: try (destruct xs as [|x [|]]; try discriminate Hx; destruct ys as [|y [|]]; try discriminate Hy; match type of Hx with length [_] = _ => idtac end;
            pose proof (H 0%nat _ x y eq_refl eq_refl eq_refl) as C; cbn [computes] in Hr, Hr').
  - (* dense *)
    assert (Hp : (j / units < rows)%nat) by (apply Nat.div_lt_upper_bound; lia).
    assert (Hu : (j mod units < units)%nat) by (apply Nat.mod_upper_bound; lia).
    specialize (Hr (j / units)%nat (j mod units)%nat Hp Hu). specialize (Hr' (j / units)%nat (j mod units)%nat Hp Hu).
    replace (j / units * units + j mod units)%nat with j in Hr, Hr' by (rewrite (Nat.div_mod_eq j units) at 1; lia).
    rewrite Hr, Hr'. pose proof (lin_lip _ _ _ _ _ _ e x y (kdot_encl rows d units kernel Hok) (kdot_gain rows d units kernel Hok) He C j Hj) as Q.
    unfold kdotv in Q. match goal with |- Rabs ?a <= _ => match type of Q with Rabs ?b <= _ => replace a with b by ring end end.
    eapply Rle_trans; [exact Q|]. apply gain_self. exact He.
  - (* conv *)
    rewrite (Hr j Hj), (Hr' j Hj). unfold keras_conv2d.
    pose proof (lin_lip _ _ _ _ _ _ e x y (conv_encl g kernel) (conv_pn_gain g kernel) He C j Hj) as Q.
    match goal with |- Rabs ?a <= _ => match type of Q with Rabs ?b <= _ => replace a with b by ring end end.
    eapply Rle_trans; [exact Q|]. apply gain_self. exact He.
  - (* batch normalization *)
    destruct Hok as [Hv _]. destruct (position_split_mid _ _ _ _ Hj) as (p & c & q & Ip & Hc & Iq & ->).
    rewrite (Hr p c q Ip Iq Hc), (Hr' p c q Ip Iq Hc). pose proof (C _ Hj) as Q.
    set (i := ravel (pre ++ k :: post) (p ++ c :: q)) in *. set (s := sqrt (var c + eps)). assert (Hs : 0 < s) by (apply sqrt_lt_R0; auto).
    match goal with |- Rabs ?a <= _ => replace a with (opt_vec 1 gamma c / s * (x i - y i)) by (field; lra) end.
    rewrite Rabs_mult. assert (E : Rabs (opt_vec 1 gamma c / s) = Rabs (opt_vec 1 gamma c) / s).
    { unfold Rdiv. rewrite Rabs_mult, (Rabs_pos_eq (/ s)); [reflexivity|]. left. apply Rinv_0_lt_compat. exact Hs. }
    rewrite E. eapply Rle_trans; [|apply gain_self; exact He]. apply Rmult_le_compat; [|apply Rabs_pos| |exact Q].
    + apply Rmult_le_pos; [apply Rabs_pos|left; apply Rinv_0_lt_compat; exact Hs].
    + apply (rsum_ge_term k (fun c => Rabs (opt_vec 1 gamma c) / sqrt (var c + eps)) c); [|exact Hc]. intros i0 Hi.
      apply Rmult_le_pos; [apply Rabs_pos|]. left. apply Rinv_0_lt_compat, sqrt_lt_R0. auto.
  - (* flatten *)
    eapply Rle_trans; [|apply gain_one; exact He]. destruct channels_first.
    + assert (ch <> 0)%nat by (intros ->; cbn in Hj; lia).
      assert (Hq : (j / ch < size)%nat) by (apply Nat.div_lt_upper_bound; lia).
      assert (Hc : (j mod ch < ch)%nat) by (apply Nat.mod_upper_bound; lia).
      specialize (Hr (j mod ch)%nat (j / ch)%nat Hc Hq). specialize (Hr' (j mod ch)%nat (j / ch)%nat Hc Hq).
      replace (j / ch * ch + j mod ch)%nat with j in Hr, Hr' by (rewrite (Nat.div_mod_eq j ch) at 1; lia).
      rewrite Hr, Hr'. apply C. nia.
    + rewrite Hr, Hr' by exact Hj. apply C. exact Hj.
  - rewrite Hr, Hr' by exact Hj. eapply Rle_trans; [apply C; exact Hj|]. apply gain_one. exact He.
  - (* permute *)
    assert (HP' : Permutation (map pred dims) (seq 0 (length s))).
    { apply (Permutation_map pred) in Hok. rewrite <- seq_shift, map_map in Hok. cbn in Hok. rewrite map_id in Hok. auto. }
    destruct (transpose_split _ s j HP' Hj) as (p & I & ->). rewrite (Hr p I), (Hr' p I).
    eapply Rle_trans; [apply C; apply ravel_lt; exact I|]. apply gain_one. exact He.
  - rewrite Hr, Hr' by exact Hj. eapply Rle_trans; [apply C; exact Hj|]. apply gain_one. exact He.
  - (* activation *)
    rewrite Hr, Hr' by exact Hj. specialize (C j Hj). destruct Hpw as [-> | ->]; cbn [act_value] in *.
    + eapply Rle_trans; [exact C|]. apply gain_one. exact He.
    + rewrite (Rmax_right 1 2) by lra. apply Rabs_both in C. apply Rabs_le2. rcases.
  - (* max pooling *)
    rewrite Hr, Hr' by exact Hj. destruct Hok as [Hch _].
    assert (P : forall i, In i (pool_px g j) -> (i < im_size (cg_in g))%nat).
    { intros i Hi. apply pool_px_in in Hi. destruct Hi as (ky & kx & _ & _ & Hi).
      assert (Hc : (im_ch (cg_out g) j < cg_cin g)%nat) by (rewrite <- Hch; apply (im_ch_lt (cg_out g)); auto).
      apply (px_src_lt _ _ _ _ _ _ _ _ _ _ Hc Hi). }
    pose proof (max_pool_shift g x y j e He ltac:(intros i Hi; apply (vclose_both _ _ _ _ _ C (P i Hi)))) as Q1.
    pose proof (max_pool_shift g y x j e He ltac:(intros i Hi; pose proof (vclose_both _ _ _ _ _ C (P i Hi)); lra)) as Q2.
    pose proof (gain_one (6 ^ (wn_k (cg_y g) * wn_k (cg_x g))) e He). apply Rabs_le2. lra.
  - (* add *)
    rewrite repeat_length in Hx, Hy. cbn [computes] in Hr, Hr'. rewrite (Hr j Hj), (Hr' j Hj).
    eapply Rle_trans; [apply (sum_lip e); apply (repeat_close m k); auto|]. rewrite Hx. apply gain_self. exact He.
  - (* average *)
    rewrite repeat_length in Hx, Hy. cbn [computes] in Hr, Hr'. rewrite (Hr j Hj), (Hr' j Hj), Hx, Hy.
    assert (Hk : 0 < INR k) by (apply lt_0_INR; exact Hok).
    pose proof (sum_lip e xs ys j (repeat_close m k e xs ys j Hx Hy Hj H)) as Q. rewrite Hx in Q.
    match goal with |- Rabs (?a / _ - ?b / _) <= _ => replace (a / INR k - b / INR k) with ((a - b) * / INR k) by (field; lra) end.
    rewrite Rabs_mult, (Rabs_pos_eq (/ INR k)) by (left; apply Rinv_0_lt_compat; exact Hk).
    eapply Rle_trans; [|apply gain_one; exact He]. apply (Rmult_le_reg_r (INR k)); [exact Hk|]. rewrite Rmult_assoc, Rinv_l by lra. lra.
  - (* subtract *)
    destruct xs as [|x0 [|x1 [|]]]; try discriminate Hx. destruct ys as [|y0 [|y1 [|]]]; try discriminate Hy. cbn [computes] in Hr, Hr'. rewrite (Hr j Hj), (Hr' j Hj).
    pose proof (H 0%nat m x0 y0 eq_refl eq_refl eq_refl j Hj) as C0. pose proof (H 1%nat m x1 y1 eq_refl eq_refl eq_refl j Hj) as C1.
    rewrite (Rmax_right 1 2) by lra. apply Rabs_both in C0. apply Rabs_both in C1. apply Rabs_le2. lra.
  - (* maximum *)
    rewrite repeat_length in Hx, Hy. pose proof (repeat_close m k e xs ys j Hx Hy Hj H) as F. destruct xs as [|x xs]; [cbn in Hx; lia|]. destruct ys as [|y ys]; [cbn in Hy; lia|].
    cbn [computes] in Hr, Hr'. rewrite (Hr j Hj), (Hr' j Hj). inversion F; subst. eapply Rle_trans; [apply (max_lip e); assumption|]. apply gain_one. exact He.
  - (* minimum *)
    rewrite repeat_length in Hx, Hy. pose proof (repeat_close m k e xs ys j Hx Hy Hj H) as F. destruct xs as [|x xs]; [cbn in Hx; lia|]. destruct ys as [|y ys]; [cbn in Hy; lia|].
    cbn [computes] in Hr, Hr'. rewrite (Hr j Hj), (Hr' j Hj). inversion F; subst. eapply Rle_trans; [apply (min_lip e); assumption|]. apply gain_one. exact He.
  - (* concatenate *)
    cbn [computes] in Hr, Hr'. rewrite map_length in Hx, Hy. destruct (position_split_mid _ _ _ _ Hj) as (p & c0 & q & Ip & Hc & Iq & ->).
    destruct (locate_split ks c0 Hc) as (t & c & Ht & Hc' & ->).
    destruct (nth_error xs t) as [x|] eqn:Ex; [|apply nth_error_None in Ex; lia]. destruct (nth_error ys t) as [y|] eqn:Ey; [|apply nth_error_None in Ey; lia].
    rewrite (Hr t p c q x Ex Ip Iq Hc'), (Hr' t p c q y Ey Ip Iq Hc').
    assert (Ek : nth_error (map (fun k => prodn (pre ++ k :: post)) ks) t = Some (prodn (pre ++ nth t ks O :: post))).
    { rewrite nth_error_map, (nth_error_nth' ks O Ht). reflexivity. }
    eapply Rle_trans; [apply (H t _ x y Ek Ex Ey); apply position_mid_lt; auto|]. apply gain_one. exact He.
Qed.

(** the network evaluated with an error d at each layer *)
Lemma rounded_values_near : forall n mode opts net v y a d, net_ok n net -> net_value net v -> layers_ok mode opts net ->
  (forall i L ps, nth_error net i = Some (Some L, ps) -> nl_piecewise L) -> 0 <= d -> rounded_values net d y a ->
  forall i, (i < length net)%nat -> vclose (net_dim n net i) (net_slack (firstn (Datatypes.S i) net) * d) (a i) (v i y).
Proof.
  intros n mode opts net v y a d Hnet Hval Hlay Hpw Hd Ha i. induction i as [i IH] using lt_wf_ind. intros Hi.
  destruct (nth_error net i) as [[q ps]|] eqn:En; [|apply nth_error_None in En; lia].
  destruct (Hnet i q ps En) as [Hp Ho]. specialize (Ha i q ps En). specialize (Hval y i q ps En). rewrite (firstn_S _ _ _ _ En), slack_step. cbn [fst]. unfold net_dim at 1. rewrite En.
  pose proof (slack_pos (firstn i net)) as Hpos. destruct q as [L|].
  - destruct Ho as [Hps Hdim]. destruct (Hlay i L ps En) as [Hok _]. destruct Ha as (r & Cr & Hr).
    assert (Hlen : length ps = length (nl_in L)) by (rewrite <- Hdim, map_length; reflexivity).
    assert (Q : vclose (nl_out L) (Rmax 1 (nl_gain L) * (net_slack (firstn i net) * d)) r (v i y)).
    { apply (layer_lip mode (lo_fast (opts i)) L _ (map a ps) (map (fun p => v p y) ps)); auto; try (rewrite map_length; exact Hlen); [apply (Hpw i L ps En)|nra|].
      intros t m x x' E1 E2 E3. rewrite <- Hdim in E1. rewrite nth_error_map in E1, E2, E3. destruct (nth_error ps t) as [p|] eqn:Et; [|discriminate]. cbn in E1, E2, E3.
      injection E1 as <-. injection E2 as <-. injection E3 as <-. assert (Hpi : (p < i)%nat) by (apply Hp; eapply nth_error_In; exact Et).
      specialize (IH p Hpi ltac:(lia)). intros j Hj. eapply Rle_trans; [apply IH; exact Hj|]. apply Rmult_le_compat_r; [exact Hd|]. apply slack_firstn. lia. }
    intros j Hj. specialize (Q j Hj). specialize (Hr j Hj). apply Rabs_both in Q. apply Rabs_both in Hr. pose proof (Rmax_l 1 (nl_gain L)). apply Rabs_le2. nra.
  - intros j _. rewrite Ha, Hval. rewrite Rminus_diag_eq, Rabs_R0 by reflexivity. nra.
Qed.
