(** The layers of Spec_Network compute functions: an output exists, and depends only on the neurons of the inputs. *)
From Coq Require Import Reals List Arith Bool ZArith Lra Lia Psatz Sorting.Permutation.
From Verif Require Import RLib Spec Spec_Layers Spec_Backward Spec_Convert M_Layers P_Core P_Axis P_Sort P_Move P_Pool Spec_Network.
Import ListNotations.
Local Open Scope R_scope.

Definition dflt_vec : vec := fun _ => 0.
Definition arg (ys : list vec) (t : nat) : vec := nth t ys dflt_vec.

(** a function computed by the layer *)
Definition layer_fn (L : nlayer) (ys : list vec) : vec :=
  match L with
  | NDense rows d units kernel bias => keras_dense d units kernel (opt_vec 0 bias) (arg ys 0)
  | NConv2D g kernel bias => keras_conv2d g kernel (opt_vec 0 bias) (arg ys 0)
  | NBatchNorm pre k post _ gamma beta mean var eps => fun j =>
      let c := nth (length pre) (unravel (pre ++ k :: post) j) O in
      opt_vec 1 gamma c * (arg ys 0 j - mean c) / sqrt (var c + eps) + opt_vec 0 beta c
  | NFlatten cf ch size => fun j => if cf then arg ys 0 (j mod ch * size + j / ch)%nat else arg ys 0 j
  | NReshape _ | NDropout _ => arg ys 0
  | NPermute s dims => fun j => arg ys 0 (transpose_idx s (map pred dims) j)
  | NActivation a _ => fun j => act_value a (arg ys 0 j)
  | NMaxPool g => max_pool g (arg ys 0)
  | NAdd _ _ => fun j => sum_list (map (fun y => y j) ys)
  | NAverage _ _ => fun j => sum_list (map (fun y => y j) ys) / INR (length ys)
  | NSubtract _ => fun j => arg ys 0 j - arg ys 1 j
  | NMultiply _ _ => fun j => fold_right Rmult 1 (map (fun y => y j) ys)
  | NMaximum _ _ => fun j => match ys with y :: q => max_list (y j) (map (fun y => y j) q) | [] => 0 end
  | NMinimum _ _ => fun j => match ys with y :: q => min_list (y j) (map (fun y => y j) q) | [] => 0 end
  | NConcatenate pre post ks _ => fun j =>
      let ix := unravel (pre ++ total ks :: post) j in
      let '(t, c) := locate ks (nth (length pre) ix O) in
      arg ys t (ravel (pre ++ nth t ks O :: post) (firstn (length pre) ix ++ c :: skipn (Datatypes.S (length pre)) ix))
  | NDot pre0 post0 pre1 post1 k _ _ => fun j =>
      let ix := unravel ((pre0 ++ post0) ++ (pre1 ++ post1)) j in
      let a := firstn (length (pre0 ++ post0)) ix in
      let b := skipn (length (pre0 ++ post0)) ix in
      rsum k (fun c =>
        arg ys 0 (ravel (pre0 ++ k :: post0) (firstn (length pre0) a ++ c :: skipn (length pre0) a)) *
        arg ys 1 (ravel (pre1 ++ k :: post1) (firstn (length pre1) b ++ c :: skipn (length pre1) b)))
  end.

Lemma firstn_len : forall A (p q : list A) n, length p = n -> firstn n (p ++ q) = p.
Proof. intros A p q n <-. rewrite firstn_app, Nat.sub_diag, firstn_all. cbn. apply app_nil_r. Qed.
Lemma skipn_len : forall A (p q : list A) n, length p = n -> skipn n (p ++ q) = q.
Proof. intros A p q n <-. rewrite skipn_app, Nat.sub_diag, skipn_all. reflexivity. Qed.
Lemma nth_len : forall (p q : list nat) c n, length p = n -> nth n (p ++ c :: q) O = c.
Proof. intros p q c n <-. rewrite app_nth2 by lia. rewrite Nat.sub_diag. reflexivity. Qed.
Lemma skipn_len_S : forall A (p q : list A) c n, length p = n -> skipn (Datatypes.S n) (p ++ c :: q) = q.
Proof. intros A p q c n <-. rewrite skipn_app. rewrite skipn_all2 by lia. replace (Datatypes.S (length p) - length p)%nat with 1%nat by lia. reflexivity. Qed.

Lemma dims_perm : forall (s dims : list nat), Permutation dims (seq 1 (length s)) -> Permutation (map pred dims) (seq 0 (length s)).
Proof. intros s dims H. apply (Permutation_map pred) in H. rewrite <- seq_shift, map_map in H. cbn [pred] in H. rewrite map_id in H. exact H. Qed.

Lemma one_arg : forall (ys : list vec), length ys = 1%nat -> exists y, ys = [y].
Proof. intros [|y [|]] H; try discriminate H. eauto. Qed.
Lemma two_args : forall (ys : list vec), length ys = 2%nat -> exists y y', ys = [y; y'].
Proof. intros [|y [|y' [|]]] H; try discriminate H. eauto. Qed.

Lemma repeat_len : forall (ys : list vec) (m k : nat), (0 < k)%nat -> length ys = length (repeat m k) -> exists y q, ys = y :: q.
Proof. intros ys m k Hk H. rewrite repeat_length in H. destruct ys; [cbn in H; lia|eauto]. Qed.

Lemma computes_fn : forall mode fast L ys, nl_ok mode fast L -> length ys = length (nl_in L) -> computes L ys (layer_fn L ys).
Proof.
  intros mode fast L ys Hok Hl. destruct L; cbn [nl_in] in Hl; cbn [nl_ok] in Hok;
    try (destruct (one_arg ys Hl) as [y ->]); try (destruct (two_args ys Hl) as (y0 & y1 & ->)); unfold computes, layer_fn, arg; cbn [nth].
  - intros p u Hp Hu. unfold keras_dense. rewrite flat_div, flat_mod by exact Hu. reflexivity.
  - intros j _. reflexivity.
  - intros p c q Ip Iq Hc. assert (I : in_shape (pre ++ k :: post) (p ++ c :: q)) by (apply in_shape_app; auto; constructor; auto).
    rewrite (unravel_ravel _ _ I). rewrite (nth_len p q c (length pre)) by (symmetry; apply in_shape_length; exact Ip). reflexivity.
  - destruct channels_first.
    + intros c q Hc Hq. rewrite flat_div, flat_mod by exact Hc. reflexivity.
    + intros j _. reflexivity.
  - intros j _. reflexivity.
  - intros p Ip. rewrite transpose_at; [reflexivity|apply dims_perm; exact Hok|exact Ip].
  - intros j _. reflexivity.
  - intros j _. reflexivity.
  - intros j _. reflexivity.
  - destruct ys as [|? [|]]; intros j _; reflexivity.
  - destruct ys as [|? [|]]; intros j _; reflexivity.
  - intros j _. reflexivity.
  - destruct ys as [|? [|]]; intros j _; reflexivity.
  - destruct (repeat_len ys m k Hok Hl) as (y & q & ->). intros j _. reflexivity.
  - destruct (repeat_len ys m k Hok Hl) as (y & q & ->). intros j _. reflexivity.
  - assert (G : forall t p c q y, nth_error ys t = Some y -> in_shape pre p -> in_shape post q -> (c < nth t ks O)%nat ->
      layer_fn (NConcatenate pre post ks axis) ys (ravel (pre ++ total ks :: post) (p ++ (offset ks t + c)%nat :: q)) = y (ravel (pre ++ nth t ks O :: post) (p ++ c :: q))).
    { intros t p c q y Ey Ip Iq Hc. unfold layer_fn. cbv zeta.
      assert (Ht : (t < length ks)%nat) by (rewrite map_length in Hl; rewrite <- Hl; apply nth_error_Some; rewrite Ey; discriminate).
      assert (I : in_shape (pre ++ total ks :: post) (p ++ (offset ks t + c)%nat :: q)).
      { apply in_shape_app; auto. constructor; auto. apply offset_lt; auto. }
      pose proof (in_shape_length _ _ Ip) as Lp. symmetry in Lp.
      rewrite (unravel_ravel _ _ I), (nth_len p q _ _ Lp), (locate_offset ks t c Hc), (firstn_len _ p _ _ Lp), (skipn_len_S _ p q _ _ Lp).
      unfold arg. rewrite (nth_error_nth ys t _ Ey). reflexivity. }
    destruct ys as [|? [|]]; exact G.
  - intros p0 q0 p1 q1 I0 J0 I1 J1.
    assert (I : in_shape ((pre0 ++ post0) ++ pre1 ++ post1) ((p0 ++ q0) ++ p1 ++ q1)) by (repeat apply in_shape_app; auto).
    rewrite (unravel_ravel _ _ I). pose proof (in_shape_length _ _ I0). pose proof (in_shape_length _ _ J0). pose proof (in_shape_length _ _ I1).
    rewrite (firstn_len _ (p0 ++ q0)), (skipn_len _ (p0 ++ q0)) by (rewrite !app_length; lia).
    rewrite (firstn_len _ p0), (skipn_len _ p0), (firstn_len _ p1), (skipn_len _ p1) by lia. reflexivity.
Qed.

(** ** the output depends only on the neurons of the inputs *)
Definition agree (m : nat) (y y' : vec) : Prop := forall j, (j < m)%nat -> y j = y' j.

Lemma sum_agree : forall (ys ys' : list vec) m k j, Forall2 (fun m yy => agree m (fst yy) (snd yy)) (repeat m k) (combine ys ys') ->
  length ys = k -> length ys' = k -> (j < m)%nat -> map (fun y : vec => y j) ys = map (fun y : vec => y j) ys'.
Proof.
  induction ys as [|y ys IH]; intros [|y' ys'] m k j H E E' Hj; subst k; try discriminate E'; [reflexivity|].
  cbn in *. inversion H; subst. cbn in *. f_equal; [auto|]. apply (IH ys' m (length ys)); auto.
Qed.

Lemma conv_agree : forall g kernel bias y y' j, agree (im_size (cg_in g)) y y' -> keras_conv2d g kernel bias y j = keras_conv2d g kernel bias y' j.
Proof.
  intros g kernel bias y y' j H. unfold keras_conv2d, conv2d. cbv zeta. f_equal.
  apply rsum_ext. intros ky _. apply rsum_ext. intros kx _. apply rsum_ext. intros c Hc. f_equal. unfold px.
  destruct (px_src _ _ _ _ _ _ _ _ _) as [i|] eqn:E; [|reflexivity]. apply H. unfold im_size, cg_in. cbn. apply (px_src_lt _ _ _ _ _ _ _ _ _ _ Hc E).
Qed.

Lemma pool_agree : forall g y y' j, cg_cout g = cg_cin g -> (j < im_size (cg_out g))%nat -> agree (im_size (cg_in g)) y y' -> max_pool g y j = max_pool g y' j.
Proof.
  intros g y y' j Hc Hj H. unfold max_pool. assert (E : map y (pool_px g j) = map y' (pool_px g j)); [|rewrite E; reflexivity].
  apply map_ext_in. intros i Hi. apply H. unfold pool_px in Hi. apply in_flat_map in Hi. destruct Hi as (ky & _ & Hi). apply in_flat_map in Hi. destruct Hi as (kx & _ & Hi).
  destruct (px_src _ _ _ _ _ _ _ _ _) as [i'|] eqn:E; [|destruct Hi]. destruct Hi as [<-|[]]. unfold im_size, cg_in. cbn.
  refine (px_src_lt _ _ _ _ _ _ _ _ _ _ _ E). rewrite <- Hc. exact (im_ch_lt (cg_out g) j Hj).
Qed.

Lemma div_split : forall a b j, (j < a * b)%nat -> exists p u, (p < a)%nat /\ (u < b)%nat /\ j = (p * b + u)%nat.
Proof.
  intros a b j H. assert (Hb : (b <> 0)%nat) by (intros ->; lia). exists (j / b)%nat, (j mod b)%nat. split; [apply Nat.div_lt_upper_bound; lia|]. split; [apply Nat.mod_upper_bound; exact Hb|].
  rewrite (Nat.mul_comm (j / b) b). apply Nat.div_mod. exact Hb.
Qed.

Lemma nth_agree : forall ms (ys ys' : list vec) t y y', Forall2 (fun m yy => agree m (fst yy) (snd yy)) ms (combine ys ys') ->
  nth_error ys t = Some y -> nth_error ys' t = Some y' -> exists m, nth_error ms t = Some m /\ agree m y y'.
Proof.
  induction ms as [|m ms IH]; intros ys ys' t y y' H E E'.
  - inversion H as [Q|]. destruct ys as [|? ?]; [destruct t; discriminate E|]. destruct ys' as [|? ?]; [destruct t; discriminate E'|discriminate].
  - destruct ys as [|a ys]; [destruct t; discriminate E|]. destruct ys' as [|a' ys']; [destruct t; discriminate E'|].
    cbn [combine] in H. inversion H; subst. destruct t as [|t]; cbn [nth_error] in *.
    + injection E as ->. injection E' as ->. eauto.
    + eauto.
Qed.

Lemma add_def : forall m k ys r j, computes (NAdd m k) ys r -> (j < m)%nat -> r j = sum_list (map (fun y => y j) ys).
Proof. intros m k ys r j H Hj. destruct ys as [|? [|]]; exact (H j Hj). Qed.
Lemma average_def : forall m k ys r j, computes (NAverage m k) ys r -> (j < m)%nat -> r j = sum_list (map (fun y => y j) ys) / INR (length ys).
Proof. intros m k ys r j H Hj. destruct ys as [|? [|]]; exact (H j Hj). Qed.
Lemma multiply_def : forall m k ys r j, computes (NMultiply m k) ys r -> (j < m)%nat -> r j = fold_right Rmult 1 (map (fun y => y j) ys).
Proof. intros m k ys r j H Hj. destruct ys as [|? [|]]; exact (H j Hj). Qed.
Lemma maximum_def : forall m k y ys r j, computes (NMaximum m k) (y :: ys) r -> (j < m)%nat -> r j = max_list (y j) (map (fun y => y j) ys).
Proof. intros m k y ys r j H Hj. destruct ys as [|? [|]]; exact (H j Hj). Qed.
Lemma minimum_def : forall m k y ys r j, computes (NMinimum m k) (y :: ys) r -> (j < m)%nat -> r j = min_list (y j) (map (fun y => y j) ys).
Proof. intros m k y ys r j H Hj. destruct ys as [|? [|]]; exact (H j Hj). Qed.

Lemma computes_agree : forall mode fast L ys ys' r r', nl_ok mode fast L ->
  length ys = length (nl_in L) -> length ys' = length (nl_in L) ->
  Forall2 (fun m yy => agree m (fst yy) (snd yy)) (nl_in L) (combine ys ys') ->
  computes L ys r -> computes L ys' r' -> agree (nl_out L) r r'.
Proof.
  intros mode fast L ys ys' r r' Hok Hl Hl' HA Hr Hr' j Hj.
  destruct L; cbn [nl_in] in *; cbn [nl_ok] in Hok; cbn [nl_out] in Hj;
    try (destruct (one_arg ys Hl) as [y ->]; destruct (one_arg ys' Hl') as [y' ->]; cbn [combine] in HA; inversion HA as [|? ? ? ? A _]; subst; cbn [fst snd] in A);
    try (destruct (two_args ys Hl) as (y0 & y1 & ->); destruct (two_args ys' Hl') as (y0' & y1' & ->); cbn [combine] in HA;
      inversion HA as [|? ? ? ? A0 HA']; subst; inversion HA' as [|? ? ? ? A1 _]; subst; cbn [fst snd] in A0, A1);
    try (unfold computes in Hr, Hr'; match type of Hr with context [match ?l with _ => _ end] => fail 1 | _ => idtac end).
  - destruct (div_split _ _ _ Hj) as (p & u & Hp & Hu & ->). rewrite Hr, Hr' by auto. f_equal. apply rsum_ext. intros c Hc. rewrite (A (p * d + c)%nat) by nia. reflexivity.
  - rewrite Hr, Hr' by exact Hj. apply conv_agree. exact A.
  - destruct (position_split_mid _ _ _ _ Hj) as (p & c & q & Ip & Hc & Iq & ->). rewrite Hr, Hr' by auto. rewrite (A (ravel (pre ++ k :: post) (p ++ c :: q))) by (apply position_mid_lt; auto). reflexivity.
  - destruct channels_first.
    + rewrite Nat.mul_comm in Hj. destruct (div_split _ _ _ Hj) as (q & c & Hq & Hc & ->). rewrite Hr, Hr' by auto. apply A. nia.
    + rewrite Hr, Hr' by auto. apply A. exact Hj.
  - rewrite Hr, Hr' by auto. apply A. exact Hj.
  - destruct (transpose_split _ s j (dims_perm _ _ Hok) Hj) as (p & Ip & ->). rewrite Hr, Hr' by auto. apply A. apply ravel_lt. exact Ip.
  - rewrite Hr, Hr' by auto. apply A. exact Hj.
  - rewrite Hr, Hr' by auto. rewrite (A j Hj). reflexivity.
  - rewrite Hr, Hr' by auto. apply pool_agree; [tauto|exact Hj|exact A].
  - rewrite repeat_length in Hl, Hl'. pose proof (sum_agree ys ys' m k j HA Hl Hl' Hj) as E.
    rewrite (add_def m k _ _ _ Hr Hj), (add_def m k _ _ _ Hr' Hj). f_equal. exact E.
  - rewrite repeat_length in Hl, Hl'. pose proof (sum_agree ys ys' m k j HA Hl Hl' Hj) as E.
    assert (El : length ys = length ys') by congruence.
    rewrite (average_def m k _ _ _ Hr Hj), (average_def m k _ _ _ Hr' Hj), El. f_equal. f_equal. exact E.
  - rewrite Hr, Hr' by auto. rewrite (A0 j Hj), (A1 j Hj). reflexivity.
  - rewrite repeat_length in Hl, Hl'. pose proof (sum_agree ys ys' m k j HA Hl Hl' Hj) as E.
    rewrite (multiply_def m k _ _ _ Hr Hj), (multiply_def m k _ _ _ Hr' Hj). f_equal. exact E.
  - destruct (repeat_len ys m k Hok Hl) as (y & q & ->). destruct (repeat_len ys' m k Hok Hl') as (y' & q' & ->). rewrite repeat_length in Hl, Hl'.
    pose proof (sum_agree _ _ m k j HA Hl Hl' Hj) as E. cbn [map] in E. injection E as E0 E1.
    rewrite (maximum_def m k _ _ _ _ Hr Hj), (maximum_def m k _ _ _ _ Hr' Hj). f_equal; [exact E0|exact E1].
  - destruct (repeat_len ys m k Hok Hl) as (y & q & ->). destruct (repeat_len ys' m k Hok Hl') as (y' & q' & ->). rewrite repeat_length in Hl, Hl'.
    pose proof (sum_agree _ _ m k j HA Hl Hl' Hj) as E. cbn [map] in E. injection E as E0 E1.
    rewrite (minimum_def m k _ _ _ _ Hr Hj), (minimum_def m k _ _ _ _ Hr' Hj). f_equal; [exact E0|exact E1].
  - rewrite map_length in Hl, Hl'. destruct (position_split_mid _ _ _ _ Hj) as (p & c0 & q & Ip & Hc0 & Iq & ->). destruct (locate_split ks c0 Hc0) as (t & c & Ht & Hc & ->).
    destruct (nth_error ys t) as [y|] eqn:Ey; [|apply nth_error_None in Ey; lia]. destruct (nth_error ys' t) as [y'|] eqn:Ey'; [|apply nth_error_None in Ey'; lia].
    destruct (nth_agree _ _ _ _ _ _ HA Ey Ey') as (m & Em & A). rewrite nth_error_map, (nth_error_nth' ks O Ht) in Em. injection Em as <-.
    assert (G : forall ys r y, nth_error ys t = Some y -> computes (NConcatenate pre post ks axis) ys r ->
      r (ravel (pre ++ total ks :: post) (p ++ (offset ks t + c)%nat :: q)) = y (ravel (pre ++ nth t ks O :: post) (p ++ c :: q))).
    { clear - Ip Iq Hc. intros ys r y Ey Hr. unfold computes in Hr. destruct ys as [|? [|]]; exact (Hr t p c q y Ey Ip Iq Hc). }
    rewrite (G ys r y Ey Hr), (G ys' r' y' Ey' Hr'). apply A. apply position_mid_lt; auto.
  - destruct (position_split (pre0 ++ post0) (pre1 ++ post1) j Hj) as (a & b & Ia & Ib & ->).
    apply Forall2_app_inv_l in Ia. destruct Ia as (p0 & q0 & I0 & J0 & ->). apply Forall2_app_inv_l in Ib. destruct Ib as (p1 & q1 & I1 & J1 & ->).
    rewrite Hr, Hr' by auto. apply rsum_ext. intros c Hc. rewrite (A0 (ravel _ _)), (A1 (ravel _ _)) by (apply position_mid_lt; auto). reflexivity.
Qed.

(** ** the values of the nodes of a network *)
Fixpoint values (net : network) (y : vec) (vs : list vec) : list vec :=
  match net with
  | [] => vs
  | (o, ps) :: net' => values net' y (vs ++ [match o with None => y | Some L => layer_fn L (map (arg vs) ps) end])
  end.

Lemma values_length : forall net y vs, length (values net y vs) = (length vs + length net)%nat.
Proof. induction net as [|[o ps] net IH]; intros y vs; cbn [values length]; [lia|]. rewrite IH, app_length. cbn [length]. lia. Qed.

Lemma arg_app : forall vs ws i, (i < length vs)%nat -> arg (vs ++ ws) i = arg vs i.
Proof. intros. unfold arg. apply app_nth1. assumption. Qed.

Lemma values_prefix : forall net y vs i, (i < length vs)%nat -> arg (values net y vs) i = arg vs i.
Proof.
  induction net as [|[o ps] net IH]; intros y vs i Hi; cbn [values]; [reflexivity|]. rewrite IH by (rewrite app_length; cbn [length]; lia). apply arg_app. exact Hi.
Qed.

Lemma values_step : forall net y vs i o ps, nth_error net i = Some (o, ps) -> (forall p, In p ps -> (p < length vs + i)%nat) ->
  arg (values net y vs) (length vs + i) = match o with None => y | Some L => layer_fn L (map (arg (values net y vs)) ps) end.
Proof.
  induction net as [|[o' ps'] net IH]; intros y vs i o ps E Hp; [destruct i; discriminate E|]. destruct i as [|i]; cbn [nth_error] in E.
  - injection E as -> ->. cbn [values]. rewrite values_prefix by (rewrite app_length; cbn [length]; lia).
    unfold arg at 1. rewrite app_nth2 by lia. replace (length vs + 0 - length vs)%nat with O by lia. cbn [nth].
    destruct o as [L|]; [|reflexivity]. f_equal. apply map_ext_in. intros p Q. specialize (Hp p Q).
    rewrite values_prefix by (rewrite app_length; cbn [length]; lia). rewrite arg_app by lia. reflexivity.
  - cbn [values]. set (x := match o' with None => y | Some L => layer_fn L (map (arg vs) ps') end).
    specialize (IH y (vs ++ [x]) i o ps E). rewrite app_length in IH. cbn [length] in IH.
    replace (length vs + Datatypes.S i)%nat with (length vs + 1 + i)%nat by lia. apply IH. intros p Q. specialize (Hp p Q). lia.
Qed.

Definition net_fn (net : network) (i : nat) (y : vec) : vec := arg (values net y []) i.

Lemma net_fn_step : forall n net y i o ps, net_ok n net -> nth_error net i = Some (o, ps) ->
  net_fn net i y = match o with None => y | Some L => layer_fn L (map (fun p => net_fn net p y) ps) end.
Proof.
  intros n net y i o ps Hnet E. unfold net_fn. apply (values_step net y [] i o ps E). cbn. intros p Q. destruct (Hnet i o ps E) as [H _]. apply H. exact Q.
Qed.

Lemma net_in_length : forall n net i L ps, net_ok n net -> nth_error net i = Some (Some L, ps) -> length ps = length (nl_in L).
Proof. intros n net i L ps Hnet E. destruct (Hnet i (Some L) ps E) as [_ [_ H]]. rewrite <- H, map_length. reflexivity. Qed.

(** values exist *)
Lemma net_value_exists : forall n net, net_ok n net ->
  (forall i L ps, nth_error net i = Some (Some L, ps) -> exists mode fast, nl_ok mode fast L) -> net_value net (net_fn net).
Proof.
  intros n net Hnet Hok y i o ps E. rewrite (net_fn_step n net y i o ps Hnet E). destruct o as [L|]; [|reflexivity].
  destruct (Hok i L ps E) as (mode & fast & H). apply (computes_fn mode fast L); [exact H|]. rewrite map_length. exact (net_in_length n net i L ps Hnet E).
Qed.

Lemma map_combine2 : forall A B C (f : A -> B) (h : A -> C) l, combine (map f l) (map h l) = map (fun a => (f a, h a)) l.
Proof. intros A B C f h. induction l as [|a l IH]; [reflexivity|]. cbn. rewrite IH. reflexivity. Qed.

(** and they are determined on the neurons *)
Lemma net_value_unique : forall n net v v', net_ok n net ->
  (forall i L ps, nth_error net i = Some (Some L, ps) -> exists mode fast, nl_ok mode fast L) ->
  net_value net v -> net_value net v' ->
  forall y i, (i < length net)%nat -> agree (net_dim n net i) (v i y) (v' i y).
Proof.
  intros n net v v' Hnet Hok Hv Hv' y i. induction i as [i IH] using lt_wf_ind. intros Hi.
  destruct (nth_error net i) as [[o ps]|] eqn:E; [|apply nth_error_None in E; lia].
  unfold net_dim. rewrite E. pose proof (Hv y i o ps E) as H. pose proof (Hv' y i o ps E) as H'. destruct (Hnet i o ps E) as [Hp Ho]. destruct o as [L|].
  - destruct (Hok i L ps E) as (mode & fast & K). destruct Ho as [_ Hd].
    apply (computes_agree mode fast L (map (fun p => v p y) ps) (map (fun p => v' p y) ps)); auto.
    + rewrite map_length. exact (net_in_length n net i L ps Hnet E).
    + rewrite map_length. exact (net_in_length n net i L ps Hnet E).
    + rewrite <- Hd, map_combine2. clear - IH Hp Hi. induction ps as [|p ps IH']; cbn; constructor.
      * cbn. apply IH; [apply Hp; left; reflexivity|]. specialize (Hp p (or_introl eq_refl)). lia.
      * apply IH'. intros q Q. apply Hp. right. exact Q.
  - intros j _. rewrite H, H'. reflexivity.
Qed.
