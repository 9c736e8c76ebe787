(** The backward pass on a batch, sample by sample. *)
From Coq Require Import Reals List Arith Bool Lia Lra Sorting.Permutation.
From Verif Require Import RLib Spec M_Core M_Utils M_MergeLayers M_Ops M_Layers Spec_Backward M_Backward M_Crown Spec_Convert M_Convert M_Network P_Core P_Merge P_Graph P_Convert P_Network P_NetworkForward P_NetworkCrown.
From Verif Require Import Spec_Network Spec_Batch M_Batch M_BatchCrown Spec_Layers P_Axis P_Move P_Backward P_Batch P_BatchLayers P_BatchBN P_BatchNet P_BatchClone.
Import ListNotations.
Local Open Scope R_scope.

Definition sample_bb (B b n k : nat) (A : tbb) (C : bb) : Prop :=
  sample_mat B b n [k] (tb_wu A) (bb_wu C) /\ sample_vec B b [k] (tb_bu A) (bb_bu C) /\
  sample_mat B b n [k] (tb_wl A) (bb_wl C) /\ sample_vec B b [k] (tb_bl A) (bb_bl C).

Section Backward.
Variables (D : domain) (B b n : nat).
Hypothesis (Hb : (b < B)%nat) (Hn : (0 < n)%nat) (HD : norm_ok D).
Notation SV := (sample_vec B b).

Lemma last_sample : forall mode s T ts, sample D mode B b n s T ts -> exists v, SV s (last_nd T) v.
Proof.
  intros mode s T ts H. unfold sample in H.
  destruct mode; cbn [kinds] in H;
    repeat match goal with H : Forall3 _ _ _ _ |- _ => inversion H; subst; clear H end; cbn [sample_kind] in *;
    (eexists; unfold last_nd; cbn [last]; eassumption).
Qed.

Lemma t_identity_ok : forall mode s T ts, (0 < prodn s)%nat -> sample D mode B b n s T ts ->
  exists A, t_identity_lirpa T = Ok A /\ sample_bb B b (prodn s) (prodn s) A identity_lirpa.
Proof.
  intros mode s T ts Hs H. destruct (last_sample mode s T ts H) as [v Hv]. unfold t_identity_lirpa.
  assert (E : tl (nd_shape (last_nd T)) = s) by (rewrite (proj1 Hv); reflexivity). rewrite E.
  destruct (k_reshape_vec B b Hb s [prodn s] (last_nd T) v) as (y & -> & Hy); [cbn; lia|exact Hs|exact Hv|]. cbn [bind].
  eexists. split; [reflexivity|]. unfold sample_bb. cbn [tb_wu tb_bu tb_wl tb_bl identity_lirpa bb_wu bb_bu bb_wl bb_bl].
  pose proof (k_identity_vec B b (prodn s) y v Hy) as H1. pose proof (k1_vec B b [prodn s] (fun _ => 0) y v Hy) as H2. auto.
Qed.

Lemma t_dense_bok : forall mode pre d u kernel bias T ts, (0 < prodn (pre ++ [d]))%nat -> (0 < u)%nat -> nd_shape kernel = [d; u] ->
  sample D mode B b n (pre ++ [d]) T ts ->
  exists A, t_backward_dense kernel bias T = Ok A /\
    sample_bb B b (prodn (pre ++ [d])) (prodn (pre ++ [u])) A (backward_dense d u (fun c j => nd_data kernel (c * u + j)%nat) (option_map nd_data bias)).
Proof.
  intros mode pre d u kernel bias T ts Hs Hu Ek H. destruct (last_sample mode _ T ts H) as [v Hv]. unfold t_backward_dense.
  rewrite (proj1 Hv), Ek. rewrite removelast_last. rewrite !prodn_app in *. cbn [prodn fold_right] in *. rewrite !Nat.mul_1_r in *.
  destruct (Nat.eqb_spec (prodn pre) 0) as [E|_]; [rewrite E in Hs; lia|]. cbv zeta.
  eexists. split; [reflexivity|]. unfold sample_bb. cbn [tb_wu tb_bu tb_wl tb_bl backward_dense bb_wu bb_bu bb_wl bb_bl].
  assert (HM : forall W : nat -> R, (forall i j, (i < prodn pre * d)%nat -> (j < prodn pre * u)%nat -> W ((b * (prodn pre * d) + i) * (prodn pre * u) + j)%nat = block_diag d u (fun c j => nd_data kernel (c * u + j)%nat) i j) ->
    sample_mat B b (prodn pre * d) [(prodn pre * u)%nat] (mk_nd [B; (prodn pre * d)%nat; (prodn pre * u)%nat] W) (block_diag d u (fun c j => nd_data kernel (c * u + j)%nat))).
  { intros W HW. split; [reflexivity|]. intros i j Hi Hj. cbn [prodn fold_right] in *. rewrite Nat.mul_1_r in *. apply HW; assumption. }
  assert (HV : forall (W : nat -> R) (w : vec), (forall j, (j < prodn pre * u)%nat -> W (b * (prodn pre * u) + j)%nat = w j) -> sample_vec B b [(prodn pre * u)%nat] (mk_nd [B; (prodn pre * u)%nat] W) w).
  { intros W w HW. split; [reflexivity|]. intros j Hj. cbn [prodn fold_right] in *. rewrite Nat.mul_1_r in *. apply HW; assumption. }
  assert (H1 : forall i j, (i < prodn pre * d)%nat -> (j < prodn pre * u)%nat ->
     (fun q => let i := ((q / (prodn pre * u)) mod (prodn pre * d))%nat in let j := (q mod (prodn pre * u))%nat in
        if Nat.eqb (i / d) (j / u) then nd_data kernel ((i mod d) * u + j mod u)%nat else 0) ((b * (prodn pre * d) + i) * (prodn pre * u) + j)%nat
     = block_diag d u (fun c j => nd_data kernel (c * u + j)%nat) i j).
  { intros i j Hi Hj. cbv beta zeta. destruct (dm (b * (prodn pre * d) + i) _ j Hj) as [-> ->]. destruct (dm b _ i Hi) as [_ ->]. reflexivity. }
  assert (H2 : forall j, (j < prodn pre * u)%nat ->
     (fun q => match bias with Some a => nd_data a ((q mod (prodn pre * u)) mod u)%nat | None => 0 end) (b * (prodn pre * u) + j)%nat
     = match option_map nd_data bias with Some v => tile u v | None => zero_vec end j).
  { intros j Hj. cbv beta. destruct (dm b _ j Hj) as [_ ->]. destruct bias; reflexivity. }
  split; [apply HM; exact H1|]. split; [apply HV; exact H2|]. split; [apply HM; exact H1|apply HV; exact H2].
Qed.

Lemma t_relu_bok : forall ke mode sl ft s T ts m, (0 < prodn s)%nat -> (forall a, ft = Some a -> nd_shape a = s) -> sample D mode B b n s T ts ->
  exists A C, t_backward_relu ke D mode sl ft T = Ok A /\
    backward_activation ke (mk_spec false mode D n) ActRelu sl (option_map (fun a => (nd_data a, nd_data a)) ft) m ts = Ok C /\
    sample_bb B b (prodn s) (prodn s) A C.
Proof.
  intros ke mode sl ft s T ts m Hs Hft H. unfold t_backward_relu. cbn [backward_activation]. unfold backward_relu. cbn [sp_dc].
  destruct (Req_EM_T 0 0) as [_|Q]; [|congruence]. destruct (last_sample mode s T ts H) as [v Hv].
  destruct (fullinputs_rel D B b n Hb Hn HD mode true true s T ts H) as (F & r & -> & -> & [[_ Hi] _]). cbn [bind]. rewrite has_ibp_true in Hi. destruct (Hi eq_refl) as [HU HL].
  destruct (t_hull_relu_ok B b Hb ke sl ft s (f_uc F) (f_lc F) _ _ Hft HU HL) as ([[[wu bu] wl] bl] & -> & H1 & H2 & H3 & H4). cbn [bind fst snd] in *. cbv zeta.
  assert (E : tl (nd_shape (last_nd T)) = s) by (rewrite (proj1 Hv); reflexivity). rewrite E.
  assert (ER : forall t w, SV s t w -> exists r, k_reshape t [prodn s] = Ok r /\ SV [prodn s] r w) by (intros t w Ht; apply (k_reshape_vec B b Hb s [prodn s]); [cbn; lia|exact Hs|exact Ht]).
  destruct (ER _ _ H1) as (t1 & -> & T1). cbn [bind]. destruct (ER _ _ H2) as (t2 & -> & T2). cbn [bind].
  destruct (ER _ _ H3) as (t3 & -> & T3). cbn [bind]. destruct (ER _ _ H4) as (t4 & -> & T4). cbn [bind].
  eexists _, _. split; [reflexivity|]. split; [reflexivity|]. unfold sample_bb, hull_bb. cbn [tb_wu tb_bu tb_wl tb_bl bb_wu bb_bu bb_wl bb_bl].
  unfold t_to_matrix. rewrite (rank_vec _ _ _ _ _ T1), (rank_vec _ _ _ _ _ T3). cbn [length Nat.eqb].
  pose proof (k_diag_vec B b (prodn s) t1 _ T1) as D1. pose proof (k_diag_vec B b (prodn s) t3 _ T3) as D3.
  assert (EF : forall j, option_map (fun w : vec => w j) (option_map snd (option_map (fun a => (nd_data a, nd_data a)) ft)) = option_map (fun a => nd_data a j) ft) by (intros j; destruct ft; reflexivity).
  split; [|split; [|split]].
  - eapply mat_ext; [|exact D1]. intros i j _ _. unfold diag. rewrite EF. reflexivity.
  - eapply vec_ext; [|exact T2]. intros j _. cbv beta. rewrite EF. reflexivity.
  - eapply mat_ext; [|exact D3]. intros i j _ _. unfold diag. rewrite EF. reflexivity.
  - eapply vec_ext; [|exact T4]. intros j _. cbv beta. rewrite EF. reflexivity.
Qed.

Lemma k2_same : forall f a c, nd_shape a = nd_shape c -> exists r, k2 f a c = Ok r /\ nd_shape r = nd_shape c /\
  forall q, (q < prodn (nd_shape c))%nat -> nd_data r q = f (nd_data a q) (nd_data c q).
Proof using.
  intros f a c E. unfold k2. rewrite E, shape_same. cbn [bind]. eexists. split; [reflexivity|]. split; [reflexivity|]. intros q Hq. cbn [nd_data].
  unfold bc_get. rewrite E, pad_id, bc_same by auto. reflexivity.
Qed.
Lemma t_bn_bok : forall mode pre k post axis gamma beta mean var eps T ts, (0 < prodn (pre ++ k :: post))%nat ->
  axis = pos_axis pre \/ axis = neg_axis post -> nd_shape mean = [k] -> nd_shape var = [k] ->
  (forall a, gamma = Some a -> nd_shape a = [k]) -> (forall a, beta = Some a -> nd_shape a = [k]) ->
  sample D mode B b n (pre ++ k :: post) T ts ->
  exists A, t_backward_bn axis gamma beta mean var eps T = Ok A /\
    sample_bb B b (prodn (pre ++ k :: post)) (prodn (pre ++ k :: post)) A
      (backward_bn (pre ++ k :: post) (length pre) (option_map nd_data gamma) (option_map nd_data beta) (nd_data mean) (nd_data var) eps).
Proof.
  intros mode pre k post axis gamma beta mean var eps T ts Hs Hax Em Ev Eg Eb H. unfold t_backward_bn.
  destruct (last_sample mode _ T ts H) as [v Hv]. pose proof (rank_vec _ _ _ _ _ Hv) as Er. pose proof (proj1 Hv) as Ey. cbv zeta. rewrite Er, Ey, Em. cbn [tl hd].
  rewrite (bn_shape_eq pre k post axis k Hax). cbn [bind]. set (s := pre ++ k :: post) in *. set (N := prodn s) in *.
  set (cg := match option_map nd_data gamma with Some g => g | None => fun _ : nat => 1 end).
  set (cb := match option_map nd_data beta with Some g => g | None => fun _ : nat => 0 end).
  set (ga := match gamma with Some a => a | None => k1 (fun _ => 1) var end). set (be := match beta with Some a => a | None => k1 (fun _ => 0) mean end).
  assert (Hga : nd_shape ga = [k] /\ nd_data ga = cg) by (unfold ga, cg; destruct gamma as [a|]; cbn [option_map]; [split; [apply Eg; reflexivity|reflexivity]|split; [exact Ev|reflexivity]]).
  assert (Hbe : nd_shape be = [k] /\ nd_data be = cb) by (unfold be, cb; destruct beta as [a|]; cbn [option_map]; [split; [apply Eb; reflexivity|reflexivity]|split; [exact Em|reflexivity]]).
  destruct Hga as [G1 G2]. destruct Hbe as [B1 B2].
  destruct (k2_same Rdiv ga (k1 (fun v => sqrt (v + eps)) var)) as (w & -> & W1 & W2); [cbn [k1 nd_shape]; congruence|]. cbn [bind]. cbn [k1 nd_shape nd_data] in W1, W2.
  destruct (k2_same Rmult w mean) as (wm & -> & M1 & M2); [congruence|]. cbn [bind].
  destruct (k2_same Rminus be wm) as (bb0 & -> & X1 & X2); [congruence|]. cbn [bind].
  rewrite Ev in W1, W2. rewrite Em in M1, M2. rewrite M1 in X1, X2. cbn [prodn] in W2, M2, X2. rewrite Nat.mul_1_r in W2, M2, X2. rewrite G2 in W2. rewrite B2 in X2.
  destruct (k_reshape_vec B b Hb s [N] (last_nd T) v) as (yf & -> & Hyf); [cbn; unfold N; lia|exact Hs|exact Hv|]. cbn [bind].
  pose proof (k_identity_vec B b N yf v Hyf) as [I1 I2].
  unfold k_reshape_to at 1. rewrite I1.
  assert (P1 : prodn ((B :: s) ++ [N]) = prodn [B; N; N]) by (rewrite P_Batch.prodn_app; cbn [prodn]; fold N; lia). rewrite P1, Nat.eqb_refl. cbn [bind].
  assert (O1 : ones_at (S (length pre)) k (length post) ++ [1%nat] = ones_at (S (length pre)) k (length (post ++ [N]))).
  { unfold ones_at. rewrite <- app_assoc. cbn [app]. rewrite app_length. cbn [length]. rewrite repeat_app. reflexivity. }
  rewrite O1. unfold k_reshape_to at 1. rewrite W1, ones_prod. cbn [prodn]. rewrite ?Nat.mul_1_r, Nat.eqb_refl. cbn [bind].
  destruct (k2_chan_r (B :: pre) k (post ++ [N]) Rmult (mk_nd ((B :: s) ++ [N]) (nd_data (k_identity yf))) (mk_nd (ones_at (S (length pre)) k (length (post ++ [N]))) (nd_data w))) as (p & Ep & Sp & Dp).
  { cbn [nd_shape]. unfold s. cbn [app]. rewrite <- app_assoc. reflexivity. }
  { reflexivity. }
  rewrite Ep. cbn [bind].
  assert (Q1 : (B :: pre) ++ k :: post ++ [N] = (B :: s) ++ [N]) by (unfold s; cbn [app]; rewrite <- app_assoc; reflexivity). rewrite Q1, P1 in *.
  assert (HN : (0 < N)%nat) by exact Hs. unfold k_reshape at 1. rewrite Sp, P1. cbn [prodn]. rewrite !Nat.mul_1_r.
  destruct (Nat.eqb_spec (N * N) 0); [nia|]. rewrite Nat.mod_mul by lia. cbn [Nat.eqb negb orb]. rewrite Nat.div_mul by lia. cbn [bind].
  unfold k_reshape_to at 1. rewrite X1, ones_prod. cbn [prodn]. rewrite ?Nat.mul_1_r, Nat.eqb_refl. cbn [bind].
  assert (HC : chan pre k post (mk_nd (ones_at (S (length pre)) k (length post)) (nd_data bb0)) (fun c => cb c - cg c / sqrt (nd_data var c + eps) * nd_data mean c)).
  { split; [reflexivity|]. intros i Hi. cbn [nd_data]. rewrite X2, M2, W2 by exact Hi. reflexivity. }
  destruct (chan_vec_r B b Hb pre k post Rmult (k1 (fun _ => 1) (last_nd T)) _ _ _ (k1_vec B b s (fun _ => 1) _ _ Hv) HC) as (q & -> & Hq). cbn [bind].
  destruct (k_reshape_vec B b Hb s [N] q _ ltac:(cbn; unfold N; lia) Hs Hq) as (bo & -> & Hbo). cbn [bind].
  eexists. split; [reflexivity|]. unfold sample_bb, backward_bn. cbv zeta. cbn [tb_wu tb_bu tb_wl tb_bl bb_wu bb_bu bb_wl bb_bl]. fold cg cb.
  assert (SMw : sample_mat B b N [N] (mk_nd [B; N; N] (nd_data p)) (fun i j => (if Nat.eqb i j then 1 else 0) * (cg (bn_chan s (length pre) i) / sqrt (nd_data var (bn_chan s (length pre) i) + eps)))).
  { split; [reflexivity|]. intros i j Hi Hj. cbn [nd_data prodn] in *. rewrite Nat.mul_1_r in *.
    assert (L : ((b * N + i) * N + j < B * (N * N))%nat) by (apply mat_pos; auto).
    rewrite Dp by (cbn [prodn]; rewrite ?Nat.mul_1_r; exact L). cbn [nd_data]. rewrite <- (I2 i j Hi ltac:(cbn [prodn]; lia)). cbn [prodn]. rewrite ?Nat.mul_1_r. f_equal.
    assert (E : ((((b * N + i) * N + j) / prodn (post ++ [N])) mod k = bn_chan s (length pre) i)%nat).
    { rewrite P_Batch.prodn_app. cbn [prodn]. rewrite Nat.mul_1_r, (Nat.mul_comm (prodn post)). destruct (mid_pos pre k post i Hi) as (_ & Hk & HP).
      rewrite <- Nat.div_div by lia. destruct (dm (b * N + i) N j Hj) as [-> _]. apply (ch_eq pre k post b i Hi). }
    rewrite E. apply W2. apply (ch_eq pre k post b i Hi). }
  assert (SVb : SV [N] bo (fun j => cb (bn_chan s (length pre) j) - cg (bn_chan s (length pre) j) / sqrt (nd_data var (bn_chan s (length pre) j) + eps) * nd_data mean (bn_chan s (length pre) j))).
  { revert Hbo. apply vec_ext. intros j _. cbv beta. apply Rmult_1_l. }
  split; [exact SMw|]. split; [exact SVb|]. split; [exact SMw|exact SVb].
Qed.
Lemma t_permute_bok : forall mode s dims T ts, (0 < prodn s)%nat -> Permutation dims (seq 1 (length s)) -> permuted (map pred dims) s = s ->
  sample D mode B b n s T ts ->
  exists A, t_backward_permute dims T = Ok A /\ sample_bb B b (prodn s) (prodn s) A (backward_permute s dims).
Proof.
  intros mode s dims T ts Hs HP Hsame H. unfold t_backward_permute.
  destruct (t_identity_ok mode s T ts Hs H) as (A & -> & A1 & A2 & A3 & A4). cbn [bind].
  destruct (last_sample mode _ T ts H) as [v Hv]. pose proof (rank_vec _ _ _ _ _ Hv) as Er. pose proof (proj1 Hv) as Ey. cbv zeta. rewrite Er, Ey. cbn [tl].
  rewrite (inverse_ext dims (length s) HP). set (inv := inverse_perm (map pred dims)). set (N := prodn s) in *.
  pose proof (perm_pred _ _ HP) as HP1. pose proof (inverse_perm_perm _ _ HP1) as HI. fold inv in HI.
  assert (Hinv : permuted inv s = s) by (rewrite <- Hsame at 1; apply permuted_inverse; exact HP1).
  assert (HPd : Permutation (map S inv ++ [S (length s)]) (seq 1 (length (s ++ [N])))).
  { rewrite app_length. cbn [length]. rewrite seq_app. cbn [seq Nat.add]. apply Permutation_app_tail. rewrite <- seq_shift. apply Permutation_map. exact HI. }
  assert (Epd : map pred (map S inv ++ [S (length s)]) = inv ++ [length s]) by (rewrite map_app, map_map; cbn [map pred]; rewrite map_id; reflexivity).
  assert (Hin : forall a, In a inv -> (a < length s)%nat) by (intros a Ha; apply (perm_in inv _ _ HI); exact Ha).
  assert (TR : forall w W, sample_mat B b N [N] w W -> exists r, (a <- k_reshape w (s ++ [N]) ; c <- k_transpose a (0%nat :: map S inv ++ [S (length s)]) ; k_reshape c [N; N]) = Ok r /\
     sample_mat B b N [N] r (fun i j => W (transpose_idx s inv i) j)).
  { intros w W [E1 H1]. unfold k_reshape at 1. rewrite E1, P_Batch.prodn_app. cbn [prodn]. rewrite !Nat.mul_1_r. fold N.
    destruct (Nat.eqb_spec (N * N) 0); [nia|]. rewrite Nat.mod_mul by lia. cbn [Nat.eqb negb orb]. rewrite Nat.div_mul by lia. cbn [bind].
    destruct (k_transpose_vec B b Hb (s ++ [N]) (map S inv ++ [S (length s)]) (mk_nd (B :: s ++ [N]) (nd_data w)) (fun q => W (q / N)%nat (q mod N)%nat) HPd) as (c & -> & Hc).
    { split; [reflexivity|]. rewrite P_Batch.prodn_app. cbn [prodn nd_data]. fold N. rewrite Nat.mul_1_r. intros q Hq.
      assert (L1 : (q / N < N)%nat) by (apply Nat.div_lt_upper_bound; lia). assert (L2 : (q mod N < N)%nat) by (apply Nat.mod_upper_bound; lia).
      rewrite <- (H1 (q / N)%nat (q mod N)%nat L1 ltac:(cbn [prodn]; lia)). cbn [prodn]. f_equal. rewrite Nat.mul_1_r. pose proof (Nat.div_mod q N ltac:(lia)). rewrite Nat.mul_add_distr_r, <- Nat.add_assoc, (Nat.mul_comm (q / N)), <- H0. lia. }
    cbn [bind]. rewrite Epd in Hc. rewrite permuted_snoc, Hinv in Hc by exact Hin. destruct Hc as [C1 C2].
    unfold k_reshape. rewrite C1. cbn [prodn]. rewrite P_Batch.prodn_app in *. cbn [prodn] in *. fold N in C2 |- *. rewrite ?Nat.mul_1_r in *.
    destruct (Nat.eqb_spec (N * N) 0); [nia|]. rewrite Nat.mod_mul by assumption. cbn [Nat.eqb negb orb]. rewrite Nat.div_mul by assumption.
    eexists. split; [reflexivity|]. split; [reflexivity|]. intros i j Hi Hj. cbn [nd_data prodn] in *. rewrite ?Nat.mul_1_r in *.
    replace ((b * N + i) * N + j)%nat with (b * (N * N) + (i * N + j))%nat by lia. rewrite C2 by nia.
    rewrite transpose_snoc by (rewrite ?Hinv; auto). destruct (dm (transpose_idx s inv i) N j Hj) as [-> ->]. reflexivity. }
  destruct (TR _ _ A1) as (wu & -> & Hwu). cbn [bind]. destruct (TR _ _ A3) as (wl & -> & Hwl). cbn [bind].
  eexists. split; [reflexivity|]. unfold sample_bb, backward_permute. cbv zeta. cbn [tb_wu tb_bu tb_wl tb_bl bb_wu bb_bu bb_wl bb_bl]. fold inv. auto.
Qed.

Lemma t_merge_bb_rel : forall i h k A A' C C', sample_bb B b i h A C -> sample_bb B b h k A' C' ->
  exists Q, t_merge_bb A A' = Ok Q /\ sample_bb B b i k Q (merge_bb h C C').
Proof.
  intros i h k A A' C C' (H1 & H2 & H3 & H4) (H5 & H6 & H7 & H8). unfold t_merge_bb.
  destruct (t_merge_previous_rel B b i h k (tb_wu A) (tb_bu A) (tb_wl A) (tb_bl A) (tb_wu A') (tb_bu A') (tb_wl A') (tb_bl A')
    (WFull (bb_wu C)) (bb_bu C) (WFull (bb_wl C)) (bb_bl C) (WFull (bb_wu C')) (bb_bu C') (WFull (bb_wl C')) (bb_bl C')) as ([[[wu bu] wl] bl] & -> & R); auto.
  cbn [bind]. eexists. split; [reflexivity|]. exact R.
Qed.

Lemma t_fuse_rel : forall mode k T ts A C, sample D mode B b n [n] T ts -> sample_bb B b n k A C ->
  exists Q C', t_fuse mode T A = Ok Q /\ fuse mode n ts C = Ok C' /\ sample_bb B b n k Q C'.
Proof.
  intros mode k T ts A C H HB. unfold sample in H.
  destruct mode; cbn [kinds] in H;
    repeat match goal with H : Forall3 _ _ _ _ |- _ => inversion H; subst; clear H end; cbn [sample_kind t_fuse fuse] in *.
  - exists A, C. auto.
  - match goal with |- exists Q C', t_merge_bb ?a ?c = _ /\ Ok (merge_bb _ ?e ?f) = _ /\ _ => destruct (t_merge_bb_rel n n k a c e f) as (Q & EQ & HQ); [unfold sample_bb; cbn; auto|exact HB|exists Q; eexists; eauto] end.
  - match goal with |- exists Q C', t_merge_bb ?a ?c = _ /\ Ok (merge_bb _ ?e ?f) = _ /\ _ => destruct (t_merge_bb_rel n n k a c e f) as (Q & EQ & HQ); [unfold sample_bb; cbn; auto|exact HB|exists Q; eexists; eauto] end.
Qed.

Lemma t_convert2backward_rel : forall mode k T ts A C, (mode = IBP -> D = Box) -> sample D mode B b n [n] T ts -> sample_bb B b n k A C ->
  exists T' ts', t_convert2backward mode D T A = Ok T' /\ convert2backward mode D n ts C = Ok ts' /\ sample D mode B b n [k] T' ts'.
Proof.
  intros mode k T ts A C HB H (H1 & H2 & H3 & H4). unfold sample in H. unfold t_convert2backward, convert2backward.
  destruct mode; cbn [kinds] in H;
    repeat match goal with H : Forall3 _ _ _ _ |- _ => inversion H; subst; clear H end; cbn [sample_kind] in *.
  - rewrite (HB eq_refl) in *. match goal with |- context [k_pair (k_expand ?l 1) (k_expand ?u 1)] => destruct (k_pair_vec B b [n] l u _ _ ltac:(eassumption) ltac:(eassumption)) as (x & -> & Hx) end. cbn [bind mode_eqb andb].
    destruct (t_get_upper_ok Box B b n Hb Hn I [k] x _ _ _ _ _ Hx H1 H2) as (u' & u1 & -> & -> & HU). cbn [bind].
    destruct (t_get_lower_ok Box B b n Hb Hn I [k] x _ _ _ _ _ Hx H3 H4) as (l' & l1 & -> & -> & HL). cbn [bind].
    eexists _, _. split; [reflexivity|]. split; [reflexivity|]. unfold sample. cbn [kinds].
    repeat (apply Forall3_cons; [cbn [sample_kind]; assumption|]); apply Forall3_nil.
  - cbn [bind]. eexists _, _. split; [reflexivity|]. split; [reflexivity|]. unfold sample. cbn [kinds].
    repeat (apply Forall3_cons; [cbn [sample_kind]; assumption|]); apply Forall3_nil.
  - cbn [bind mode_eqb andb]. match goal with H : sample_dom D B b n ?x _ |- _ =>
    destruct (t_get_upper_ok D B b n Hb Hn HD [k] x _ _ _ _ _ H H1 H2) as (u' & u1 & -> & -> & HU);
    destruct (t_get_lower_ok D B b n Hb Hn HD [k] x _ _ _ _ _ H H3 H4) as (l' & l1 & -> & -> & HL) end. cbn [bind].
    eexists _, _. split; [reflexivity|]. split; [reflexivity|]. unfold sample. cbn [kinds].
    repeat (apply Forall3_cons; [cbn [sample_kind]; assumption|]); apply Forall3_nil.
Qed.
End Backward.

(** blocks are not empty *)
Lemma shape_pos : forall n net shape, (0 < n)%nat -> tnet_ok n net shape -> forall i, (i < length net)%nat -> (0 < prodn (shape i))%nat.
Proof.
  intros n net shape Hn Hnet. intros i. induction i as [i IH] using lt_wf_ind. intros Hi.
  destruct (nth_error net i) as [[o ps]|] eqn:En; [|apply nth_error_None in En; lia]. destruct (Hnet i o ps En) as [Hp Ho].
  destruct o as [L|]; [|destruct Ho as [_ ->]; cbn; lia]. destruct Ho as [Hps HL].
  destruct ps as [|p ps]; [contradiction|]. assert (Hpp : (0 < prodn (shape p))%nat) by (apply IH; [apply Hp; left; reflexivity|specialize (Hp p (or_introl eq_refl)); lia]).
  cbn [map] in HL. destruct L; cbn [tl_ok] in HL; destruct ps as [|p' ps]; cbn [map] in HL; try contradiction.
  - destruct HL as (pre & d & u & E & -> & Hd & Hu & _). rewrite E in Hpp. rewrite !prodn_app in *. cbn [prodn fold_right] in *. nia.
  - destruct HL as [-> _]. exact Hpp.
  - rewrite HL. exact Hpp.
  - rewrite HL. exact Hpp.
  - destruct HL as [-> H]. cbn. lia.
  - destruct HL as (-> & E & _). rewrite E. exact Hpp.
  - destruct HL as (-> & _). exact Hpp.
  - destruct HL as (-> & HP). rewrite prodn_permuted by (apply perm_pred; exact HP). exact Hpp.
  - destruct HL as [-> _]. exact Hpp.
  - destruct HL as [-> _]. exact Hpp.
  - destruct HL as [-> _]. exact Hpp.
  - destruct HL as [-> _]. exact Hpp.
  - destruct ps; [|contradiction]. cbn in HL. destruct HL as [-> _]. exact Hpp.
  - destruct HL as [-> _]. exact Hpp.
  - destruct HL as [-> _]. exact Hpp.
  - destruct HL as [-> _]. exact Hpp.
  - destruct HL as [-> _]. exact Hpp.
Qed.

(** the output of a graph with a single output *)
Lemma single_node_gen : forall A (g : fgraph A) o, acyclic (parents_of g) -> unshared g -> (o < length g)%nat ->
  (forall j, (j < length g)%nat -> leads_to (parents_of g) o j) -> output_nodes g [o] = Ok [o].
Proof.
  intros A g o Hacy Hun Ho Hall. destruct (longest_path_exists _ Hacy) as [lv Hlv].
  assert (Hdp : deepest (parents_of g) lv o) by (apply ancestors_deepest; [exact Hlv|unfold parents_of; rewrite map_length; exact Ho|unfold parents_of at 1; rewrite map_length; exact Hall]).
  assert (Hg : g <> []) by (intros Q; rewrite Q in Ho; cbn in Ho; lia).
  pose proof (topo_acyclic _ g Hacy) as Ht.
  assert (Hf : filter (deepestb g lv) [o] = [o]) by (cbn; rewrite (deepest_b _ g lv o Hdp); reflexivity).
  rewrite <- Hf at 2. apply output_nodes_ok; auto. intros o' [<-|[]]. exact Ho.
Qed.

Section CrownNet.
Variables (ke : R) (D : domain) (B b n : nat) (mode : fmode) (fwd : bool) (bo : nat -> slope * option nd) (net : tnetwork) (shape : nat -> list nat).
Hypothesis (Hb : (b < B)%nat) (Hn : (0 < n)%nat) (HD : norm_ok D) (HB : mode = IBP -> D = Box).
Hypothesis (Hnet : tnet_ok n net shape) (Hch : tnet_chain net) (Hbl : tnet_blocks fwd (fun i => snd (bo i)) net shape).
Notation sp := (mk_spec false mode D n).
Notation gT := (t_backward_net ke D mode bo net).
Notation g1 := (backward_net ke sp (tbo_opts bo) n (tnet_network shape net)).
Notation SB := (sample_bb B b).
Notation SS := (sample D mode B b n).

(** shape of the blocks in the inputs of a backward layer *)
Definition blk (p : nat) : list nat := if fwd then shape p else [prodn (shape p)].
Lemma prodn_blk : forall p, prodn (blk p) = prodn (shape p).
Proof. intros p. unfold blk. destruct fwd; [reflexivity|]. cbn. lia. Qed.
Definition ish (i : nat) : list nat := match nth_error net i with Some (_, p :: _) => blk p | _ => [n] end.

Definition lyT (i : nat) (o : option tlayer) : list nd -> result tbb := match o with None => t_identity_lirpa | Some L => t_backward_call ke D mode (bo i) L end.
Definition ly1 (i : nat) (o : option tlayer) (ps : list nat) : layer :=
  match o with None => mk_layer n n (fun _ => Ok backward_identity) false | Some L => backward_layer ke sp (tbo_opts bo i) (tl_layer (map shape ps) L) end.
Lemma bT_node : forall i o ps, nth_error net i = Some (o, ps) -> nth_error gT i = Some (lyT i o, ps).
Proof.
  intros i o ps E. unfold t_backward_net. rewrite nth_error_map. assert (Hi : (i < length net)%nat) by (apply nth_error_Some; congruence).
  rewrite (combine_nth_err _ _ (seq 0 (length net)) net i i (o, ps)); [reflexivity|apply (seq_nth_err _ 0); exact Hi|exact E].
Qed.
Lemma b1_node : forall i o ps, nth_error net i = Some (o, ps) -> nth_error g1 i = Some (ly1 i o ps, ps).
Proof.
  intros i o ps E. pose proof (bnet_node ke sp (tbo_opts bo) (tnet_network shape net) i _ _ (s_nth net shape i o ps E)) as Q. cbn [sp_n] in Q. rewrite Q.
  destruct o; reflexivity.
Qed.
Lemma bT_length : length gT = length net.
Proof. unfold t_backward_net. rewrite map_length, combine_length, seq_length. lia. Qed.
Lemma b1_length : length g1 = length net.
Proof. pose proof (bnet_length ke sp (tbo_opts bo) (tnet_network shape net)) as Q. cbn [sp_n] in Q. rewrite Q. apply s_length. Qed.
Lemma ly1_out : forall i o ps, nth_error net i = Some (o, ps) -> ly_out (ly1 i o ps) = prodn (shape i).
Proof.
  intros i o ps E. rewrite <- (tnet_dim n net shape Hnet i) by (apply nth_error_Some; congruence). unfold net_dim. rewrite (s_nth net shape i o ps E). destruct o; reflexivity.
Qed.
Lemma ly1_model : forall i o ps, ly_model (ly1 i o ps) = false.
Proof. intros i [L|] ps; reflexivity. Qed.

Lemma node_call : forall i o ps T ts, nth_error net i = Some (o, ps) -> SS (ish i) T ts ->
  exists A C, lyT i o T = Ok A /\ ly_bwd (ly1 i o ps) ts = Ok C /\ SB (prodn (ish i)) (prodn (shape i)) A C.
Proof.
  intros i o ps T ts E H. assert (Hi : (i < length net)%nat) by (apply nth_error_Some; congruence).
  pose proof (shape_pos n net shape Hn Hnet i Hi) as Hpos. destruct (Hnet i o ps E) as [Hp Ho]. unfold ish in *. rewrite E in *.
  destruct o as [L|]; [|destruct Ho as [-> Es]].
  2:{ destruct (t_identity_ok D B b n Hb Hn mode [n] T ts) as (A & EA & HA); [cbn; lia|exact H|]. exists A, identity_lirpa. cbn [lyT ly1 ly_bwd]. rewrite Es. auto. }
  destruct Ho as [Hps HL]. pose proof (Hch i L ps E) as HU. pose proof (Hbl i L ps E) as HBL. destruct ps as [|p ps]; [contradiction|].
  assert (Hpp : (0 < prodn (shape p))%nat) by (apply (shape_pos n net shape Hn Hnet); specialize (Hp p (or_introl eq_refl)); lia).
  pose proof (prodn_blk p) as Ebl. cbn [map] in HL. unfold ly1, backward_layer. cbn [ly_bwd lyT].
  destruct L as [kernel bias|sl ft| | | |target|axis gamma beta mean var eps|dims| | | | |]; cbn [tl_ok] in HL; try contradiction HU; destruct ps as [|p' ps]; cbn [map] in HL; try contradiction; cbn [t_backward_call map tl_layer backward_call].
  - destruct HL as (pre & d & u & Es & Es' & Hd & Hu & Ek & _). rewrite Ek. cbn [hd tl].
    assert (exists pre', blk p = pre' ++ [d] /\ prodn pre' = prodn pre) as (pre' & E1 & E2).
    { unfold blk in *. destruct fwd; [exists pre; auto|]. destruct (HBL eq_refl) as [d' Q]. cbn [map] in Q. injection Q; intros Q'. rewrite Q' in Es.
      destruct pre as [|a pre]; [|destruct pre; discriminate Es]. injection Es; intros ->. exists []. rewrite Q'. cbn. split; [f_equal; lia|reflexivity]. }
    rewrite E1 in *. rewrite Es'.
    assert (E3 : prodn (pre ++ [u]) = prodn (pre' ++ [u])) by (rewrite !prodn_app, E2; reflexivity). rewrite E3.
    destruct (t_dense_bok D B b n Hb Hn mode pre' d u kernel bias T ts) as (A & EA & HA); auto; [rewrite Ebl; exact Hpp|]. exists A. eexists. split; [exact EA|]. split; [reflexivity|exact HA].
  - destruct HL as (Es & _). destruct (t_relu_bok D B b n Hb Hn HD ke mode (fst (bo i)) (snd (bo i)) (blk p) T ts (prodn (shape p))) as (A & C & EA & EC & HA); auto.
    + rewrite Ebl. exact Hpp.
    + intros a Ea. destruct (HBL a Ea) as [Q1 Q2]. rewrite Q1, Es. unfold blk. destruct fwd; [|reflexivity]. destruct (Q2 eq_refl) as [m Q3]. rewrite Es in Q3. rewrite Q3. cbn. f_equal. lia.
    + exists A, C. split; [exact EA|]. split; [exact EC|]. rewrite Es, <- Ebl. exact HA.
  - destruct (t_identity_ok D B b n Hb Hn mode (blk p) T ts) as (A & EA & HA); [rewrite Ebl; exact Hpp|exact H|]. exists A, identity_lirpa. rewrite HL, <- Ebl. auto.
  - destruct (t_identity_ok D B b n Hb Hn mode (blk p) T ts) as (A & EA & HA); [rewrite Ebl; exact Hpp|exact H|]. exists A, identity_lirpa. rewrite HL, <- Ebl. auto.
  - destruct (t_identity_ok D B b n Hb Hn mode (blk p) T ts) as (A & EA & HA); [rewrite Ebl; exact Hpp|exact H|]. exists A, identity_lirpa.
    replace (prodn (shape i)) with (prodn (blk p)) by (rewrite Ebl; destruct HL as [-> _]; cbn; lia). auto.
  - destruct (t_identity_ok D B b n Hb Hn mode (blk p) T ts) as (A & EA & HA); [rewrite Ebl; exact Hpp|exact H|]. exists A, identity_lirpa.
    replace (prodn (shape i)) with (prodn (blk p)) by (rewrite Ebl; destruct HL as (-> & -> & _); reflexivity). auto.
  - destruct HL as (Es & pre & k & post & Ep & Hax & Em & Ev & Eg & Eb & _).
    assert (E1 : blk p = shape p) by (unfold blk; destruct fwd; [reflexivity|]; destruct (HBL eq_refl) as [d Q]; cbn [map] in Q; injection Q; intros ->; cbn; f_equal; lia).
    rewrite E1, Es in *. rewrite Ep in *.
    destruct (t_bn_bok D B b n Hb Hn mode pre k post axis gamma beta mean var eps T ts) as (A & EA & HA); auto. exists A. eexists. split; [exact EA|].
    split; [exact (f_equal (fun L => backward_call ke sp (tbo_opts bo i) L ts) (bn_layer_eq pre k post axis gamma beta mean var eps Hax))|exact HA].
  - destruct HL as (Es & HP). destruct HBL as [Q1 Q2]. cbn [map] in Q1. injection Q1; intros Q1'.
    assert (E1 : blk p = shape p) by (unfold blk; destruct fwd; [reflexivity|]; destruct (Q2 eq_refl) as [d Q]; cbn [map] in Q; injection Q; intros ->; cbn; f_equal; lia).
    rewrite E1 in *. rewrite <- Q1' in *.
    destruct (t_permute_bok D B b n Hb Hn mode (shape p) dims T ts) as (A & EA & HA); auto. exists A. eexists. split; [exact EA|]. split; [reflexivity|exact HA].
Qed.

Definition imap_rel (IT : list (list nd)) (I1 : list (list tensor)) : Prop :=
  length IT = length I1 /\ forall i T, nth_error IT i = Some T -> exists ts, nth_error I1 i = Some ts /\ SS (ish i) T ts.
Definition back_rel (h k : nat) (A : option tbb) (C : option bb) : Prop :=
  match A, C with None, None => k = h | Some A, Some C => SB h k A C | _, _ => False end.

Lemma crown_rel : forall IT I1, imap_rel IT I1 -> forall fuel i A C k, (i < fuel)%nat -> (i < length IT)%nat -> (i < length net)%nat ->
  back_rel (prodn (shape i)) k A C ->
  exists Q C', t_crown mode gT IT fuel i A = Ok Q /\ crown mode g1 I1 true fuel i C = Ok C' /\ SB n k Q C'.
Proof.
  intros IT I1 [HL HI]. induction fuel as [|fuel IH]; intros i A C k Hf Hi Hin HA; [lia|].
  destruct (nth_error net i) as [[o ps]|] eqn:En; [|apply nth_error_None in En; lia].
  destruct (nth_error IT i) as [T|] eqn:ET; [|apply nth_error_None in ET; lia]. destruct (HI i T ET) as (ts & E1 & HS).
  cbn [t_crown crown]. rewrite (bT_node i o ps En), (b1_node i o ps En), ET, E1.
  destruct (node_call i o ps T ts En HS) as (A0 & C0 & -> & -> & H0). cbn [bind]. rewrite ly1_model, (ly1_out i o ps En).
  assert (exists A1, match A with None => Ok A0 | Some C1 => t_merge_bb A0 C1 end = Ok A1 /\
    SB (prodn (ish i)) k A1 (match C with None => C0 | Some C1 => merge_bb (prodn (shape i)) C0 C1 end)) as (A1 & -> & H1).
  { destruct A as [A|], C as [C|]; cbn [back_rel] in HA; try contradiction.
    - exact (t_merge_bb_rel B b Hb _ _ _ _ _ _ _ H0 HA).
    - exists A0. subst k. auto. }
  cbn [bind]. destruct (Hnet i o ps En) as [Hp Ho]. unfold ish in *. rewrite En in *. destruct ps as [|p [|p' ps]].
  - destruct o as [L|]; [destruct Ho as [Q _]; contradiction|].
    cbn [ly1 ly_in]. apply (t_fuse_rel D B b n Hb); [exact HS|]. cbn in H1. rewrite Nat.mul_1_r in H1. exact H1.
  - apply IH; [specialize (Hp p (or_introl eq_refl)); lia|specialize (Hp p (or_introl eq_refl)); lia|specialize (Hp p (or_introl eq_refl)); lia|].
    cbn [back_rel]. rewrite <- prodn_blk. exact H1.
  - exfalso. destruct o as [L|]; [|destruct Ho; discriminate]. destruct Ho as [_ HLk]. pose proof (Hch i L _ En) as HU. destruct L; cbn in HU, HLk; contradiction.
Qed.

(** the forward bounds used by crown-forward-xxx *)
Definition fmap_rel (FT : nat -> option (list nd)) (F1 : nat -> option (list tensor)) : Prop :=
  forall p, (p < length net)%nat -> if fwd then exists T ts, FT p = Some T /\ F1 p = Some ts /\ SS (shape p) T ts else FT p = None /\ F1 p = None.

Lemma node_inputs_rel : forall iT i1 FT F1 IT I1 i o ps, SS [n] iT i1 -> fmap_rel FT F1 -> imap_rel IT I1 -> nth_error net i = Some (o, ps) -> (i <= length IT)%nat ->
  exists T ts, t_node_inputs mode D iT FT gT IT ps = Ok T /\ node_inputs mode D n i1 F1 g1 I1 ps = Ok ts /\ SS (ish i) T ts.
Proof.
  intros iT i1 FT F1 IT I1 i o ps Hi HF HI En Hl. destruct (Hnet i o ps En) as [Hp Ho]. unfold ish. rewrite En. unfold t_node_inputs, node_inputs.
  destruct ps as [|p [|p' ps]].
  - eauto.
  - assert (Hin : (i < length net)%nat) by (apply nth_error_Some; congruence). specialize (Hp p (or_introl eq_refl)). specialize (HF p ltac:(lia)).
    assert (Hcase : fwd = true \/ fwd = false) by (destruct fwd; auto). cbn [mapR]. unfold blk. destruct Hcase as [Ef|Ef]; rewrite Ef in HF |- *.
    + destruct HF as (T & ts & -> & -> & HS). cbn [bind concat]. rewrite !app_nil_r. eauto.
    + destruct HF as [-> ->]. destruct (crown_rel IT I1 HI (S p) p None None (prodn (shape p)) ltac:(lia) ltac:(lia) ltac:(lia) eq_refl) as (Q & C & -> & -> & HQ). cbn [bind].
      destruct (t_convert2backward_rel D B b n Hb Hn HD mode _ iT i1 Q C HB Hi HQ) as (T & ts & -> & -> & HS). cbn [bind concat]. rewrite !app_nil_r. eauto.
  - exfalso. destruct o as [L|]; [|destruct Ho; discriminate]. destruct Ho as [_ HLk]. pose proof (Hch i L _ En) as HU. destruct L; cbn in HU, HLk; contradiction.
Qed.

Lemma skipn_cons : forall A (l : list A) k x, nth_error l k = Some x -> skipn k l = x :: skipn (S k) l.
Proof. induction l as [|y l IH]; intros k x E; destruct k; try discriminate E; cbn in *; [congruence|]. apply IH; exact E. Qed.
Lemma imap_snoc : forall IT I1 T ts, imap_rel IT I1 -> SS (ish (length IT)) T ts -> imap_rel (IT ++ [T]) (I1 ++ [ts]).
Proof.
  intros IT I1 T ts [HL HI] HS. split; [rewrite !app_length; cbn; lia|]. intros i T' E.
  destruct (Nat.lt_ge_cases i (length IT)).
  - rewrite nth_error_app1 in E by exact H. destruct (HI i T' E) as (ts' & E' & H'). exists ts'. rewrite nth_error_app1 by lia. auto.
  - rewrite nth_error_app2 in E by exact H. rewrite nth_error_app2 by lia. rewrite <- HL. destruct (i - length IT)%nat as [|k] eqn:Ek; [|destruct k; discriminate E].
    cbn in *. injection E; intros <-. exists ts. replace i with (length IT) by lia. auto.
Qed.
Lemma input_nodes_rel : forall iT i1 FT F1, SS [n] iT i1 -> fmap_rel FT F1 -> forall m IT I1, imap_rel IT I1 -> (length IT + m = length net)%nat ->
  exists IT' I1', t_input_nodes mode D iT FT gT (skipn (length IT) gT) IT = Ok IT' /\
    get_input_nodes mode D n i1 F1 g1 (skipn (length IT) g1) I1 = Ok I1' /\ imap_rel IT' I1' /\ length IT' = length net.
Proof.
  intros iT i1 FT F1 Hi HF. induction m as [|m IH]; intros IT I1 HI Hl.
  - rewrite !skipn_all2 by (rewrite ?bT_length, ?b1_length; lia). cbn [t_input_nodes get_input_nodes]. exists IT, I1. repeat split; try apply HI. lia.
  - destruct (nth_error net (length IT)) as [[o ps]|] eqn:En; [|apply nth_error_None in En; lia].
    rewrite (skipn_cons _ _ _ _ (bT_node _ o ps En)), (skipn_cons _ _ _ _ (b1_node _ o ps En)). cbn [t_input_nodes get_input_nodes].
    destruct (node_inputs_rel iT i1 FT F1 IT I1 (length IT) o ps Hi HF HI En (Nat.le_refl _)) as (T & ts & -> & -> & HS). cbn [bind].
    specialize (IH (IT ++ [T]) (I1 ++ [ts]) (imap_snoc _ _ _ _ HI HS)). rewrite app_length in IH. cbn [length] in IH. rewrite Nat.add_1_r in IH. apply IH. lia.
Qed.

Variable o : nat.
Hypothesis Ho : single_output (tnet_network shape net) o.

Lemma convert_backward_rel : forall final iT i1 FT F1, (mode = IBP -> final = IBP) -> SS [n] iT i1 -> fmap_rel FT F1 ->
  exists T ts, t_convert_backward mode final D gT [o] FT iT = Ok T /\
    convert_backward D n mode final (seq 0 (length net)) g1 [o] None F1 i1 = Ok ts /\ sample D final B b n [prodn (shape o)] T ts.
Proof.
  intros final iT i1 FT F1 Hf Hi HF. pose proof Ho as [Ho1 Ho2]. rewrite s_length in Ho1, Ho2. rewrite s_parents in Ho2.
  unfold t_convert_backward, convert_backward. cbn [andb].
  assert (EP : parents_of (bshape (seq 0 (length net)) g1) = map snd net).
  { apply nth_error_eq. intros i. unfold parents_of, bshape. rewrite map_map. rewrite !nth_error_map. cbn [fn_parents].
    destruct (nth_error net i) as [[q ps]|] eqn:E.
    - rewrite (combine_nth_err _ _ (seq 0 (length net)) g1 i i (ly1 i q ps, ps)); [reflexivity|apply (seq_nth_err _ 0); apply nth_error_Some; congruence|apply b1_node; exact E].
    - apply nth_error_None in E. assert (nth_error (combine (seq 0 (length net)) g1) i = None) as -> by (apply nth_error_None; rewrite combine_length, seq_length; lia). reflexivity. }
  assert (EL : length (bshape (seq 0 (length net)) g1) = length net) by (unfold bshape; rewrite map_length, combine_length, seq_length, b1_length; lia).
  assert (EU : unshared (bshape (seq 0 (length net)) g1)).
  { unfold unshared, bshape. rewrite map_map. cbn [fn_op]. rewrite (combine_fst (mk_spec false mode D n) Hn) by (rewrite seq_length, b1_length; reflexivity). apply seq_NoDup. }
  rewrite (single_node_gen _ (bshape (seq 0 (length net)) g1) o); rewrite ?EP, ?EL; auto using (t_acyclic n net shape Hnet). cbn [bind].
  unfold crown_model. cbn [andb].
  destruct (input_nodes_rel iT i1 FT F1 Hi HF (length net) [] []) as (IT & I1 & E1 & E2 & HI & HL); [split; [reflexivity|intros i T Q; destruct i; discriminate Q]|reflexivity|].
  cbn [length skipn] in E1, E2. rewrite E1, E2. cbn [bind mapR].
  destruct (crown_rel IT I1 HI (S o) o None None (prodn (shape o)) ltac:(lia) ltac:(lia) Ho1 eq_refl) as (Q & C & -> & -> & HQ). cbn [bind].
  destruct (t_convert2backward_rel D B b n Hb Hn HD mode _ iT i1 Q C HB Hi HQ) as (T & ts & -> & -> & HS). cbn [bind concat]. rewrite !app_nil_r.
  destruct (t_convert_rel D B b n Hb Hn HD mode final _ T ts Hf HS) as (T' & ts' & -> & -> & HS'). cbn [bind].
  assert (EM : (negb (mode_eqb final mode) && mode_eqb mode IBP)%bool = false) by (destruct mode; try (destruct final; reflexivity); rewrite (Hf eq_refl); reflexivity).
  rewrite EM. exists T', ts'. auto.
Qed.

Lemma clone_backward_rel : forall final z x, (mode = IBP -> final = IBP) -> sample_dom D B b n z x ->
  exists T ts, t_clone_backward ke D mode final fwd bo net [o] z = Ok T /\
    clone_backward D n mode final (if fwd then Some (decomon_net ke sp (tnet_opts net) (tnet_network shape net)) else None)
      (seq 0 (length net)) g1 [o] None x = Ok ts /\ sample D final B b n [prodn (shape o)] T ts.
Proof.
  intros final z x Hf Hx. destruct (t_input_rel D B b n Hb Hn HD mode z x Hx) as (Ti & ti & ET & Et & HS).
  unfold t_clone_backward, clone_backward. rewrite ET, Et. cbn [bind]. pose proof Ho as [Ho1 Ho2]. rewrite s_length in Ho1, Ho2. rewrite s_parents in Ho2.
  assert (EoT : output_nodes (t_net ke D mode net) [o] = Ok [o]).
  { apply single_node_gen; rewrite ?(t_parents ke D B b n mode net Hb Hn), ?(t_length ke D B b n mode net Hb Hn); auto using (t_acyclic n net shape Hnet). apply (t_unshared ke D n mode net Hn). }
  rewrite EoT. assert (Hcase : fwd = true \/ fwd = false) by (destruct fwd; auto). destruct Hcase as [Ef|Ef]; rewrite Ef; cbn [bind].
  - destruct (t_evaluates ke D B b n mode net shape Hb Hn HD Hnet Ti ti HS) as (Vs & vs & HV & Hv & HR).
    set (h1 := decomon_net ke sp (tnet_opts net) (tnet_network shape net)) in *.
    assert (P1 : parents_of h1 = map snd net) by (unfold h1; rewrite net_parents by exact Hn; apply s_parents).
    assert (L1 : length h1 = length net) by (unfold h1; rewrite net_length by exact Hn; apply s_length).
    assert (S1 : sources_input h1).
    { intros i nod Ei Ep. destruct (net_node_inv ke sp _ _ Hn i nod Ei) as (q & ps & E & ->). cbn in *. subst ps. destruct q as [L|]; [|reflexivity].
      unfold tnet_network in E. rewrite nth_error_map in E. destruct (nth_error net i) as [[q ps]|] eqn:En; [|discriminate E]. cbn in E. injection E; intros EP EQ. subst ps.
      destruct q as [L'|]; [|discriminate EQ]. destruct (Hnet i (Some L') [] En) as [_ [Q _]]. contradiction. }
    assert (ST : sources_input (t_net ke D mode net)).
    { intros i nod Ei Ep. assert (Hi : (i < length net)%nat) by (rewrite <- (t_length ke D B b n mode net Hb Hn); apply nth_error_Some; congruence).
      destruct (nth_error net i) as [[q ps]|] eqn:E; [|apply nth_error_None in E; lia]. rewrite (t_node ke D mode net i q ps E) in Ei. injection Ei; intros <-. cbn in *. subst ps.
      destruct q as [L|]; [|reflexivity]. destruct (Hnet i (Some L) [] E) as [_ [Q _]]. contradiction. }
    assert (T1 : topo h1) by (apply topo_acyclic; rewrite P1; apply (t_acyclic n net shape Hnet)).
    assert (TT : topo (t_net ke D mode net)) by (apply topo_acyclic; rewrite (t_parents ke D B b n mode net Hb Hn); apply (t_acyclic n net shape Hnet)).
    destruct (convert_nodes_eval _ (t_net ke D mode net) (fun _ => None) Ti Vs TT ST ltac:(intros i Q; exfalso; apply Q; reflexivity) HV) as (FT & -> & HFT).
    destruct (convert_nodes_eval _ h1 (fun _ => None) ti vs T1 S1 ltac:(intros i Q; exfalso; apply Q; reflexivity) Hv) as (F1 & -> & HF1). cbn [bind].
    assert (Eo1 : output_nodes h1 [o] = Ok [o]).
    { apply single_node_gen; rewrite ?P1, ?L1; auto using (t_acyclic n net shape Hnet). unfold h1. apply net_unshared. exact Hn. }
    rewrite Eo1. cbn [bind]. apply convert_backward_rel; auto. intros p Hp. rewrite Ef. exists (Vs p), (vs p).
    rewrite HFT by (rewrite (t_length ke D B b n mode net Hb Hn); exact Hp). rewrite HF1 by (rewrite L1; exact Hp). auto.
  - apply convert_backward_rel; auto. intros p Hp. rewrite Ef. auto.
Qed.
End CrownNet.
