(** BatchNormalization and Permute on a batch, sample by sample. *)
From Coq Require Import Reals List Arith Bool ZArith Lia Lra Sorting.Permutation.
From Verif Require Import RLib Spec Spec_Layers Spec_Batch M_Core M_Utils M_MergeLayers M_Ops M_Layers M_Backward M_Convert Spec_Network M_Batch P_Core P_Merge P_Axis P_Move P_Backward P_Batch P_BatchLayers.
Import ListNotations.
Local Open Scope R_scope.

(** ** one coefficient per channel *)
Definition ones_at (p k q : nat) : list nat := repeat 1%nat p ++ k :: repeat 1%nat q.
Lemma chan_shift : forall pre k post m j, (0 < k)%nat -> (0 < prodn post)%nat ->
  (((m * prodn (pre ++ k :: post) + j) / prodn post) mod k = (j / prodn post) mod k)%nat.
Proof.
  intros pre k post m j Hk HP. rewrite P_Batch.prodn_app. cbn [prodn].
  replace (m * (prodn pre * (k * prodn post)) + j)%nat with ((m * prodn pre * k) * prodn post + j)%nat by lia.
  rewrite Nat.div_add_l by lia. rewrite Nat.add_comm, Nat.mod_add by lia. reflexivity.
Qed.
Lemma mid_pos : forall pre k post j, (j < prodn (pre ++ k :: post))%nat -> (0 < prodn pre /\ 0 < k /\ 0 < prodn post)%nat.
Proof. intros pre k post j H. rewrite P_Batch.prodn_app in H. cbn [prodn] in H. repeat split; nia. Qed.
Lemma bc_chan : forall pre k post q, (q < prodn (pre ++ k :: post))%nat ->
  bc_pos (ones_at (length pre) k (length post)) (pre ++ k :: post) q = ((q / prodn post) mod k)%nat.
Proof.
  unfold ones_at. induction pre as [|d pre IH]; intros k post q H; destruct (mid_pos _ _ _ _ H) as (H1 & H2 & H3).
  - cbn [app length repeat bc_pos]. rewrite bc_ones, prodn_ones. cbn [app prodn] in H.
    assert (L : (q / prodn post < k)%nat) by (apply Nat.div_lt_upper_bound; lia). rewrite (Nat.mod_small _ _ L).
    destruct (Nat.eqb_spec k 1); lia.
  - cbn [app length repeat bc_pos Nat.eqb]. cbn [app prodn] in H.
    assert (HN : (0 < prodn (pre ++ k :: post))%nat) by (rewrite P_Batch.prodn_app; cbn [prodn]; cbn [prodn] in H1; nia).
    rewrite IH by (apply Nat.mod_upper_bound; lia). rewrite (Nat.div_mod q (prodn (pre ++ k :: post))) at 2 by lia.
    rewrite (Nat.mul_comm (prodn (pre ++ k :: post))). rewrite chan_shift by auto. lia.
Qed.
Lemma dims_ones_l : forall s, bc_dims (repeat 1%nat (length s)) s = Ok s.
Proof.
  induction s as [|d s IH]; [reflexivity|]. cbn [length repeat bc_dims]. rewrite IH. cbn [bind].
  destruct (Nat.eqb_spec 1 d) as [<-|]; reflexivity.
Qed.
Lemma dims_chan_r : forall pre k post, bc_dims (pre ++ k :: post) (ones_at (length pre) k (length post)) = Ok (pre ++ k :: post).
Proof.
  unfold ones_at. induction pre as [|d pre IH]; intros k post; cbn [app length repeat bc_dims].
  - rewrite dims_ones_r. cbn [bind]. rewrite Nat.eqb_refl. reflexivity.
  - rewrite IH. cbn [bind]. destruct (Nat.eqb_spec d 1) as [->|]; reflexivity.
Qed.
Lemma dims_chan_l : forall pre k post, bc_dims (ones_at (length pre) k (length post)) (pre ++ k :: post) = Ok (pre ++ k :: post).
Proof.
  unfold ones_at. induction pre as [|d pre IH]; intros k post; cbn [app length repeat bc_dims].
  - rewrite dims_ones_l. cbn [bind]. rewrite Nat.eqb_refl. reflexivity.
  - rewrite IH. cbn [bind]. destruct (Nat.eqb_spec 1 d) as [<-|]; reflexivity.
Qed.
Lemma ones_length : forall pre k (post : list nat), length (ones_at (length pre) k (length post)) = length (pre ++ k :: post).
Proof. intros. unfold ones_at. rewrite !app_length. cbn [length]. rewrite !repeat_length. reflexivity. Qed.
Lemma ones_prod : forall p k q, prodn (ones_at p k q) = k.
Proof. intros. unfold ones_at. rewrite P_Batch.prodn_app. cbn [prodn]. rewrite !prodn_ones. lia. Qed.
Lemma k2_chan_r : forall pre k post f t a, nd_shape t = pre ++ k :: post -> nd_shape a = ones_at (length pre) k (length post) ->
  exists r, k2 f t a = Ok r /\ nd_shape r = pre ++ k :: post /\
    forall q, (q < prodn (pre ++ k :: post))%nat -> nd_data r q = f (nd_data t q) (nd_data a ((q / prodn post) mod k)%nat).
Proof.
  intros pre k post f t a E1 E2. unfold k2. rewrite E1, E2.
  rewrite (shape_of _ _ (pre ++ k :: post)) by (rewrite ?ones_length; auto using dims_chan_r). cbn [bind]. eexists. split; [reflexivity|]. split; [reflexivity|].
  intros q Hq. cbn [nd_data]. unfold bc_get. rewrite E1, E2, !pad_id by (rewrite ?ones_length; reflexivity). rewrite bc_same, bc_chan by exact Hq. reflexivity.
Qed.
Lemma k2_chan_l : forall pre k post f t a, nd_shape t = pre ++ k :: post -> nd_shape a = ones_at (length pre) k (length post) ->
  exists r, k2 f a t = Ok r /\ nd_shape r = pre ++ k :: post /\
    forall q, (q < prodn (pre ++ k :: post))%nat -> nd_data r q = f (nd_data a ((q / prodn post) mod k)%nat) (nd_data t q).
Proof.
  intros pre k post f t a E1 E2. unfold k2. rewrite E1, E2.
  rewrite (shape_of _ _ (pre ++ k :: post)) by (rewrite ?ones_length; auto using dims_chan_l). cbn [bind]. eexists. split; [reflexivity|]. split; [reflexivity|].
  intros q Hq. cbn [nd_data]. unfold bc_get. rewrite E1, E2, !pad_id by (rewrite ?ones_length; reflexivity). rewrite bc_same, bc_chan by exact Hq. reflexivity.
Qed.

(** ** K.transpose, K.rnn *)
Lemma perm_pred : forall dims r, Permutation dims (seq 1 r) -> Permutation (map pred dims) (seq 0 r).
Proof. intros dims r H. apply (Permutation_map pred) in H. rewrite map_pred_seq in H. exact H. Qed.
Lemma perm_succ : forall dims r, Permutation dims (seq 1 r) -> map S (map pred dims) = dims.
Proof.
  intros dims r H. rewrite map_map. transitivity (map (fun a => a) dims); [|apply map_id]. apply map_ext_in. intros a Ha.
  apply (Permutation_in _ H) in Ha. apply in_seq in Ha. lia.
Qed.
Lemma perm_batch : forall dims r, Permutation dims (seq 1 r) -> Permutation (0%nat :: dims) (seq 0 (S r)).
Proof. intros dims r H. cbn [seq]. constructor. exact H. Qed.
Lemma k_transpose_ok : forall t perm, Permutation perm (seq 0 (rank t)) ->
  k_transpose t perm = Ok (mk_nd (permuted perm (nd_shape t)) (fun q => nd_data t (transpose_idx (nd_shape t) perm q))).
Proof.
  intros t perm H. unfold k_transpose. rewrite (Permutation_length H), seq_length, Nat.eqb_refl. cbn [andb].
  rewrite (proj2 (forallb_forall _ _)); [reflexivity|]. intros a Ha. apply existsb_exists. exists a. split; [|apply Nat.eqb_refl].
  apply (Permutation_in _ (Permutation_sym H)). exact Ha.
Qed.

Lemma permuted_snoc : forall perm s d, (forall a, In a perm -> (a < length s)%nat) -> permuted (perm ++ [length s]) (s ++ [d]) = permuted perm s ++ [d].
Proof.
  intros perm s d H. unfold permuted. rewrite map_app. f_equal.
  - apply map_ext_in. intros a Ha. apply app_nth1. apply H; exact Ha.
  - cbn [map]. rewrite app_nth2 by lia. rewrite Nat.sub_diag. reflexivity.
Qed.
Lemma transpose_snoc : forall perm s N i c, Permutation perm (seq 0 (length s)) -> (i < prodn (permuted perm s))%nat -> (c < N)%nat ->
  transpose_idx (s ++ [N]) (perm ++ [length s]) (i * N + c) = (transpose_idx s perm i * N + c)%nat.
Proof.
  intros perm s N i c HP Hi Hc. destruct (transpose_split perm s i HP Hi) as (p & I & ->). rewrite transpose_at by auto.
  assert (L : length p = length s) by (symmetry; apply in_shape_length; exact I).
  assert (HI : forall a, In a perm -> (a < length s)%nat) by (intros a Ha; apply (perm_in perm _ _ HP); exact Ha).
  assert (HP' : Permutation (perm ++ [length s]) (seq 0 (length (s ++ [N])))).
  { rewrite app_length. cbn [length]. rewrite seq_app. cbn [seq Nat.add]. apply Permutation_app_tail. exact HP. }
  assert (I' : in_shape (s ++ [N]) (p ++ [c])) by (apply in_shape_app; [exact I|constructor; [exact Hc|constructor]]).
  pose proof (transpose_at _ _ _ HP' I') as Q. rewrite permuted_snoc in Q by exact HI.
  rewrite <- L in Q at 2. rewrite (permuted_snoc perm p c) in Q by (rewrite L; exact HI).
  rewrite !ravel_app in Q by (auto using in_shape_permuted). cbn [ravel prodn] in Q. rewrite ?Nat.mul_1_r, ?Nat.add_0_r in Q. exact Q.
Qed.
Lemma index_of_app : forall a l l', In a l -> index_of a (l ++ l') = index_of a l.
Proof.
  intros a. induction l as [|x l IH]; intros l' H; [destruct H|]. cbn [app index_of]. destruct (Nat.eqb_spec a x); [reflexivity|]. f_equal. apply IH.
  destruct H as [E|H]; [congruence|exact H].
Qed.
Lemma index_of_new : forall a l, ~ In a l -> index_of a (l ++ [a]) = length l.
Proof.
  intros a. induction l as [|x l IH]; intros H; cbn [app index_of length]; [rewrite Nat.eqb_refl; reflexivity|].
  destruct (Nat.eqb_spec a x) as [E|_]; [exfalso; apply H; left; congruence|]. f_equal. apply IH. intros Q. apply H. right; exact Q.
Qed.
Lemma index_of_pred : forall a l, (0 < a)%nat -> (forall x, In x l -> (0 < x)%nat) -> index_of a l = index_of (pred a) (map pred l).
Proof.
  intros a l Ha. induction l as [|x l IH]; intros H; [reflexivity|]. cbn [map index_of]. pose proof (H x (or_introl eq_refl)).
  destruct (Nat.eqb_spec a x) as [->|E].
  - rewrite Nat.eqb_refl. reflexivity.
  - destruct (Nat.eqb_spec (pred a) (pred x)); [lia|]. f_equal. apply IH. intros; apply H; right; assumption.
Qed.
Lemma inverse_ext : forall dims r, Permutation dims (seq 1 r) ->
  inverse_perm (0%nat :: dims ++ [S r]) = 0%nat :: map S (inverse_perm (map pred dims)) ++ [S r].
Proof.
  intros dims r H. unfold inverse_perm. cbn [length]. rewrite app_length. cbn [length]. rewrite map_length, (Permutation_length H), seq_length.
  cbn [seq map]. rewrite seq_app. cbn [seq Nat.add]. rewrite map_app. cbn [map]. f_equal.
  assert (HI : forall x, In x dims -> (1 <= x <= r)%nat) by (intros x Hx; apply (Permutation_in _ H) in Hx; apply in_seq in Hx; lia).
  f_equal.
  - rewrite map_map. rewrite <- seq_shift, map_map. apply map_ext_in. intros a Ha. apply in_seq in Ha.
    assert (Hin : In (S a) dims) by (apply (Permutation_in _ (Permutation_sym H)), in_seq; lia).
    cbn [index_of Nat.eqb]. rewrite index_of_app by exact Hin. rewrite index_of_pred; [reflexivity|lia|]. intros x Hx. specialize (HI x Hx). lia.
  - cbn [index_of Nat.eqb]. rewrite index_of_new by (intros Q; specialize (HI _ Q); lia). rewrite (Permutation_length H), seq_length. reflexivity.
Qed.

Section Layers.
Variables (D : domain) (B b n : nat).
Hypothesis Hb : (b < B)%nat.
Hypothesis Hn : (0 < n)%nat.
Hypothesis HD : norm_ok D.
Notation SV := (sample_vec B b).
Notation SM := (sample_mat B b n).

Lemma k_transpose_vec : forall s dims t v, Permutation dims (seq 1 (length s)) -> SV s t v ->
  exists r, k_transpose t (0%nat :: dims) = Ok r /\ SV (permuted (map pred dims) s) r (fun j => v (transpose_idx s (map pred dims) j)).
Proof.
  intros s dims t v HP [E H]. pose proof (perm_pred _ _ HP) as HP1. pose proof (perm_batch _ _ HP) as HP2.
  rewrite k_transpose_ok by (unfold rank; rewrite E; exact HP2). eexists. split; [reflexivity|]. rewrite E.
  assert (Es : forall d p, permuted (0%nat :: dims) (d :: p) = d :: permuted (map pred dims) p).
  { intros d p. rewrite <- (permuted_cons (map pred dims)). rewrite (perm_succ _ _ HP). reflexivity. }
  split; [cbn [nd_shape]; apply Es|]. intros j Hj. cbn [nd_data]. destruct (transpose_split _ s j HP1 Hj) as (p & I & ->).
  rewrite (transpose_at _ s p HP1 I).
  assert (I' : in_shape (B :: s) (b :: p)) by (constructor; auto).
  pose proof (transpose_at (0%nat :: dims) (B :: s) (b :: p) HP2 I') as Q. rewrite !Es in Q. cbn [ravel] in Q. rewrite Q. cbn [ravel].
  apply H. apply ravel_lt. exact I.
Qed.
Lemma k_rnn_map : forall s s' step (idx : nat -> nat) t w,
  (forall x v, SV s x v -> exists r, step x = Ok r /\ SV s' r (fun j => v (idx j))) ->
  SM s t w -> exists r, k_rnn step t = Ok r /\ SM s' r (fun i j => w i (idx j)).
Proof.
  intros s s' step idx t w Hstep Hw. pose proof Hw as [E _]. unfold k_rnn. rewrite E.
  destruct (mapR_seq B b Hb nd (fun i => x <- k_index t i ; step x) (fun i r => SV s' r (fun j => w i (idx j))) 0 n) as (l & El & Hl & Pl).
  { intros i Hi. destruct (k_index_mat B b Hb n s t w i ltac:(lia) Hw) as (x & Ex & Hx). rewrite Ex. cbn [bind]. apply (Hstep x (w i) Hx). }
  rewrite El. cbn [bind]. destruct l as [|y q] eqn:Eq; [cbn in Hl; lia|]. rewrite <- Eq in *.
  pose proof (Pl 0%nat y Hn) as [Ey _]. rewrite Eq in Ey. cbn [nth] in Ey. rewrite Ey. eexists; split; [reflexivity|].
  unfold k_stack. rewrite Hl. split; [reflexivity|]. intros i j Hi Hj. cbn [nd_data].
  destruct (dm (b * n + i) (prodn s') j Hj) as [-> ->]. destruct (dm b n i Hi) as [-> ->].
  apply (Pl i (mk_nd [] (fun _ => 0)) Hi). exact Hj.
Qed.
Lemma t_permute_rel : forall mode s dims T ts, Permutation dims (seq 1 (length s)) -> sample D mode B b n s T ts ->
  exists T' ts', t_permute D mode dims T = Ok T' /\ decomon_permute (mk_spec false mode D n) s dims ts = Ok ts' /\
    sample D mode B b n (permuted (map pred dims) s) T' ts'.
Proof.
  intros mode s dims T ts HP H. unfold t_permute, decomon_permute.
  destruct (fullinputs_rel D B b n Hb Hn HD mode false true s T ts H) as (F & r & -> & -> & [[Ha Hi] _]). cbn [bind]. rewrite has_ibp_false in Hi. cbv zeta. cbn [sp_mode sp_dc].
  set (target := permuted (map pred dims) s). set (idx := transpose_idx s (map pred dims)).
  assert (V : forall t v, SV s t v -> exists r, k_transpose t (0%nat :: dims) = Ok r /\ SV target r (fun j => v (idx j))) by (intros t v Ht; apply k_transpose_vec; auto).
  assert (I : exists tu tl, t_when (get_ibp mode) (k_transpose (f_uc F) (0%nat :: dims)) = Ok tu /\ t_when (get_ibp mode) (k_transpose (f_lc F) (0%nat :: dims)) = Ok tl /\
     (get_ibp mode = true -> SV target tu (fun j => f_uc r 0%nat (idx j)) /\ SV target tl (fun j => f_lc r 0%nat (idx j)))).
  { destruct (get_ibp mode); cbn [t_when]; [|exists none_nd, none_nd; split; [reflexivity|]; split; [reflexivity|discriminate]].
    destruct (Hi eq_refl) as [U L]. destruct (V _ _ U) as (a & Ea & Hau). destruct (V _ _ L) as (c & Ec & Hc). exists a, c. auto. }
  destruct I as (tu & tl & -> & -> & HI). cbn [bind]. destruct (get_affine mode) eqn:Em; cbn [t_when].
  - destruct (Ha eq_refl) as (HX & A1 & A2 & A3 & A4).
    destruct (V _ _ A2) as (b0 & -> & Hb0). cbn [bind]. destruct (V _ _ A4) as (b1 & -> & Hb1). cbn [bind].
    rewrite (rank_mat _ _ _ _ _ _ A1), (rank_vec _ _ _ _ _ A2).
    assert (En : Nat.eqb (S (S (length s))) (S (length s)) = false) by (apply Nat.eqb_neq; lia). rewrite En. clear En.
    destruct (k_rnn_map s target (fun t => k_transpose t (0%nat :: dims)) idx _ _ V A1) as (w0 & -> & Hw0). cbn [bind].
    destruct (k_rnn_map s target (fun t => k_transpose t (0%nat :: dims)) idx _ _ V A3) as (w1 & -> & Hw1). cbn [bind].
    eexists _, _. split; [reflexivity|]. split; [reflexivity|]. apply extract_rel. rewrite Em. split; intros Q.
    + unfold aff_rel, move_full, gather. cbn [sp_mode]. rewrite Em. cbn [f_x f_wu f_bu f_wl f_bl when]. auto.
    + unfold ibp_rel, move_full, gather. cbn [sp_mode]. rewrite Q. cbn [f_uc f_lc when]. apply HI; exact Q.
  - cbn [bind]. eexists _, _. split; [reflexivity|]. split; [reflexivity|]. apply extract_rel. rewrite Em. split; [discriminate|]. intros Q.
    unfold ibp_rel, move_full, gather. cbn [sp_mode]. rewrite Q. cbn [f_uc f_lc when]. apply HI; exact Q.
Qed.

(** ** BatchNormalization *)
Section Chan.
Variables (pre : list nat) (k : nat) (post : list nat).
Notation s := (pre ++ k :: post).
Notation ch := (bn_chan s (length pre)).
Definition chan (a : nd) (c : vec) : Prop := nd_shape a = ones_at (S (length pre)) k (length post) /\ forall i, (i < k)%nat -> nd_data a i = c i.

Lemma ch_eq : forall m j, (j < prodn s)%nat -> (((m * prodn s + j) / prodn post) mod k = ch j /\ ch j < k)%nat.
Proof using. clear Hb Hn HD.
  intros m j Hj. destruct (mid_pos _ _ _ _ Hj) as (_ & Hk & HP). rewrite chan_shift by auto. unfold bn_chan. rewrite ax_len_mid, ax_inner_mid.
  split; [reflexivity|]. apply Nat.mod_upper_bound. lia.
Qed.
Lemma chan_k1 : forall f a c, chan a c -> chan (k1 f a) (fun i => f (c i)).
Proof. intros f a c [E H]. split; [exact E|]. intros i Hi. cbn [k1 nd_data]. rewrite H by exact Hi. reflexivity. Qed.
Lemma chan_vec_r : forall f t a v c, SV s t v -> chan a c -> exists r, k2 f t a = Ok r /\ SV s r (fun j => f (v j) (c (ch j))).
Proof.
  intros f t a v c [E1 H1] [E2 H2]. destruct (k2_chan_r (B :: pre) k post f t a E1 E2) as (r & Er & Es & Hr). exists r. split; [exact Er|]. split; [exact Es|].
  intros j Hj. rewrite Hr by (cbn [app prodn]; apply pos_lt; auto). destruct (ch_eq b j Hj) as [-> L]. rewrite H1, H2 by auto. reflexivity.
Qed.
Lemma chan_vec_l : forall f a t c v, chan a c -> SV s t v -> exists r, k2 f a t = Ok r /\ SV s r (fun j => f (c (ch j)) (v j)).
Proof.
  intros f a t c v [E2 H2] [E1 H1]. destruct (k2_chan_l (B :: pre) k post f t a E1 E2) as (r & Er & Es & Hr). exists r. split; [exact Er|]. split; [exact Es|].
  intros j Hj. rewrite Hr by (cbn [app prodn]; apply pos_lt; auto). destruct (ch_eq b j Hj) as [-> L]. rewrite H1, H2 by auto. reflexivity.
Qed.
Lemma expand_shape : forall a c, chan a c -> nd_shape (k_expand a 1) = ones_at (S (S (length pre))) k (length post).
Proof using. clear Hb Hn HD. intros a c [E _]. unfold k_expand. cbn [nd_shape]. rewrite E. reflexivity. Qed.
Lemma chan_mat_r : forall f t a v c, SM s t v -> chan a c -> exists r, k2 f t (k_expand a 1) = Ok r /\ SM s r (fun i j => f (v i j) (c (ch j))).
Proof.
  intros f t a v c [E1 H1] HC. destruct (k2_chan_r (B :: n :: pre) k post f t (k_expand a 1) E1 (expand_shape a c HC)) as (r & Er & Es & Hr). exists r. split; [exact Er|]. split; [exact Es|].
  intros i j Hi Hj. rewrite Hr by (cbn [app prodn]; apply mat_pos; auto). destruct (ch_eq (b * n + i) j Hj) as [-> L]. rewrite H1 by auto.
  change (nd_data (k_expand a 1)) with (nd_data a). rewrite (proj2 HC) by auto. reflexivity.
Qed.
Lemma chan_mat_l : forall f a t c v, chan a c -> SM s t v -> exists r, k2 f (k_expand a 1) t = Ok r /\ SM s r (fun i j => f (c (ch j)) (v i j)).
Proof.
  intros f a t c v HC [E1 H1]. destruct (k2_chan_l (B :: n :: pre) k post f t (k_expand a 1) E1 (expand_shape a c HC)) as (r & Er & Es & Hr). exists r. split; [exact Er|]. split; [exact Es|].
  intros i j Hi Hj. rewrite Hr by (cbn [app prodn]; apply mat_pos; auto). destruct (ch_eq (b * n + i) j Hj) as [-> L]. rewrite H1 by auto.
  change (nd_data (k_expand a 1)) with (nd_data a). rewrite (proj2 HC) by auto. reflexivity.
Qed.
Lemma chan_reshape : forall a, nd_shape a = [k] -> exists r, k_reshape_to (k1 (fun v => v + 0) a) (ones_at (S (length pre)) k (length post)) = Ok r /\ chan r (nd_data a).
Proof using. clear Hb Hn HD.
  intros a E. unfold k_reshape_to. cbn [k1 nd_shape]. rewrite E, ones_prod. cbn [prodn]. rewrite Nat.mul_1_r, Nat.eqb_refl. eexists. split; [reflexivity|].
  split; [reflexivity|]. intros i _. cbn [nd_data]. apply Rplus_0_r.
Qed.
Lemma axis_norm : forall axis, axis = pos_axis pre \/ axis = neg_axis post -> norm_axis (S (length s)) axis = Ok (S (length pre)).
Proof using. clear Hb Hn HD.
  intros axis H. assert (L : length s = (length pre + S (length post))%nat) by (rewrite app_length; reflexivity). destruct H as [-> | ->].
  - unfold pos_axis. apply norm_axis_pos. lia.
  - unfold neg_axis. replace (-1 - Z.of_nat (length post))%Z with (Z.of_nat (S (length pre)) - Z.of_nat (S (length s)))%Z by lia. apply norm_axis_neg. lia.
Qed.
Lemma bn_shape_eq : forall axis c, axis = pos_axis pre \/ axis = neg_axis post -> bn_shape (S (length s)) axis c = Ok (ones_at (S (length pre)) c (length post)).
Proof using. clear Hb Hn HD.
  intros axis c H. unfold bn_shape. rewrite (axis_norm axis H). cbn [bind]. unfold ones_at. do 4 f_equal. rewrite app_length. cbn [length]. lia.
Qed.
Lemma block_axis_eq : forall axis, axis = pos_axis pre \/ axis = neg_axis post -> block_axis (length s) axis = length pre.
Proof using. clear Hb Hn HD.
  intros axis H. assert (L : length s = (length pre + S (length post))%nat) by (rewrite app_length; reflexivity). unfold block_axis. destruct H as [-> | ->].
  - unfold pos_axis. destruct (Z.ltb_spec (Z.of_nat (S (length pre))) 0); lia.
  - unfold neg_axis. destruct (Z.ltb_spec (-1 - Z.of_nat (length post)) 0); lia.
Qed.
Lemma bn_layer_eq : forall axis gamma beta mean var eps, axis = pos_axis pre \/ axis = neg_axis post ->
  tl_layer [s] (TBatchNorm axis gamma beta mean var eps) = NBatchNorm pre k post axis (option_map nd_data gamma) (option_map nd_data beta) (nd_data mean) (nd_data var) eps.
Proof using. clear Hb Hn HD.
  intros axis gamma beta mean var eps H. cbn [tl_layer hd]. cbv zeta. rewrite (block_axis_eq axis H). f_equal.
  - rewrite firstn_app, Nat.sub_diag, firstn_all, firstn_O, app_nil_r. reflexivity.
  - rewrite app_nth2 by lia. rewrite Nat.sub_diag. reflexivity.
  - replace (S (length pre)) with (length (pre ++ [k])) by (rewrite app_length; cbn; lia).
    replace s with ((pre ++ [k]) ++ post) by (rewrite <- app_assoc; reflexivity). rewrite skipn_app, skipn_all, Nat.sub_diag. reflexivity.
Qed.
End Chan.

Lemma last_vec : forall mode s T ts, sample D mode B b n s T ts -> exists v, SV s (last T none_nd) v.
Proof.
  intros mode s T ts H. unfold sample in H.
  destruct mode; cbn [kinds] in H;
    repeat match goal with H : Forall3 _ _ _ _ |- _ => inversion H; subst; clear H end; cbn [sample_kind] in *;
    (eexists; cbn [last]; eassumption).
Qed.
Lemma t_bn_rel : forall mode pre k post axis gamma beta mean var eps T ts,
  axis = pos_axis pre \/ axis = neg_axis post -> nd_shape mean = [k] -> nd_shape var = [k] ->
  (forall a, gamma = Some a -> nd_shape a = [k]) -> (forall a, beta = Some a -> nd_shape a = [k]) ->
  sample D mode B b n (pre ++ k :: post) T ts ->
  exists T' ts', t_bn D mode axis gamma beta mean var eps T = Ok T' /\
    decomon_bn (mk_spec false mode D n) (pre ++ k :: post) axis (option_map nd_data gamma) (option_map nd_data beta) (nd_data mean) (nd_data var) eps false ts = Ok ts' /\
    sample D mode B b n (pre ++ k :: post) T' ts'.
Proof.
  intros mode pre k post axis gamma beta mean var eps T ts Hax Em Ev Eg Eb H. unfold t_bn, decomon_bn.
  destruct (last_vec mode _ T ts H) as [v0 Hv0]. rewrite (rank_vec _ _ _ _ _ Hv0).
  destruct (fullinputs_rel D B b n Hb Hn HD mode false true _ T ts H) as (F & r & -> & -> & [[Ha Hi] _]). cbn [bind]. rewrite has_ibp_false in Hi.
  rewrite Em. cbn [hd]. rewrite (bn_shape_eq pre k post axis k Hax). cbn [bind].
  assert (EA : b_axis (pre ++ k :: post) axis = Ok (length pre)) by (destruct Hax as [-> | ->]; [apply b_axis_pos|apply b_axis_neg]). rewrite EA. cbn [bind].
  set (s := pre ++ k :: post) in *. set (ch := bn_chan s (length pre)).
  assert (Ga : exists ga, match gamma with Some a => k_reshape_to (k1 (fun v => v + 0) a) (ones_at (S (length pre)) k (length post)) | None => Ok (mk_nd (ones_at (S (length pre)) k (length post)) (fun _ => 1)) end = Ok ga /\
     chan pre k post ga (match option_map nd_data gamma with Some g => g | None => fun _ => 1 end)).
  { destruct gamma as [a|]; cbn [option_map]; [apply chan_reshape; apply Eg; reflexivity|]. eexists. split; [reflexivity|]. split; reflexivity. }
  destruct Ga as (ga & -> & Hga). cbn [bind].
  assert (Be : exists be, match beta with Some a => k_reshape_to (k1 (fun v => v + 0) a) (ones_at (S (length pre)) k (length post)) | None => Ok (mk_nd (ones_at (S (length pre)) k (length post)) (fun _ => 0)) end = Ok be /\
     chan pre k post be (match option_map nd_data beta with Some g => g | None => fun _ => 0 end)).
  { destruct beta as [a|]; cbn [option_map]; [apply chan_reshape; apply Eb; reflexivity|]. eexists. split; [reflexivity|]. split; reflexivity. }
  destruct Be as (be & -> & Hbe). cbn [bind].
  destruct (chan_reshape pre k post mean Em) as (me & -> & Hme). cbn [bind].
  destruct (chan_reshape pre k post var Ev) as (va & -> & Hva). cbn [bind]. cbv zeta.
  set (cg := match option_map nd_data gamma with Some g => g | None => fun _ : nat => 1 end) in *.
  set (cb := match option_map nd_data beta with Some g => g | None => fun _ : nat => 0 end) in *.
  set (cm := nd_data mean) in *. set (cv := nd_data var) in *.
  pose proof (chan_k1 pre k post (fun v => sqrt (v + eps)) va cv Hva) as Hsd.
  assert (NV : forall t v, SV s t v -> exists o, (p <- k2 Rminus t me ; k2 Rdiv p (k1 (fun v => sqrt (v + eps)) va)) = Ok o /\
     SV s o (fun j => (v j - cm (ch j)) / sqrt (cv (ch j) + eps))).
  { intros t v Ht. destruct (chan_vec_r pre k post Rminus t me v cm Ht Hme) as (p & -> & Hp). cbn [bind].
    apply (chan_vec_r pre k post Rdiv p _ _ _ Hp Hsd). }
  assert (CV : forall t0 t1 v0 v1, SV s t0 v0 -> SV s t1 v1 ->
     exists o, (p <- (p <- k2 Rmult (k1 (fun v => Rmax 0 v) ga) t0 ; q <- k2 Rmult (k1 (fun v => Rmin 0 v) ga) t1 ; k2 Rplus p q) ; k2 Rplus p be) = Ok o /\
     SV s o (fun j => Rmax 0 (cg (ch j)) * v0 j + Rmin 0 (cg (ch j)) * v1 j + cb (ch j))).
  { intros t0 t1 w0 w1 H0 H1. destruct (chan_vec_l pre k post Rmult _ t0 _ w0 (chan_k1 pre k post (fun v => Rmax 0 v) ga cg Hga) H0) as (p & -> & Hp). cbn [bind].
    destruct (chan_vec_l pre k post Rmult _ t1 _ w1 (chan_k1 pre k post (fun v => Rmin 0 v) ga cg Hga) H1) as (q & -> & Hq). cbn [bind].
    destruct (k2_vec B b Hb s Rplus p q _ _ Hp Hq) as (o & -> & Ho). cbn [bind]. apply (chan_vec_r pre k post Rplus o be _ _ Ho Hbe). }
  assert (NM : forall t w, SM s t w -> exists o, k2 Rdiv t (k1 (fun v => sqrt (v + eps)) (k_expand va 1)) = Ok o /\
     SM s o (fun i j => w i j / sqrt (cv (ch j) + eps))).
  { intros t w Ht. apply (chan_mat_r pre k post Rdiv t _ w _ Ht Hsd). }
  assert (CM : forall t0 t1 w0 w1, SM s t0 w0 -> SM s t1 w1 ->
     exists o, (p <- k2 Rmult (k1 (fun v => Rmax 0 v) (k_expand ga 1)) t0 ; q <- k2 Rmult (k1 (fun v => Rmin 0 v) (k_expand ga 1)) t1 ; k2 Rplus p q) = Ok o /\
     SM s o (fun i j => Rmax 0 (cg (ch j)) * w0 i j + Rmin 0 (cg (ch j)) * w1 i j)).
  { intros t0 t1 w0 w1 H0 H1.
    destruct (chan_mat_l pre k post Rmult _ t0 _ w0 (chan_k1 pre k post (fun v => Rmax 0 v) ga cg Hga) H0) as (p & Ep & Hp).
    destruct (chan_mat_l pre k post Rmult _ t1 _ w1 (chan_k1 pre k post (fun v => Rmin 0 v) ga cg Hga) H1) as (q & Eq & Hq).
    change (k_expand (k1 (fun v => Rmax 0 v) ga) 1) with (k1 (fun v => Rmax 0 v) (k_expand ga 1)) in Ep.
    change (k_expand (k1 (fun v => Rmin 0 v) ga) 1) with (k1 (fun v => Rmin 0 v) (k_expand ga 1)) in Eq. rewrite Ep. cbn [bind]. rewrite Eq. cbn [bind].
    apply (k2_mat B b Hb n s Rplus p q _ _ Hp Hq). }
  cbn [sp_mode].
  assert (I : exists u0 l0 u l, t_when (get_ibp mode) (p <- k2 Rminus (f_uc F) me ; k2 Rdiv p (k1 (fun v => sqrt (v + eps)) va)) = Ok u0 /\
     t_when (get_ibp mode) (p <- k2 Rminus (f_lc F) me ; k2 Rdiv p (k1 (fun v => sqrt (v + eps)) va)) = Ok l0 /\
     t_when (get_ibp mode) (p <- (p <- k2 Rmult (k1 (fun v => Rmax 0 v) ga) u0 ; q <- k2 Rmult (k1 (fun v => Rmin 0 v) ga) l0 ; k2 Rplus p q) ; k2 Rplus p be) = Ok u /\
     t_when (get_ibp mode) (p <- (p <- k2 Rmult (k1 (fun v => Rmax 0 v) ga) l0 ; q <- k2 Rmult (k1 (fun v => Rmin 0 v) ga) u0 ; k2 Rplus p q) ; k2 Rplus p be) = Ok l /\
     (get_ibp mode = true ->
       SV s u (fun j => Rmax 0 (cg (ch j)) * ((f_uc r 0%nat j - cm (ch j)) / sqrt (cv (ch j) + eps)) + Rmin 0 (cg (ch j)) * ((f_lc r 0%nat j - cm (ch j)) / sqrt (cv (ch j) + eps)) + cb (ch j)) /\
       SV s l (fun j => Rmax 0 (cg (ch j)) * ((f_lc r 0%nat j - cm (ch j)) / sqrt (cv (ch j) + eps)) + Rmin 0 (cg (ch j)) * ((f_uc r 0%nat j - cm (ch j)) / sqrt (cv (ch j) + eps)) + cb (ch j)))).
  { destruct (get_ibp mode); cbn [t_when]; [|exists none_nd, none_nd, none_nd, none_nd; repeat (split; [reflexivity|]); discriminate].
    destruct (Hi eq_refl) as [U L]. destruct (NV _ _ U) as (u0 & Eu0 & Hu0). destruct (NV _ _ L) as (l0 & El0 & Hl0).
    destruct (CV _ _ _ _ Hu0 Hl0) as (u & Eu & Hu). destruct (CV _ _ _ _ Hl0 Hu0) as (l & El & Hl). exists u0, l0, u, l. auto 8. }
  destruct I as (u0 & l0 & u & l & -> & -> & I3 & I4 & HI). cbn [bind]. rewrite I3. cbn [bind]. rewrite I4. cbn [bind].
  destruct (get_affine mode) eqn:Eaf; cbn [t_when].
  - destruct (Ha eq_refl) as (HX & A1 & A2 & A3 & A4).
    destruct (NV _ _ A2) as (b0 & -> & Hb0). cbn [bind]. destruct (NV _ _ A4) as (b1 & -> & Hb1). cbn [bind].
    destruct (CV _ _ _ _ Hb0 Hb1) as (b2 & -> & Hb2). cbn [bind]. destruct (CV _ _ _ _ Hb1 Hb0) as (b3 & -> & Hb3). cbn [bind].
    destruct (NM _ _ A1) as (w0 & -> & Hw0). cbn [bind]. destruct (NM _ _ A3) as (w1 & -> & Hw1). cbn [bind].
    destruct (CM _ _ _ _ Hw0 Hw1) as (w2 & -> & Hw2). cbn [bind]. destruct (CM _ _ _ _ Hw1 Hw0) as (w3 & -> & Hw3). cbn [bind].
    eexists _, _. split; [reflexivity|]. split; [unfold finish; cbn [sp_dc sp_mode]; reflexivity|]. apply extract_rel. rewrite Eaf. split; intros Q.
    + unfold aff_rel. cbn [f_x f_wu f_bu f_wl f_bl when]. auto 8.
    + unfold ibp_rel. rewrite Q. cbn [f_uc f_lc when]. apply HI; exact Q.
  - cbn [bind]. eexists _, _. split; [reflexivity|]. split; [unfold finish; cbn [sp_dc sp_mode]; reflexivity|]. apply extract_rel. rewrite Eaf. split; [discriminate|]. intros Q.
    unfold ibp_rel. rewrite Q. cbn [f_uc f_lc when]. apply HI; exact Q.
Qed.
End Layers.
