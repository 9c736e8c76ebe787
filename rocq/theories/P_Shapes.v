(** Proofs about shapes *)
From Coq Require Import List Arith Bool ZArith Lia Permutation.
From Verif Require Import RLib Spec Spec_Shapes M_Core M_Ops M_Shapes P_Core.
Import ListNotations.

Lemma dim_eqb_eq : forall a b, dim_eqb a b = true <-> a = b.
Proof.
  intros [x|] [y|]; cbn; split; intro E; try discriminate; try reflexivity.
  - apply Nat.eqb_eq in E. now subst.
  - injection E as ->. apply Nat.eqb_refl.
Qed.
Lemma dim_eqb_refl : forall a, dim_eqb a a = true.
Proof. intro a. now apply dim_eqb_eq. Qed.
Lemma sh_eqb_eq : forall s t, sh_eqb s t = true <-> s = t.
Proof.
  induction s as [|a q IH]; intros [|b r]; cbn; split; intro E; try discriminate; try reflexivity.
  - apply andb_true_iff in E as [E F]. apply dim_eqb_eq in E. apply IH in F. now subst.
  - injection E as -> ->. rewrite dim_eqb_refl. cbn. now apply IH.
Qed.
Lemma sh_eqb_refl : forall s, sh_eqb s s = true.
Proof. intro s. now apply sh_eqb_eq. Qed.

Lemma dim_bcast_refl : forall a, dim_bcast a a = Ok a.
Proof. intros [[|[|x]]|]; cbn; try reflexivity. now rewrite Nat.eqb_refl. Qed.
Lemma dim_bcast_one : forall a, dim_bcast (Some 1) a = Ok a.
Proof. reflexivity. Qed.
Lemma bcast_rev_refl : forall s, bcast_rev s s = Ok s.
Proof. induction s as [|a q IH]; [reflexivity|]. cbn [bcast_rev]. rewrite dim_bcast_refl. cbn. now rewrite IH. Qed.
Lemma s_bin_refl : forall s, s_bin s s = Ok s.
Proof. intro s. unfold s_bin. rewrite bcast_rev_refl. cbn. now rewrite rev_involutive. Qed.

Lemma bcast_rev_app : forall p s t r, bcast_rev s t = Ok r -> bcast_rev (p ++ s) (p ++ t) = Ok (p ++ r).
Proof.
  induction p as [|a p IH]; intros s t r E; [exact E|]. cbn [app bcast_rev]. rewrite dim_bcast_refl. cbn. now rewrite (IH _ _ _ E).
Qed.
Lemma s_bin_expand : forall b n s, s_bin (b :: Some 1 :: s) (b :: n :: s) = Ok (b :: n :: s).
Proof.
  intros b n s. unfold s_bin. cbn [rev]. rewrite <- !app_assoc.
  rewrite (bcast_rev_app _ ([Some 1] ++ [b]) ([n] ++ [b]) [n; b]).
  2:{ cbn [app bcast_rev]. rewrite dim_bcast_one. cbn. rewrite dim_bcast_refl. reflexivity. }
  cbn. rewrite rev_app_distr, rev_involutive. reflexivity.
Qed.
Lemma s_bin_bias : forall s u, s_bin (s ++ [u]) [u] = Ok (s ++ [u]).
Proof.
  intros s u. unfold s_bin. rewrite rev_app_distr. cbn. rewrite dim_bcast_refl. cbn.
  destruct (rev s) eqn:E.
  - cbn. apply (f_equal (@rev _)) in E. rewrite rev_involutive in E. now subst.
  - cbn. rewrite <- (rev_involutive s), E. reflexivity.
Qed.
Lemma s_dot_app : forall s d u, s_dot (s ++ [d]) [d; u] = Ok (s ++ [u]).
Proof. intros. unfold s_dot. rewrite rev_app_distr. cbn. rewrite dim_eqb_refl. cbn. now rewrite rev_involutive. Qed.

Lemma numel_map : forall s, numel (map Some s) = Some (size_of s).
Proof. induction s as [|a q IH]; cbn; [reflexivity|]. now rewrite IH. Qed.
Lemma known_map : forall s, known (map Some s) = size_of s.
Proof. induction s as [|a q IH]; cbn; [reflexivity|]. now rewrite IH. Qed.
Lemma unknowns_map : forall s, unknowns (map Some s) = 0.
Proof. induction s as [|a q IH]; cbn; congruence. Qed.
Lemma fill_map : forall (k : nat) s, map (fun d => match d with None => Some k | _ => d end) (map Some s) = map Some s.
Proof. intro k. induction s as [|a q IH]; cbn; [reflexivity|]. now rewrite IH. Qed.
Lemma size_pos : forall s, Forall (lt 0) s -> 0 < size_of s.
Proof. induction 1 as [|a q P F IH]; cbn [size_of]; [lia|]. nia. Qed.
Lemma size_app : forall s t, size_of (s ++ t) = size_of s * size_of t.
Proof. induction s as [|a q IH]; intro t; cbn [size_of app]; [lia|]. rewrite IH. lia. Qed.

Lemma reshape_ok : forall b s t, size_of s = size_of t -> 0 < size_of t ->
  s_reshape (b :: map Some s) (b :: map Some t) = Ok (b :: map Some t).
Proof.
  intros b s t E P. unfold s_reshape. destruct b as [b|]; cbn [unknowns]; rewrite unknowns_map.
  - cbn [numel]. rewrite !numel_map, E, Nat.eqb_refl. reflexivity.
  - cbn [known numel]. rewrite known_map. destruct (Nat.eqb_spec (size_of t) 0); [lia|]. reflexivity.
Qed.
Lemma reshape_weight : forall b n s, 0 < n -> 0 < size_of s ->
  s_reshape (b :: Some n :: map Some s) [None; Some n; Some (size_of s)] = Ok [b; Some n; Some (size_of s)].
Proof.
  intros b n s N P. unfold s_reshape. cbn [unknowns known]. destruct (Nat.eqb_spec (n * (size_of s * 1)) 0) as [E|E]; [nia|].
  destruct b as [b|]; cbn [numel]; [|reflexivity]. rewrite numel_map.
  replace (b * (n * size_of s)) with (b * (n * (size_of s * 1))) by lia.
  rewrite Nat.mod_mul by exact E. cbn [Nat.eqb map]. now rewrite Nat.div_mul by exact E.
Qed.

Lemma transpose_ok : forall b s dims, Permutation dims (seq 1 (length s)) ->
  s_transpose (0 :: dims) (b :: map Some s) = Ok (b :: map Some (map (fun d => nth (d - 1) s 0) dims)).
Proof.
  intros b s dims P. unfold s_transpose. cbn [length]. rewrite map_length.
  pose proof (Permutation_length P) as E. rewrite seq_length in E. rewrite E, Nat.eqb_refl.
  cbn [mapR nth_error bind].
  assert (H : Forall (fun d => 1 <= d <= length s) dims).
  { apply Forall_forall. intros d I. apply (Permutation_in _ P), in_seq in I. lia. }
  clear P E. replace (mapR _ dims) with (Ok (map Some (map (fun d => nth (d - 1) s 0) dims))); [reflexivity|].
  induction H as [|d q Hd H IH]; [reflexivity|]. cbn [mapR map]. rewrite <- IH. destruct d as [|d]; [lia|].
  cbn [nth_error]. rewrite nth_error_map. destruct (nth_error s d) eqn:F.
  - cbn. apply nth_error_nth with (d := 0) in F. rewrite Nat.sub_0_r. now rewrite F.
  - apply nth_error_None in F. lia.
Qed.

(** ** Lists of inputs *)

Lemma tuple_length : forall D mode dc b n s, length (tuple_shapes D mode dc b n s) = nb_tensors mode dc.
Proof. intros. destruct mode, dc; reflexivity. Qed.
Lemma split_tuples : forall D mode dc b n args,
  split_to_merge (nb_tensors mode dc) (concat (map (tuple_shapes D mode dc b n) args)) = map (tuple_shapes D mode dc b n) args.
Proof.
  intros. apply split_to_merge_concat.
  - destruct mode, dc; cbn; lia.
  - intros l I. apply in_map_iff in I as (s & <- & _). apply tuple_length.
Qed.
Lemma kerasinput_tuple : forall D mode dc b n s, kerasinputshape (tuple_shapes D mode dc b n s) = Ok (value_shape b s).
Proof. intros. destruct mode, dc; reflexivity. Qed.
Lemma mapR_map : forall A B C (f : B -> result C) (g : A -> B) (h : A -> C) l, (forall a, In a l -> f (g a) = Ok (h a)) ->
  mapR f (map g l) = Ok (map h l).
Proof.
  induction l as [|a q IH]; intro H; [reflexivity|]. cbn. rewrite H by now left. cbn. rewrite IH; [reflexivity|].
  intros x I. apply H. now right.
Qed.

Lemma last_x : forall D b n, last (x_shape D b n) None = Some n.
Proof. intros [|eps p] b n; reflexivity. Qed.
Lemma hd_x : forall D b n, hd None (x_shape D b n) = b.
Proof. intros [|eps p] b n; reflexivity. Qed.

Lemma deduced_ok : forall D mode dc b n s t,
  deduced D n mode dc (tuple_shapes D mode dc b n s) (value_shape b t) = Ok (tuple_shapes D mode dc b n t).
Proof.
  intros. destruct mode, dc; unfold deduced; cbn; rewrite ?last_x, ?hd_x; try reflexivity.
Qed.

(** ** Keras shapes *)

Lemma dim_bcast_joined : forall a c d, (a = c /\ d = a) \/ (a = 1 /\ d = c) \/ (c = 1 /\ d = a) -> dim_bcast (Some a) (Some c) = Ok (Some d).
Proof.
  intros a c d [[-> ->]|[[-> ->]|[-> ->]]]; [apply dim_bcast_refl|reflexivity|]. destruct a as [|[|x]]; reflexivity.
Qed.
Lemma bcast_rev_joined : forall s t r, joined s t r -> forall p q o, bcast_rev p q = Ok o ->
  bcast_rev (rev (map Some s) ++ p) (rev (map Some t) ++ q) = Ok (rev (map Some r) ++ o).
Proof.
  induction 1 as [|a c d s t r E J IH]; intros p q o B; [exact B|]. cbn [map rev]. rewrite <- !app_assoc. apply IH. cbn [app bcast_rev].
  rewrite (dim_bcast_joined _ _ _ E). cbn [bind]. rewrite B. reflexivity.
Qed.
Lemma s_bin_joined : forall p s t r, joined s t r -> s_bin (p ++ map Some s) (p ++ map Some t) = Ok (p ++ map Some r).
Proof.
  intros p s t r J. unfold s_bin. rewrite !rev_app_distr, (bcast_rev_joined _ _ _ J _ _ _ (bcast_rev_refl (rev p))). cbn [bind].
  rewrite rev_app_distr, !rev_involutive. reflexivity.
Qed.
Lemma value_joined : forall b s t r, joined s t r -> s_bin (value_shape b s) (value_shape b t) = Ok (value_shape b r).
Proof. intros b s t r J. exact (s_bin_joined [b] _ _ _ J). Qed.
Lemma weight_joined : forall b n s t r, joined s t r -> s_bin (weight_shape b n s) (weight_shape b n t) = Ok (weight_shape b n r).
Proof. intros b n s t r J. exact (s_bin_joined [b; Some n] _ _ _ J). Qed.
Lemma value_broadcast : forall b a l s, broadcast a l s -> fold_sh s_bin (value_shape b a) (map (value_shape b) l) = Ok (value_shape b s).
Proof. induction 1 as [|s t r l u J B IH]; [reflexivity|]. cbn [map fold_sh]. rewrite (value_joined _ _ _ _ J). exact IH. Qed.
Lemma weight_broadcast : forall b n a l s, broadcast a l s -> fold_sh s_bin (weight_shape b n a) (map (weight_shape b n) l) = Ok (weight_shape b n s).
Proof. induction 1 as [|s t r l u J B IH]; [reflexivity|]. cbn [map fold_sh]. rewrite (weight_joined _ _ _ _ _ J). exact IH. Qed.
Lemma elementwise_ok : forall b a l s, broadcast a l s -> keras_elementwise (value_shape b a) (map (value_shape b) l) = Ok (value_shape b s).
Proof.
  intros b a l s B. unfold keras_elementwise, value_shape. cbn [tl hd]. rewrite map_map. cbn [tl].
  assert (E : fold_sh s_bin (map Some a) (map (fun t => map Some t) l) = Ok (map Some s)); [|rewrite E; reflexivity].
  induction B as [|s t r l u J B IH]; [reflexivity|]. cbn [map fold_sh]. rewrite (s_bin_joined [] _ _ _ J : s_bin (map Some s) (map Some t) = _). exact IH.
Qed.
Lemma joined_sym : forall s t r, joined s t r -> joined t s r.
Proof. induction 1; constructor; [lia|assumption]. Qed.
Lemma joined_absorb : forall s t r, joined s t r -> joined r s r.
Proof. induction 1; constructor; [lia|assumption]. Qed.

Lemma concat2_ok : forall pre post x y, concat2 (length pre) (pre ++ x :: post) (pre ++ y :: post) = Ok (pre ++ dim_add x y :: post).
Proof.
  induction pre as [|a pre IH]; intros; cbn.
  - now rewrite sh_eqb_refl.
  - rewrite dim_eqb_refl, IH. reflexivity.
Qed.
Lemma fold_concat : forall pre post ds d,
  fold_sh (concat2 (length pre)) (pre ++ Some d :: post) (map (fun k => pre ++ Some k :: post) ds)
    = Ok (pre ++ Some (list_sum (d :: ds)) :: post).
Proof.
  intros pre post. induction ds as [|e ds IH]; intro d.
  - cbn. now rewrite Nat.add_0_r.
  - cbn [map fold_sh]. rewrite concat2_ok. cbn [bind dim_add]. rewrite IH. cbn. now rewrite Nat.add_assoc.
Qed.
Lemma norm_axis_ok : forall axis p q, (axis = Z.of_nat p \/ axis = - Z.of_nat q - 1)%Z -> norm_axis (p + S q) axis = Ok p.
Proof.
  intros axis p q H. unfold norm_axis. destruct H as [-> | ->].
  - replace (Z.leb 0 (Z.of_nat p)) with true by (symmetry; apply Z.leb_le; lia).
    replace (Z.ltb (Z.of_nat p) (Z.of_nat (p + S q))) with true by (symmetry; apply Z.ltb_lt; lia). cbn. now rewrite Nat2Z.id.
  - replace (Z.leb 0 (- Z.of_nat q - 1)) with false by (symmetry; apply Z.leb_gt; lia). cbn [andb].
    replace (Z.ltb (- Z.of_nat q - 1) 0) with true by (symmetry; apply Z.ltb_lt; lia).
    replace (Z.leb (- Z.of_nat (p + S q)) (- Z.of_nat q - 1)) with true by (symmetry; apply Z.leb_le; lia).
    cbn [andb]. f_equal. lia.
Qed.
Lemma norm_axis_mid : forall axis b pre k post, (axis = Z.of_nat (length pre) + 1 \/ axis = - Z.of_nat (length post) - 1)%Z ->
  norm_axis (length (value_shape b (pre ++ k :: post))) axis = Ok (S (length pre)).
Proof.
  intros axis b pre k post H. unfold value_shape. cbn [length]. rewrite map_length, app_length. cbn [length].
  replace (S (length pre + S (length post))) with (S (length pre) + S (length post)) by lia. apply norm_axis_ok. lia.
Qed.
Lemma s_concat_ok : forall axis pre post d ds,
  (axis = Z.of_nat (length pre) \/ axis = - Z.of_nat (length post) - 1)%Z ->
  s_concat axis (map (fun k => pre ++ Some k :: post) (d :: ds)) = Ok (pre ++ Some (list_sum (d :: ds)) :: post).
Proof.
  intros axis pre post d ds H. unfold s_concat. cbn [map]. rewrite app_length. cbn [length].
  replace (norm_axis (length pre + S (length post)) axis) with (Ok (length pre)).
  - cbn [bind]. apply fold_concat.
  - unfold norm_axis. destruct H as [-> | ->].
    + replace (Z.leb 0 (Z.of_nat (length pre))) with true by (symmetry; apply Z.leb_le; lia).
      replace (Z.ltb (Z.of_nat (length pre)) (Z.of_nat (length pre + S (length post)))) with true by (symmetry; apply Z.ltb_lt; lia).
      cbn. now rewrite Nat2Z.id.
    + replace (Z.leb 0 (- Z.of_nat (length post) - 1)) with false by (symmetry; apply Z.leb_gt; lia). cbn [andb].
      replace (Z.ltb (- Z.of_nat (length post) - 1) 0) with true by (symmetry; apply Z.ltb_lt; lia).
      replace (Z.leb (- Z.of_nat (length pre + S (length post))) (- Z.of_nat (length post) - 1)) with true by (symmetry; apply Z.leb_le; lia).
      cbn [andb]. do 2 f_equal. lia.
Qed.
Lemma map_value : forall b pre post l,
  map (value_shape b) (map (fun k => pre ++ k :: post) l) = map (fun k => (b :: map Some pre) ++ Some k :: map Some post) l.
Proof. intros. rewrite map_map. apply map_ext. intro k. unfold value_shape. rewrite map_app. reflexivity. Qed.
Lemma map_weight : forall b n pre post l,
  map (weight_shape b n) (map (fun k => pre ++ k :: post) l) = map (fun k => (b :: Some n :: map Some pre) ++ Some k :: map Some post) l.
Proof. intros. rewrite map_map. apply map_ext. intro k. unfold weight_shape. rewrite map_app. reflexivity. Qed.
Lemma value_mid : forall b pre post k, value_shape b (pre ++ k :: post) = (b :: map Some pre) ++ Some k :: map Some post.
Proof. intros. unfold value_shape. now rewrite map_app. Qed.
Lemma weight_mid : forall b n pre post k, weight_shape b n (pre ++ k :: post) = (b :: Some n :: map Some pre) ++ Some k :: map Some post.
Proof. intros. unfold weight_shape. now rewrite map_app. Qed.

Lemma rep_map : forall A B (f : A -> B) a k, map f (repeat a k) = repeat (f a) k.
Proof. induction k as [|k IH]; cbn; congruence. Qed.

(** the Keras layer announces the shape of the specification *)
Lemma keras_shape_ok : forall L args s b, out_shape L args s -> keras_shape L (map (value_shape b) args) = Ok (value_shape b s).
Proof.
  intros L args s b H. destruct H; cbn [map keras_shape].
  - unfold value_shape. rewrite !map_app. cbn [map]. rewrite app_comm_cons, rev_app_distr. cbn [rev app].
    rewrite rev_app_distr, rev_involutive. reflexivity.
  - cbn. now rewrite numel_map.
  - reflexivity.
  - now apply transpose_ok.
  - reflexivity.
  - reflexivity.
  - reflexivity.
  - reflexivity.
  - reflexivity.
  - rewrite (norm_axis_mid _ _ _ _ _ H). reflexivity.
  - now apply elementwise_ok.
  - apply (elementwise_ok b a [c] s). apply (broadcast_cons _ _ s); [assumption|apply broadcast_one].
  - now apply elementwise_ok.
  - now apply elementwise_ok.
  - now apply elementwise_ok.
  - now apply elementwise_ok.
  - change (keras_shape (SConcat axis) (map (value_shape b) (map (fun k => pre ++ k :: post) (d :: ds))) = Ok (value_shape b (pre ++ list_sum (d :: ds) :: post))).
    unfold keras_shape. rewrite map_value, value_mid. apply s_concat_ok. cbn [length]. rewrite !map_length. lia.
Qed.

Lemma announced_ok : forall L args s D mode dc b n, out_shape L args s ->
  announced L D n mode dc (concat (map (tuple_shapes D mode dc b n) args)) = Ok (tuple_shapes D mode dc b n s).
Proof.
  intros L args s D mode dc b n H. unfold announced. destruct (merging L) eqn:ML.
  - unfold announced_merge, merge_shapes. rewrite split_tuples, (mapR_map _ _ _ _ _ (value_shape b)) by (intros; apply kerasinput_tuple).
    cbn [bind]. rewrite (keras_shape_ok _ _ _ b H). cbn [bind].
    destruct args as [|a0 args]; [inversion H|]. cbn [map].
    destruct (sh_eqb _ _) eqn:E.
    + apply sh_eqb_eq in E. unfold value_shape in E. injection E as E.
      assert (s = a0) as ->; [|reflexivity]. clear - E. revert a0 E. induction s as [|x s IH]; intros [|y a]; cbn; intro E; try discriminate; [reflexivity|].
      injection E as -> E. f_equal. now apply IH.
    + apply deduced_ok.
  - assert (exists a, args = [a]) as (a & ->) by (destruct H; try discriminate ML; eauto).
    cbn [map concat]. rewrite app_nil_r. unfold announced_layer. rewrite kerasinput_tuple. cbn [bind].
    pose proof (keras_shape_ok _ _ _ b H) as E. cbn [map] in E. rewrite E. cbn [bind]. apply deduced_ok.
Qed.

(** ** The tensors of call() *)

Lemma bound_ok : forall D b n s, s_bound D (x_shape D b n) (weight_shape b n s) (value_shape b s) = Ok (value_shape b s).
Proof.
  intros [|eps p] b n s; unfold s_bound, x_shape, weight_shape; rewrite !dim_bcast_refl; cbn [bind]; rewrite dim_bcast_refl; apply s_bin_refl.
Qed.

Definition full_tuple (D : domain) (mode : fmode) (dc from_affine : bool) (b : option nat) (n : nat) (s : list nat) : full sh :=
  let x := x_shape D b n in let v := value_shape b s in let w := weight_shape b n s in
  let d := if dc then v else [] in
  match mode with
  | IBP => mk_full [] v [] [] v [] [] d d
  | AFFINE => let c := if from_affine then v else [] in mk_full x c w v c w v d d
  | HYBRID => mk_full x v w v v w v d d
  end.

Lemma fullinputs_ok : forall D mode dc fa b n s, s_fullinputs D mode dc fa (tuple_shapes D mode dc b n s) = Ok (full_tuple D mode dc fa b n s).
Proof.
  intros D mode dc fa b n s. destruct mode, dc, fa; unfold s_fullinputs; cbn -[s_bound s_bin]; rewrite ?bound_ok; cbn -[s_bin]; rewrite ?s_bin_refl; reflexivity.
Qed.

Lemma value_app : forall b s u, value_shape b (s ++ [u]) = value_shape b s ++ [Some u].
Proof. intros. unfold value_shape. now rewrite map_app. Qed.
Lemma weight_app : forall b n s u, weight_shape b n (s ++ [u]) = weight_shape b n s ++ [Some u].
Proof. intros. unfold weight_shape. now rewrite map_app. Qed.
Lemma dot_value : forall b pre d u, s_dot (value_shape b (pre ++ [d])) [Some d; Some u] = Ok (value_shape b (pre ++ [u])).
Proof. intros. rewrite !value_app. apply s_dot_app. Qed.
Lemma dot_weight : forall b n pre d u, s_dot (weight_shape b n (pre ++ [d])) [Some d; Some u] = Ok (weight_shape b n (pre ++ [u])).
Proof. intros. rewrite !weight_app. apply s_dot_app. Qed.
Lemma bias_value : forall b pre u, s_bin (value_shape b (pre ++ [u])) [Some u] = Ok (value_shape b (pre ++ [u])).
Proof. intros. rewrite !value_app. apply s_bin_bias. Qed.
Lemma ranks_differ : forall b n s, (length (weight_shape b n s) =? length (value_shape b s)) = false.
Proof. intros. apply Nat.eqb_neq. unfold weight_shape, value_shape. cbn. rewrite map_length. lia. Qed.

Lemma dense_ok : forall D mode dc b n pre d u bias,
  call_dense d u bias D mode dc (tuple_shapes D mode dc b n (pre ++ [d])) = Ok (tuple_shapes D mode dc b n (pre ++ [u])).
Proof.
  intros. unfold call_dense. rewrite fullinputs_ok. cbn [bind].
  destruct mode, dc, bias; cbn -[s_dot s_bin value_shape weight_shape Nat.eqb];
    rewrite ?ranks_differ;
    repeat (rewrite ?dot_value, ?dot_weight; cbn -[s_dot s_bin value_shape weight_shape]; rewrite ?s_bin_refl, ?bias_value; cbn -[s_dot s_bin value_shape weight_shape]);
    reflexivity.
Qed.

Lemma flatten_op : forall b s, 0 < size_of s -> keras_op SFlatten (value_shape b s) = Ok (value_shape b [size_of s]).
Proof.
  intros b s P. cbn. rewrite numel_map. cbn [bind]. apply (reshape_ok b s [size_of s]); cbn; lia.
Qed.
Lemma flatten_ok : forall D mode dc b n s, 0 < n -> 0 < size_of s ->
  call_flatten D mode dc (tuple_shapes D mode dc b n s) = Ok (tuple_shapes D mode dc b n [size_of s]).
Proof.
  intros D mode dc b n s N P. unfold call_flatten. rewrite fullinputs_ok. cbn [bind].
  pose proof (reshape_weight b n s N P) as W. change (b :: Some n :: map Some s) with (weight_shape b n s) in W.
  destruct mode, dc; cbn -[keras_op s_reshape value_shape weight_shape x_shape last]; rewrite ?flatten_op by exact P;
    cbn -[keras_op s_reshape weight_shape x_shape last]; rewrite ?last_x, ?Nat.mul_1_r, ?W; reflexivity.
Qed.

Lemma rnn_ok : forall L D mode dc b n s t, (forall b, keras_op L (value_shape b s) = Ok (value_shape b t)) ->
  call_rnn L D mode dc (tuple_shapes D mode dc b n s) = Ok (tuple_shapes D mode dc b n t).
Proof.
  intros L D mode dc b n s t H. unfold call_rnn. rewrite fullinputs_ok. cbn [bind].
  assert (W : s_rnn (keras_op L) (weight_shape b n s) = Ok (weight_shape b n t)).
  { unfold s_rnn, weight_shape. change (b :: map Some s) with (value_shape b s). rewrite H. reflexivity. }
  destruct mode, dc; cbn -[keras_op value_shape weight_shape s_rnn Nat.eqb]; rewrite ?H; cbn -[keras_op value_shape weight_shape s_rnn Nat.eqb];
    rewrite ?ranks_differ, ?W; reflexivity.
Qed.

Lemma expand_value : forall b s, s_expand1 (value_shape b s) = Ok (b :: Some 1 :: map Some s).
Proof. reflexivity. Qed.
Lemma relu_ok : forall D mode dc b n s, call_relu D mode dc (tuple_shapes D mode dc b n s) = Ok (tuple_shapes D mode dc b n s).
Proof.
  intros. unfold call_relu. rewrite fullinputs_ok. cbn [bind].
  assert (W : s_bin (b :: Some 1 :: map Some s) (weight_shape b n s) = Ok (weight_shape b n s)) by apply s_bin_expand.
  destruct mode, dc; cbn -[s_bin value_shape weight_shape s_expand1];
    repeat (rewrite ?s_bin_refl, ?expand_value, ?W; cbn -[s_bin value_shape weight_shape s_expand1]); reflexivity.
Qed.

Lemma merge_ok : forall op opw D mode b n args s, args <> [] ->
  op (map (value_shape b) args) = Ok (value_shape b s) ->
  (mode <> IBP -> opw (map (weight_shape b n) args) = Ok (weight_shape b n s)) ->
  call_merge op opw D mode false (concat (map (tuple_shapes D mode false b n) args)) = Ok (tuple_shapes D mode false b n s).
Proof.
  intros op opw D mode b n args s NE V W. unfold call_merge.
  rewrite split_tuples, (mapR_map _ _ _ _ _ (full_tuple D mode false false b n)) by (intros; apply fullinputs_ok).
  cbn [bind]. rewrite !map_map. destruct args as [|a args]; [congruence|].
  destruct mode; cbn [when get_ibp get_affine full_tuple f_uc f_lc f_wu f_bu f_wl f_bl f_x];
    try (specialize (W ltac:(discriminate)));
    cbn -[value_shape weight_shape] in *;
    change (map (fun x => value_shape b x) args) with (map (value_shape b) args);
    try change (map (fun x => weight_shape b n x) args) with (map (weight_shape b n) args);
    rewrite ?V; cbn -[value_shape weight_shape]; rewrite ?W; reflexivity.
Qed.

(** a dimension and a coefficient of size 1 or of the same size *)
Definition fits (d c : option nat) : Prop := c = Some 1 \/ c = d.
Lemma bcast_fits : forall s c, Forall2 fits s c -> bcast_rev s c = Ok s /\ bcast_rev c s = Ok s.
Proof.
  intros s c H. induction H as [|d c s q F H [IH1 IH2]]; [split; reflexivity|]. cbn [bcast_rev]. rewrite IH1, IH2.
  assert (dim_bcast d c = Ok d /\ dim_bcast c d = Ok d) as [-> ->]; [|split; reflexivity].
  destruct F as [-> | ->]; [|rewrite dim_bcast_refl; auto]. split; [|reflexivity]. destruct d as [[|[|x]]|]; reflexivity.
Qed.
Lemma fits_rev : forall s c, Forall2 fits s c -> Forall2 fits (rev s) (rev c).
Proof. induction 1; cbn; [constructor|]. apply Forall2_app; [assumption|constructor; [assumption|constructor]]. Qed.
Lemma s_bin_fits : forall s c, Forall2 fits s c -> s_bin s c = Ok s /\ s_bin c s = Ok s.
Proof. intros s c H. unfold s_bin. destruct (bcast_fits _ _ (fits_rev _ _ H)) as [-> ->]. cbn. now rewrite rev_involutive. Qed.
Lemma ones_fit : forall s, Forall2 fits s (repeat (Some 1) (length s)).
Proof. induction s; cbn; constructor; [left; reflexivity|assumption]. Qed.
Lemma ones_with_fit : forall pre k post, Forall2 fits (pre ++ Some k :: post) (ones_with (length (pre ++ Some k :: post)) (length pre) k).
Proof. induction pre as [|d pre IH]; intros; cbn; constructor; [right; reflexivity|apply ones_fit|left; reflexivity|apply IH]. Qed.
Lemma batchnorm_ok : forall axis D mode b n pre k post, (axis = Z.of_nat (length pre) + 1 \/ axis = - Z.of_nat (length post) - 1)%Z ->
  call_batchnorm axis k D mode false (tuple_shapes D mode false b n (pre ++ k :: post)) = Ok (tuple_shapes D mode false b n (pre ++ k :: post)).
Proof.
  intros axis D mode b n pre k post H. unfold call_batchnorm. rewrite fullinputs_ok, kerasinput_tuple. cbn [bind]. rewrite (norm_axis_mid _ b _ _ _ H). cbn [bind].
  set (s := pre ++ k :: post). assert (F : Forall2 fits (map Some s) (ones_with (length (map Some s)) (length pre) k)).
  { unfold s. rewrite map_app. cbn [map]. replace (length pre) with (length (map Some pre)) by apply map_length. apply ones_with_fit. }
  assert (E : ones_with (length (value_shape b s)) (S (length pre)) k = Some 1 :: ones_with (length (map Some s)) (length pre) k) by reflexivity. rewrite E.
  set (c := ones_with (length (map Some s)) (length pre) k) in *.
  assert (V : Forall2 fits (value_shape b s) (Some 1 :: c)) by (constructor; [left; reflexivity|exact F]).
  assert (W : Forall2 fits (weight_shape b n s) (Some 1 :: Some 1 :: c)) by (constructor; [left; reflexivity|]; constructor; [left; reflexivity|exact F]).
  destruct (s_bin_fits _ _ V) as [V1 V2]. destruct (s_bin_fits _ _ W) as [W1 W2]. clearbody c s. cbn [s_expand1].
  destruct mode; cbn -[s_bin value_shape weight_shape];
    repeat (rewrite ?V1, ?V2, ?W1, ?W2, ?s_bin_refl; cbn -[s_bin value_shape weight_shape]); reflexivity.
Qed.
Lemma minus_ok : forall D mode b n s, s_minus mode false (tuple_shapes D mode false b n s) = Ok (tuple_shapes D mode false b n s).
Proof. intros. destruct mode; reflexivity. Qed.
Lemma add_ok : forall D mode b n s t r, joined s t r ->
  s_add D mode false (tuple_shapes D mode false b n s) (tuple_shapes D mode false b n t) = Ok (tuple_shapes D mode false b n r).
Proof.
  intros D mode b n s t r J. unfold s_add. rewrite !fullinputs_ok. cbn [bind].
  pose proof (value_joined b _ _ _ J) as V. pose proof (weight_joined b n _ _ _ J) as W. assert (N : s_bin [] [] = Ok []) by reflexivity.
  destruct mode; cbn -[s_bin value_shape weight_shape]; repeat (rewrite ?V, ?W, ?N; cbn -[s_bin value_shape weight_shape]); reflexivity.
Qed.
Lemma subtract_ok : forall D mode b n s t r, joined s t r ->
  s_subtract D mode false (tuple_shapes D mode false b n s) (tuple_shapes D mode false b n t) = Ok (tuple_shapes D mode false b n r).
Proof. intros. unfold s_subtract. rewrite (minus_ok D). cbn [bind]. now apply add_ok. Qed.
Lemma maximum_ok : forall D mode b n s t r, joined s t r ->
  s_maximum D mode false (tuple_shapes D mode false b n s) (tuple_shapes D mode false b n t) = Ok (tuple_shapes D mode false b n r).
Proof.
  intros D mode b n s t r J. unfold s_maximum. rewrite (subtract_ok _ _ _ _ _ _ _ (joined_sym _ _ _ J)). cbn [bind]. rewrite relu_ok. cbn [bind].
  apply add_ok. exact (joined_absorb _ _ _ J).
Qed.
Lemma fold_maximum : forall D mode b n a l s, broadcast a l s ->
  fold_tuples (s_maximum D mode false) (tuple_shapes D mode false b n a) (map (tuple_shapes D mode false b n) l) = Ok (tuple_shapes D mode false b n s).
Proof. induction 1 as [|s t r l u J B IH]; [reflexivity|]. cbn [map fold_tuples]. rewrite (maximum_ok _ _ _ _ _ _ _ J). exact IH. Qed.

Lemma expand_joined : forall b n s t r, joined s t r -> s_bin (b :: Some 1 :: map Some s) (weight_shape b n t) = Ok (weight_shape b n r).
Proof.
  intros b n s t r J. unfold s_bin, weight_shape. cbn [rev]. rewrite <- !app_assoc. cbn [app]. rewrite (bcast_rev_joined _ _ _ J [Some 1; b] [Some n; b] [Some n; b]).
  2:{ cbn [bcast_rev]. rewrite dim_bcast_one. cbn [bind]. rewrite dim_bcast_refl. reflexivity. }
  cbn [bind]. rewrite rev_app_distr, rev_involutive. reflexivity.
Qed.
Lemma multiply_ok : forall D mode b n s t r, joined s t r ->
  s_multiply D mode false (tuple_shapes D mode false b n s) (tuple_shapes D mode false b n t) = Ok (tuple_shapes D mode false b n r).
Proof.
  intros D mode b n s t r J. unfold s_multiply. rewrite !fullinputs_ok. cbn [bind].
  pose proof (value_joined b _ _ _ J) as V. pose proof (value_joined b _ _ _ (joined_sym _ _ _ J)) as V'.
  pose proof (expand_joined b n _ _ _ J) as W. pose proof (expand_joined b n _ _ _ (joined_sym _ _ _ J)) as W'.
  assert (X : forall u, s_expand1 (value_shape b u) = Ok (b :: Some 1 :: map Some u)) by reflexivity.
  destruct mode; cbn -[s_bin value_shape weight_shape s_expand1]; repeat (rewrite ?X, ?V, ?V', ?W, ?W', ?s_bin_refl; cbn -[s_bin value_shape weight_shape s_expand1]); reflexivity.
Qed.
Lemma fold_multiply : forall D mode b n a l s, broadcast a l s ->
  fold_tuples (s_multiply D mode false) (tuple_shapes D mode false b n a) (map (tuple_shapes D mode false b n) l) = Ok (tuple_shapes D mode false b n s).
Proof. induction 1 as [|s t r l u J B IH]; [reflexivity|]. cbn [map fold_tuples]. rewrite (multiply_ok _ _ _ _ _ _ _ J). exact IH. Qed.

Lemma flat_ok : forall b s, 0 < size_of s -> s_reshape (value_shape b s) [None; Some (size_of s)] = Ok [b; Some (size_of s)].
Proof.
  intros b s P. unfold s_reshape, value_shape. cbn [unknowns known]. rewrite Nat.mul_1_r. destruct (Nat.eqb_spec (size_of s) 0) as [E|E]; [lia|].
  destruct b as [b|]; cbn [numel]; [|reflexivity]. rewrite numel_map. rewrite Nat.mod_mul by exact E. cbn [Nat.eqb map]. now rewrite Nat.div_mul by exact E.
Qed.
Lemma unflat_ok : forall b s, 0 < size_of s -> s_reshape [b; Some (size_of s)] (None :: map Some s) = Ok (value_shape b s).
Proof.
  intros b s P. unfold s_reshape, value_shape. cbn [unknowns known]. rewrite unknowns_map, known_map. destruct (Nat.eqb_spec (size_of s) 0) as [E|E]; [lia|].
  destruct b as [b|]; cbn [numel]; [|reflexivity]. rewrite Nat.mul_1_r, Nat.mod_mul by exact E. cbn [Nat.eqb map]. rewrite Nat.div_mul by exact E. rewrite map_map. reflexivity.
Qed.
Lemma tangent_ok : forall b m, s_tangent [b; Some m] [b; Some m] = Ok [b; Some m].
Proof.
  intros b m. assert (F : s_bin [Some 1; Some 1; Some 100] [b; Some m; Some 1] = Ok [b; Some m; Some 100]) by reflexivity.
  assert (G : forall k, s_bin [b; Some m; Some k] [b; Some m; Some 1] = Ok [b; Some m; Some k] /\ s_bin [b; Some m; Some 1] [b; Some m; Some k] = Ok [b; Some m; Some k]).
  { intro k. unfold s_bin. cbn [rev app bcast_rev]. rewrite !dim_bcast_refl. destruct k as [|[|k]]; split; reflexivity. }
  unfold s_tangent. cbn [app]. rewrite F. cbn [bind]. rewrite (proj1 (G 100)). cbn [bind]. rewrite !s_bin_refl. cbn [bind removelast]. rewrite s_bin_refl. cbn [bind removelast app].
  rewrite s_bin_refl. cbn [bind]. rewrite (proj1 (G 100)). cbn [bind]. rewrite s_bin_refl. cbn [bind removelast]. rewrite !s_bin_refl. cbn [bind]. rewrite !s_bin_refl. cbn [bind]. apply s_bin_refl.
Qed.
Lemma hull_ok : forall D mode b n s, 0 < size_of s -> s_hull D mode (tuple_shapes D mode false b n s) = Ok (value_shape b s, value_shape b s).
Proof.
  intros D mode b n s P. unfold s_hull. rewrite fullinputs_ok. cbn [bind].
  assert (E : f_uc (full_tuple D mode false true b n s) = value_shape b s /\ f_lc (full_tuple D mode false true b n s) = value_shape b s) by (destruct mode; split; reflexivity).
  destruct E as [-> ->]. unfold value_shape at 2 4 5 6. cbn [tl]. rewrite numel_map. rewrite (flat_ok b s P). cbn [bind]. rewrite !s_bin_refl. cbn [bind].
  rewrite !s_bin_refl. cbn [bind]. rewrite !tangent_ok. cbn [bind]. rewrite !s_bin_refl. cbn [bind]. rewrite !s_bin_refl. cbn [bind]. rewrite (unflat_ok b s P). reflexivity.
Qed.
Lemma sigmoid_ok : forall D mode b n s, 0 < size_of s -> call_sigmoid D mode false (tuple_shapes D mode false b n s) = Ok (tuple_shapes D mode false b n s).
Proof.
  intros D mode b n s P. unfold call_sigmoid, s_lines. rewrite fullinputs_ok, (hull_ok D mode b n s P). cbn [bind].
  assert (X : s_expand1 (value_shape b s) = Ok (b :: Some 1 :: map Some s)) by reflexivity.
  assert (W : s_bin (b :: Some 1 :: map Some s) (weight_shape b n s) = Ok (weight_shape b n s)) by apply s_bin_expand.
  destruct mode; cbn -[s_bin value_shape weight_shape s_expand1 Nat.eqb length]; try reflexivity; rewrite ranks_differ, X; cbn -[s_bin value_shape weight_shape];
    repeat (rewrite ?W, ?s_bin_refl; cbn -[s_bin value_shape weight_shape]); reflexivity.
Qed.

Lemma exponential_ok : forall D mode b n s, call_exponential D mode false (tuple_shapes D mode false b n s) = Ok (tuple_shapes D mode false b n s).
Proof.
  intros D mode b n s. unfold call_exponential. rewrite fullinputs_ok. cbn [bind].
  assert (X : s_expand1 (value_shape b s) = Ok (b :: Some 1 :: map Some s)) by reflexivity.
  assert (W : s_bin (b :: Some 1 :: map Some s) (weight_shape b n s) = Ok (weight_shape b n s)) by apply s_bin_expand.
  destruct mode; cbn -[s_bin value_shape weight_shape s_expand1]; repeat (rewrite ?X, ?W, ?s_bin_refl; cbn -[s_bin value_shape weight_shape s_expand1]); reflexivity.
Qed.

Lemma sum_last_ok : forall D mode b n pre d, s_sum_last D mode (tuple_shapes D mode false b n (pre ++ [d])) = Ok (tuple_shapes D mode false b n pre).
Proof.
  intros D mode b n pre d. unfold s_sum_last. rewrite fullinputs_ok. cbn [bind].
  assert (V : removelast (value_shape b (pre ++ [d])) = value_shape b pre) by (rewrite value_app; apply removelast_last).
  assert (W : removelast (weight_shape b n (pre ++ [d])) = weight_shape b n pre) by (rewrite weight_app; apply removelast_last).
  destruct mode; cbn -[removelast value_shape weight_shape]; rewrite ?V, ?W; reflexivity.
Qed.
Lemma expand_last_ok : forall D mode b n pre, s_expand_last mode (tuple_shapes D mode false b n pre) = Ok (tuple_shapes D mode false b n (pre ++ [1])).
Proof.
  intros D mode b n pre. unfold s_expand_last. pose proof (value_app b pre 1) as V. pose proof (weight_app b n pre 1) as W.
  destruct mode; cbn -[value_shape weight_shape app]; unfold tuple_shapes; rewrite ?V, ?W; reflexivity.
Qed.
Lemma frac_pos_ok : forall D mode b n s, s_frac_pos D mode (tuple_shapes D mode false b n s) = Ok (tuple_shapes D mode false b n s).
Proof.
  intros D mode b n s. unfold s_frac_pos. rewrite fullinputs_ok. cbn [bind].
  assert (X : s_expand1 (value_shape b s) = Ok (b :: Some 1 :: map Some s)) by reflexivity.
  assert (W : s_bin (b :: Some 1 :: map Some s) (weight_shape b n s) = Ok (weight_shape b n s)) by apply s_bin_expand.
  destruct mode; cbn -[s_bin value_shape weight_shape s_expand1]; repeat (rewrite ?X, ?W, ?s_bin_refl; cbn -[s_bin value_shape weight_shape s_expand1]); reflexivity.
Qed.
Lemma joined_last : forall pre d, joined (pre ++ [d]) (pre ++ [1]) (pre ++ [d]).
Proof. induction pre as [|a pre IH]; intro d; cbn [app]; constructor; [lia|constructor|lia|apply IH]. Qed.
Lemma softmax_ok : forall D mode b n pre d, call_softmax D mode false (tuple_shapes D mode false b n (pre ++ [d])) = Ok (tuple_shapes D mode false b n (pre ++ [d])).
Proof.
  intros D mode b n pre d. unfold call_softmax. rewrite (minus_ok D). cbn [bind]. rewrite exponential_ok. cbn [bind]. rewrite sum_last_ok. cbn [bind].
  rewrite frac_pos_ok. cbn [bind]. rewrite (expand_last_ok D). cbn [bind]. rewrite (multiply_ok _ _ _ _ _ _ _ (joined_last pre d)). cbn [bind]. rewrite fullinputs_ok.
  destruct mode; reflexivity.
Qed.

Theorem call_ok : forall L args s D mode dc b n bias, out_shape L args s -> (without_dc L = true -> dc = false) ->
  (odd_axis L = true -> mode = IBP) -> 0 < n -> Forall (Forall (lt 0)) args ->
  call_shapes L (last_axis args) bias D mode dc (concat (map (tuple_shapes D mode dc b n) args)) = Ok (tuple_shapes D mode dc b n s).
Proof.
  intros L args s D mode dc b n bias H M O N P.
  destruct H; cbn [without_dc merging odd_axis] in *; try (rewrite (M eq_refl)); cbn [call_shapes];
    try (cbn [map concat]; rewrite app_nil_r).
  - unfold last_axis. cbn [hd]. rewrite last_last. apply dense_ok.
  - inversion P; subst. apply flatten_ok; [exact N|now apply size_pos].
  - inversion P; subst. apply rnn_ok. intro b'. cbn. apply reshape_ok; [exact H|]. rewrite <- H. now apply size_pos.
  - apply rnn_ok. intro b'. cbn. now apply transpose_ok.
  - apply relu_ok.
  - reflexivity.
  - inversion P; subst. apply sigmoid_ok. now apply size_pos.
  - apply exponential_ok.
  - apply softmax_ok.
  - apply batchnorm_ok. exact H.
  - apply merge_ok; [discriminate|now apply value_broadcast|intros _; now apply weight_broadcast].
  - unfold call_subtract. pose proof (split_tuples D mode false b n [a; c]) as E. cbn [map concat] in E. rewrite app_nil_r in E. rewrite E. now apply subtract_ok.
  - unfold call_maximum. rewrite split_tuples. destruct H as [s|s t r l u J B]; cbn [map]; [cbn [concat]; now rewrite app_nil_r|].
    apply (fold_maximum D mode b n s (t :: l) u). now apply (broadcast_cons _ _ r).
  - unfold call_minimum. rewrite split_tuples, (mapR_map _ _ _ _ _ (tuple_shapes D mode false b n)) by (intros; apply minus_ok). cbn [bind].
    destruct H as [s|s t r l u J B]; cbn [map]; [cbn [concat]; now rewrite app_nil_r|].
    pose proof (fold_maximum D mode b n s (t :: l) u (broadcast_cons _ _ r _ _ J B)) as E. cbn [map] in E. rewrite E. cbn [bind]. apply minus_ok.
  - unfold call_multiply. rewrite split_tuples. destruct H as [s|s t r l u J B]; cbn [map]; [cbn [concat]; now rewrite app_nil_r|].
    apply (fold_multiply D mode b n s (t :: l) u). now apply (broadcast_cons _ _ r).
  - apply merge_ok; [discriminate|now apply value_broadcast|intros _; now apply weight_broadcast].
  - apply merge_ok; [discriminate| |].
    + rewrite map_value, value_mid. apply s_concat_ok. cbn [length]. rewrite !map_length. lia.
    + intro NI. rewrite map_weight, weight_mid. apply s_concat_ok. cbn [length]. rewrite !map_length. unfold opw_axis.
      destruct (Z.eqb_spec axis (-1)) as [E|E]; [lia|].
      destruct (Z.ltb_spec axis (-1)) as [F|F]; [exfalso; apply NI, O; reflexivity|]. lia.
Qed.

(** ** Networks *)

Lemma gather_ok : forall (f : list nat -> list sh) env ins args, Forall2 (fun i a => nth_error env i = Some a) ins args ->
  gather (map f env) ins = Ok (concat (map f args)).
Proof.
  intros f env ins args H. unfold gather.
  replace (mapR _ ins) with (Ok (map f args) : result (list (list sh))); [reflexivity|].
  induction H as [|i a ins args E H IH]; [reflexivity|]. cbn [mapR map]. rewrite nth_error_map, E. cbn [option_map bind].
  rewrite <- IH. reflexivity.
Qed.

Theorem announce_net_ok : forall D n mode dc b env g env', net_shapes env g env' ->
  announce_net D n mode dc (map (tuple_shapes D mode dc b n) env) g = Ok (map (tuple_shapes D mode dc b n) env').
Proof.
  intros D n mode dc b env g env' H. induction H as [env|env L ins args s q env' A O H IH]; [reflexivity|].
  cbn [announce_net]. rewrite (gather_ok _ _ _ _ A). cbn [bind].
  rewrite (announced_ok _ _ _ _ _ _ _ _ O). cbn [bind].
  change [tuple_shapes D mode dc b n s] with (map (tuple_shapes D mode dc b n) [s]). rewrite <- map_app. exact IH.
Qed.

Lemma net_shapes_incl : forall env g env', net_shapes env g env' -> incl env env'.
Proof. induction 1; [apply incl_refl|]. intros x I. apply IHnet_shapes, in_or_app. now left. Qed.

Lemma call_axis : forall L args s D mode dc b n d bias l, out_shape L args s ->
  kerasinputshape (concat (map (tuple_shapes D mode dc b n) args)) = Ok l ->
  d = match last l None with Some k => k | None => 0 end ->
  forall ts, call_shapes L d bias D mode dc ts = call_shapes L (last_axis args) bias D mode dc ts.
Proof.
  intros L args s D mode dc b n d bias l H K E ts. destruct H; try reflexivity.
  cbn [map concat] in K. rewrite app_nil_r, kerasinput_tuple in K. injection K as <-.
  unfold last_axis. cbn [hd call_shapes]. rewrite last_last. f_equal. rewrite E, value_app, last_last. reflexivity.
Qed.

Lemma kerasinput_concat : forall D mode dc b n args, args <> [] -> exists y, kerasinputshape (concat (map (tuple_shapes D mode dc b n) args)) = Ok y.
Proof.
  intros D mode dc b n args NE. destruct (exists_last NE) as (q & s & ->). rewrite map_app, concat_app. cbn [map concat].
  rewrite app_nil_r. unfold kerasinputshape. rewrite rev_app_distr. destruct mode, dc; cbn; eauto.
Qed.

Theorem call_net_ok : forall D n mode dc ba b env g env', net_shapes env g env' ->
  Forall (fun N : snode => (without_dc (fst N) = true -> dc = false) /\ (odd_axis (fst N) = true -> mode = IBP)) g ->
  0 < n -> Forall (Forall (lt 0)) env' ->
  call_net D n mode dc (map (tuple_shapes D mode dc ba n) env) (map (tuple_shapes D mode dc b n) env) g
    = Ok (map (tuple_shapes D mode dc b n) env').
Proof.
  intros D n mode dc ba b env g env' H. induction H as [env|env L ins args s q env' A O H IH]; intros F N P; [reflexivity|].
  inversion F as [|? ? [F1 F2] F3]; subst. cbn [fst] in *. cbn [call_net].
  rewrite !(gather_ok _ _ _ _ A). cbn [bind].
  rewrite (announced_ok _ _ _ _ _ _ _ _ O). cbn [bind].
  assert (NE : args <> []) by (intro; subst; inversion O).
  destruct (kerasinput_concat D mode dc ba n args NE) as (y & K). rewrite K. cbn [bind].
  rewrite (call_axis _ _ _ _ _ _ _ _ _ _ _ O K eq_refl).
  assert (PA : Forall (Forall (lt 0)) args).
  { apply Forall_forall. intros a I. rewrite Forall_forall in P. apply P, (net_shapes_incl _ _ _ H), in_or_app. left.
    clear - A I. induction A as [|i x ins args E A IH]; [contradiction|].
    destruct I as [<-|I]; [now apply nth_error_In in E|now apply IH]. }
  rewrite (call_ok L args s) by assumption.
  cbn [bind].
  change [tuple_shapes D mode dc b n s] with (map (tuple_shapes D mode dc b n) [s]).
  change [tuple_shapes D mode dc ba n s] with (map (tuple_shapes D mode dc ba n) [s]). rewrite <- !map_app. now apply IH.
Qed.

(** ** Convert2Mode *)

Theorem convert2mode_ok : forall D n from to dc b s, from <> IBP \/ to = IBP ->
  convert2mode_announced D n from to dc (tuple_shapes D from dc b n s) = Ok (tuple_shapes D to dc b n s) /\
  convert2mode_call D from to dc (tuple_shapes D from dc b n s) = Ok (tuple_shapes D to dc b n s).
Proof.
  intros D n from to dc b s H. split.
  - destruct from, to, dc; try (destruct H; congruence); reflexivity.
  - destruct from, to, dc; try (destruct H; congruence); unfold convert2mode_call; cbn -[s_bound s_bin]; rewrite ?bound_ok; cbn -[s_bin]; rewrite ?s_bin_refl; reflexivity.
Qed.

Lemma concat_x : forall b s, s_concat 1 [b :: Some 1 :: map Some s; b :: Some 1 :: map Some s] = Ok (b :: Some 2 :: map Some s).
Proof.
  intros b s. pose proof (s_concat_ok 1 [b] (map Some s) 1 [1]) as H. cbn [map app length] in H. apply H. left. reflexivity.
Qed.

(** from ibp, the tensors returned *)
Theorem convert2mode_from_ibp : forall D n dc b s to, to <> IBP -> exists ta tc,
  convert2mode_announced D n IBP to dc (tuple_shapes D IBP dc b n s) = Ok ta /\
  convert2mode_call D IBP to dc (tuple_shapes D IBP dc b n s) = Ok tc /\
  length ta = nb_tensors to dc /\ tl ta = tl tc /\
  nth_error ta 0 = Some (x_shape D b n) /\ nth_error tc 0 = Some (b :: Some 2 :: map Some s).
Proof.
  intros D n dc b s to NI. unfold convert2mode_call, convert2mode_announced.
  destruct to; [congruence| |]; destruct dc;
    cbn -[s_concat last]; rewrite ?concat_x; cbn -[last];
    (eexists; eexists; repeat split; try reflexivity); unfold x_shape, x_input_shape; destruct D; reflexivity.
Qed.

Theorem convert2mode_from_ibp_iff : forall D n dc b s to, to <> IBP -> s <> [] ->
  (convert2mode_call D IBP to dc (tuple_shapes D IBP dc b n s) = convert2mode_announced D n IBP to dc (tuple_shapes D IBP dc b n s)
   <-> D = Box /\ s = [n]).
Proof.
  intros D n dc b s to NI NE. destruct (convert2mode_from_ibp D n dc b s to NI) as (ta & tc & -> & -> & _ & T & X & Y).
  destruct ta as [|a0 ta]; [discriminate|]. destruct tc as [|c0 tc]; [discriminate|]. cbn in T, X, Y. injection X as ->. injection Y as ->. subst tc.
  split.
  - intro E. injection E as E. destruct D as [|eps p]; cbn in E.
    + injection E as E. destruct s as [|a [|]]; try discriminate. injection E as ->. auto.
    + destruct s as [|a q]; [congruence|discriminate].
  - intros [-> ->]. reflexivity.
Qed.

Theorem convert2mode_from_ibp_flat : forall n dc b to,
  convert2mode_announced Box n IBP to dc (tuple_shapes Box IBP dc b n [n]) = Ok (tuple_shapes Box to dc b n [n]) /\
  convert2mode_call Box IBP to dc (tuple_shapes Box IBP dc b n [n]) = Ok (tuple_shapes Box to dc b n [n]).
Proof. intros. destruct to, dc; split; try reflexivity; unfold convert2mode_call; cbn -[s_concat]; 
    match goal with |- context [s_concat 1 ?l] => replace (s_concat 1 l) with (Ok [b; Some 2; Some n] : result sh) by (symmetry; exact (concat_x b [n])) end;
    reflexivity.
Qed.

(** ** Inputs of a layer converted alone *)

Lemma shs_eqb_eq : forall a b, shs_eqb a b = true <-> a = b.
Proof.
  induction a as [|s q IH]; intros [|t r]; cbn; split; intro E; try discriminate; try reflexivity.
  - apply andb_true_iff in E as [E F]. apply sh_eqb_eq in E. apply IH in F. now subst.
  - injection E as -> ->. rewrite sh_eqb_refl. cbn. now apply IH.
Qed.
Lemma input_shape_same : forall a k, get_layer_input_shape (repeat a (S k)) = Ok a.
Proof.
  intros a k. cbn. replace (forallb (shs_eqb a) (repeat a k)) with true; [reflexivity|].
  symmetry. apply forallb_forall. intros x I. apply repeat_spec in I. subst. now apply shs_eqb_eq.
Qed.
Lemma input_shape_differ : forall nodes a b, In a nodes -> In b nodes -> a <> b -> get_layer_input_shape nodes = Err AttributeError.
Proof.
  intros [|c q] a b IA IB NE; [contradiction|]. cbn. destruct (forallb (shs_eqb c) q) eqn:E; [|reflexivity]. exfalso. apply NE.
  rewrite forallb_forall in E.
  assert (H : forall x, In x (c :: q) -> x = c) by (intros x [<-|I]; [reflexivity|]; symmetry; now apply shs_eqb_eq, E).
  rewrite (H a IA), (H b IB). reflexivity.
Qed.

Theorem prepare_ok : forall D n mode dc b ss k, (dc = true -> exists s, ss = [s]) ->
  prepare_input_shapes D n mode dc (repeat (map (value_shape b) ss) (S k)) = Ok (concat (map (tuple_shapes D mode dc None n) ss)).
Proof.
  intros D n mode dc b ss k H. unfold prepare_input_shapes. rewrite input_shape_same. cbn [bind]. rewrite map_map.
  destruct dc.
  - destruct (H eq_refl) as (s & ->). destruct mode, D; reflexivity.
  - do 2 f_equal. apply map_ext. intro s. destruct mode, D; reflexivity.
Qed.
Theorem prepare_dc_many : forall D n mode b ss k, length ss <> 1 ->
  prepare_input_shapes D n mode true (repeat (map (value_shape b) ss) (S k)) = Err NotImplementedError.
Proof.
  intros D n mode b ss k H. unfold prepare_input_shapes. rewrite input_shape_same. cbn [bind].
  destruct ss as [|s [|t q]]; try reflexivity. cbn in H. congruence.
Qed.
Theorem prepare_never_called : forall D n mode dc, prepare_input_shapes D n mode dc [] = Err AttributeError.
Proof. reflexivity. Qed.
Theorem prepare_differ : forall D n mode dc nodes a b, In a nodes -> In b nodes -> a <> b ->
  prepare_input_shapes D n mode dc nodes = Err AttributeError.
Proof. intros D n mode dc nodes a b IA IB NE. unfold prepare_input_shapes. now rewrite (input_shape_differ _ _ _ IA IB NE). Qed.

(** a layer converted alone and called: the shapes it announces *)
Theorem alone_ok : forall L args s D mode dc b n k bias, out_shape L args s -> (without_dc L = true -> dc = false) ->
  (odd_axis L = true -> mode = IBP) -> 0 < n -> Forall (Forall (lt 0)) args ->
  exists l, prepare_input_shapes D n mode dc (repeat (map (value_shape b) args) (S k)) = Ok l /\
    announced L D n mode dc l = Ok (tuple_shapes D mode dc None n s) /\
    call_shapes L (last_axis args) bias D mode dc l = Ok (tuple_shapes D mode dc None n s).
Proof.
  intros L args s D mode dc b n k bias H M O N P. eexists. split; [apply prepare_ok|split].
  - intros ->. destruct (without_dc L) eqn:E; [discriminate (M eq_refl)|]. destruct H; try discriminate E; eauto.
  - now apply announced_ok.
  - now apply call_ok.
Qed.

(** ** Where the announced shapes differ from the tensors returned *)

Theorem concat_axis_refuted : exists args s la lc, out_shape (SConcat (-2)) args s /\
  announced (SConcat (-2)) Box 5 AFFINE false (concat (map (tuple_shapes Box AFFINE false None 5) args)) = Ok la /\
  call_shapes (SConcat (-2)) 3 true Box AFFINE false (concat (map (tuple_shapes Box AFFINE false None 5) args)) = Ok lc /\
  nth_error la 1 = Some [None; Some 5; Some 4; Some 3] /\ nth_error lc 1 = Some [None; Some 5; Some 2; Some 6].
Proof.
  exists [[2;3];[2;3]], [4;3]. eexists. eexists. split; [|split; [reflexivity|split; [reflexivity|split; reflexivity]]].
  apply (out_concat (-2) [] [3] 2 [2]). right. reflexivity.
Qed.

(** every concatenation along an axis counted from the end, other than the last *)
Theorem concat_odd_axis : forall D b n pre d ds e post, 0 < d -> ds <> [] -> Forall (fun k => 0 < k) ds -> 0 < e ->
  let axis := (- Z.of_nat (length (e :: post)) - 1)%Z in
  let args := map (fun k => pre ++ k :: e :: post) (d :: ds) in
  call_shapes (SConcat axis) 0 true D AFFINE false (concat (map (tuple_shapes D AFFINE false b n) args))
    <> announced (SConcat axis) D n AFFINE false (concat (map (tuple_shapes D AFFINE false b n) args)).
Proof.
  intros D b n pre d ds e post Pd NE Pds Pe axis args. 
  assert (H : out_shape (SConcat axis) args (pre ++ list_sum (d :: ds) :: e :: post)).
  { apply out_concat. right. reflexivity. }
  rewrite (announced_ok _ _ _ D AFFINE false b n H).
  cbn [call_shapes]. unfold call_merge. rewrite split_tuples, (mapR_map _ _ _ _ _ (full_tuple D AFFINE false false b n)) by (intros; apply fullinputs_ok).
  cbn [bind]. rewrite !map_map.
  cbn [when get_ibp get_affine bind full_tuple f_bu f_bl f_wu f_wl f_x].
  replace (map (fun x => f_bu (full_tuple D AFFINE false false b n x)) args) with (map (value_shape b) args) by reflexivity.
  replace (map (fun x => f_bl (full_tuple D AFFINE false false b n x)) args) with (map (value_shape b) args) by reflexivity.
  replace (map (fun x => f_wu (full_tuple D AFFINE false false b n x)) args) with (map (weight_shape b n) args) by reflexivity.
  replace (map (fun x => f_wl (full_tuple D AFFINE false false b n x)) args) with (map (weight_shape b n) args) by reflexivity.
  destruct (s_concat axis _) as [v|]; cbn [bind]; [|discriminate].
  destruct (s_concat (opw_axis axis) (map (weight_shape b n) args)) as [w|] eqn:W; cbn [bind]; [|discriminate].
  unfold args at 1. cbn [map]. cbn [f_x full_tuple extract app]. intro E. injection E as E _. subst w.
  revert W. unfold args. rewrite map_weight.
  assert (A : opw_axis axis = (- Z.of_nat (length post) - 1)%Z).
  { unfold opw_axis, axis. cbn [length]. destruct (Z.eqb_spec (- Z.of_nat (S (length post)) - 1) (-1)); lia. }
  rewrite A. cbn [map].
  unfold s_concat. 
  destruct ds as [|d1 ds]; [congruence|]. cbn [map].
  set (P := b :: Some n :: map Some pre).
  replace (norm_axis _ _) with (Ok (length (P ++ [Some d])) : result nat).
  2:{ unfold norm_axis. rewrite !app_length. cbn [length]. rewrite map_length.
      replace (Z.leb 0 (- Z.of_nat (length post) - 1)) with false by (symmetry; apply Z.leb_gt; lia). cbn [andb].
      replace (Z.ltb (- Z.of_nat (length post) - 1) 0) with true by (symmetry; apply Z.ltb_lt; lia).
      replace (Z.leb _ _) with true by (symmetry; apply Z.leb_le; lia).
      cbn [andb]. f_equal. lia. }
  cbn [bind].
  assert (G : forall l acc (y : nat) o, nth_error acc (length P) = Some (Some y) -> fold_sh (concat2 (length (P ++ [Some d]))) acc l = Ok o -> nth_error o (length P) = Some (Some y)).
  { induction l as [|t q IH]; intros acc y o Hn Hf; cbn [fold_sh] in Hf; [now injection Hf as <-|].
    destruct (concat2 _ acc t) as [r|] eqn:C; cbn [bind] in Hf; [|discriminate]. apply (IH r y o); [|exact Hf].
    rewrite app_length in C. cbn [length] in C. rewrite Nat.add_1_r in C. clear - C Hn. revert acc t r C Hn.
    induction (length P) as [|m IHm]; intros acc t r C Hn; destruct acc as [|x acc]; try discriminate; destruct t as [|z t]; try (cbn in C; discriminate).
    - cbn [concat2] in C. destruct (dim_eqb x z); [|discriminate]. destruct acc, t; try (cbn in C; discriminate). 
      destruct (sh_eqb acc t); [|discriminate]. cbn in C. injection C as <-. exact Hn.
    - change (concat2 (S (S m)) (x :: acc) (z :: t)) with (if dim_eqb x z then e <- concat2 (S m) acc t ; Ok (x :: e) else Err ValueError) in C.
      destruct (dim_eqb x z); [|discriminate]. destruct (concat2 (S m) acc t) eqn:C2; [|discriminate]. cbn in C. injection C as <-.
      cbn in *. exact (IHm _ _ _ C2 Hn). }
  intro W. apply (G _ _ d) in W.
  - rewrite weight_mid in W. fold P in W. rewrite nth_error_app2, Nat.sub_diag in W by lia. cbn in W. injection W as W.
    inversion Pds; subst. lia.
  - rewrite nth_error_app2, Nat.sub_diag by lia. reflexivity.
Qed.

Theorem diagonal_reshape : forall D b n s t, size_of s = size_of t -> 0 < size_of t ->
  exists la lc, announced (SReshape t) D n AFFINE false (diagonal_tuple D b n s) = Ok la /\
    call_shapes (SReshape t) 0 true D AFFINE false (diagonal_tuple D b n s) = Ok lc /\
    nth_error la 1 = Some (weight_shape b n t) /\ nth_error lc 1 = Some (value_shape b t) /\ la <> lc.
Proof.
  intros D b n s t E P. eexists. eexists. split; [|split; [|split; [|split]]].
  - unfold announced, announced_layer. cbn -[x_shape]. unfold deduced. cbn -[x_shape last hd]. rewrite last_x, hd_x. reflexivity.
  - cbn [call_shapes]. unfold call_rnn. cbn -[keras_op value_shape Nat.eqb]. rewrite Nat.eqb_refl.
    assert (K : keras_op (SReshape t) (value_shape b s) = Ok (value_shape b t)) by (cbn; now apply reshape_ok).
    rewrite !K. cbn -[value_shape]. reflexivity.
  - reflexivity.
  - reflexivity.
  - intro F. injection F as F. apply (f_equal (@length _)) in F. cbn in F. rewrite map_length in F. lia.
Qed.

(** a Dense layer of a tuple with diagonal weights gives full weights, with one row per coordinate of its input *)
Theorem diagonal_dense : forall D b n d u bias,
  announced (SDense u) D n AFFINE false (diagonal_tuple D b n [d]) = Ok (tuple_shapes D AFFINE false b n [u]) /\
  call_dense d u bias D AFFINE false (diagonal_tuple D b n [d]) = Ok [x_shape D b n; weight_shape b d [u]; value_shape b [u]; weight_shape b d [u]; value_shape b [u]].
Proof.
  intros. split.
  - unfold announced, announced_layer, deduced. cbn -[x_shape last hd]. rewrite last_x, hd_x. reflexivity.
  - unfold call_dense. cbn -[s_bin]. rewrite Nat.eqb_refl. cbn -[s_bin].
    assert (W : s_bin [b; Some 1; Some u] [Some 1; Some d; Some u] = Ok [b; Some d; Some u]).
    { unfold s_bin. cbn. destruct u as [|[|u]]; cbn; rewrite ?Nat.eqb_refl; cbn; destruct b as [[|[|b]]|]; reflexivity. }
    rewrite W. cbn -[s_bin]. destruct bias; [|reflexivity].
    match goal with |- context [s_bin ?a ?c] => replace (s_bin a c) with (Ok [b; Some u] : result sh) by (symmetry; exact (bias_value b [] u)) end.
    reflexivity.
Qed.

(** ** Examples *)
Definition shape_net : list snode :=
  [(SFlatten, [0]); (SDense 4, [1]); (SRelu, [2]); (SConcat (-1), [3; 2]); (SReshape [2;4], [4]); (SPermute [2;1], [5]);
   (SConcat 1, [6; 6]); (SAdd, [7; 7]); (SBatchNorm 1 8, [8]); (SSubtract, [9; 8]); (SMaximum, [10; 9; 8]); (SMinimum, [11; 9]); (SAverage, [12; 8]); (SDense 1, [13]); (SMaximum, [14; 13; 14]); (SAdd, [14; 15]); (SMultiply, [14; 16; 14]); (SSigmoid, [17]); (SExponential, [18]); (SDense 3, [19]); (SSoftmax, [20])].
Definition shape_net_shapes : list (list nat) := [[2;3]; [6]; [4]; [4]; [8]; [2;4]; [4;2]; [8;2]; [8;2]; [8;2]; [8;2]; [8;2]; [8;2]; [8;2]; [8;1]; [8;2]; [8;2]; [8;2]; [8;2]; [8;2]; [8;3]; [8;3]].
Ltac joins := repeat (first [apply joined_nil|apply joined_cons; [lia|]]).
Ltac node := eapply ns_cons; [repeat constructor| |].
Lemma shape_net_ok : net_shapes [[2;3]] shape_net shape_net_shapes.
Proof.
  unfold shape_net. node; [apply out_flatten|]. node; [apply (out_dense 4 [] 6)|]. node; [apply out_relu|].
  node; [apply (out_concat (-1) [] [] 4 [4]); right; reflexivity|]. node; [apply out_reshape; reflexivity|].
  node; [apply out_permute; cbn; apply perm_swap|]. node; [apply (out_concat 1 [] [2] 4 [4]); left; reflexivity|].
  node; [apply (out_add [8;2] [[8;2]] [8;2]); eapply (broadcast_cons _ _ [8;2]); [joins|apply broadcast_one]|]. node; [apply (out_batchnorm 1 [] 8 [2]); left; reflexivity|].
  node; [apply (out_subtract [8;2] [8;2] [8;2]); joins|]. node; [apply (out_maximum [8;2] [[8;2];[8;2]] [8;2]); eapply (broadcast_cons _ _ [8;2]); [joins|]; eapply (broadcast_cons _ _ [8;2]); [joins|apply broadcast_one]|].
  node; [apply (out_minimum [8;2] [[8;2]] [8;2]); eapply (broadcast_cons _ _ [8;2]); [joins|apply broadcast_one]|].
  node; [apply (out_average [8;2] [[8;2]] [8;2]); eapply (broadcast_cons _ _ [8;2]); [joins|apply broadcast_one]|].
  node; [apply (out_dense 1 [8] 2)|].
  node; [apply (out_maximum [8;1] [[8;2];[8;1]] [8;2]); eapply (broadcast_cons _ _ [8;2]); [joins|]; eapply (broadcast_cons _ _ [8;2]); [joins|apply broadcast_one]|].
  node; [apply (out_add [8;1] [[8;2]] [8;2]); eapply (broadcast_cons _ _ [8;2]); [joins|apply broadcast_one]|].
  node; [apply (out_multiply [8;1] [[8;2];[8;1]] [8;2]); eapply (broadcast_cons _ _ [8;2]); [joins|]; eapply (broadcast_cons _ _ [8;2]); [joins|apply broadcast_one]|].
  node; [apply out_sigmoid|]. node; [apply out_exponential|].
  node; [apply (out_dense 3 [8] 2)|]. node; [apply (out_softmax [8] 3)|]. apply ns_nil.
Qed.
Theorem shape_net_example :
  net_shapes [[2;3]] shape_net shape_net_shapes /\
  announce_net Box 6 HYBRID false [tuple_shapes Box HYBRID false None 6 [2;3]] shape_net
    = Ok (map (tuple_shapes Box HYBRID false None 6) shape_net_shapes) /\
  call_net Box 6 HYBRID false [tuple_shapes Box HYBRID false None 6 [2;3]] [tuple_shapes Box HYBRID false (Some 7) 6 [2;3]] shape_net
    = Ok (map (tuple_shapes Box HYBRID false (Some 7) 6) shape_net_shapes).
Proof.
  split; [exact shape_net_ok|split].
  - apply (announce_net_ok Box 6 HYBRID false None [[2;3]]). exact shape_net_ok.
  - apply (call_net_ok Box 6 HYBRID false None (Some 7) [[2;3]]); [exact shape_net_ok| |lia|]; repeat constructor; cbn; try discriminate; lia.
Qed.

(** an image bounded by an ibp model, given to an affine one *)
Theorem convert2mode_image_refuted : forall b dc to, to <> IBP ->
  convert2mode_call Box IBP to dc (tuple_shapes Box IBP dc b 12 [4;3]) <>
  convert2mode_announced Box 12 IBP to dc (tuple_shapes Box IBP dc b 12 [4;3]).
Proof. intros b dc to NI E. apply convert2mode_from_ibp_iff in E; [|exact NI|discriminate]. destruct E as [_ E]. discriminate. Qed.
Theorem convert2mode_hidden_refuted : forall b dc to n m, to <> IBP -> n <> m ->
  convert2mode_call Box IBP to dc (tuple_shapes Box IBP dc b n [m]) <>
  convert2mode_announced Box n IBP to dc (tuple_shapes Box IBP dc b n [m]).
Proof. intros b dc to n m NI NE E. apply convert2mode_from_ibp_iff in E; [|exact NI|discriminate]. destruct E as [_ E]. injection E as E. congruence. Qed.
Theorem merge_dc : forall L D mode b n args s o, without_dc L = true -> out_shape L args s ->
  announced L D n mode true (concat (map (tuple_shapes D mode true b n) args)) = Ok (tuple_shapes D mode true b n s) /\
  call_shapes L 0 true D mode true (concat (map (tuple_shapes D mode true b n) args)) <> Ok o.
Proof.
  intros L D mode b n args s o M H. split; [now apply announced_ok|].
  assert (G : forall f g, call_merge f g D mode true (concat (map (tuple_shapes D mode true b n) args)) <> Ok o).
  { intros f g. unfold call_merge. destruct (mapR _ _); cbn [bind]; [|discriminate].
    repeat match goal with |- context [when ?c ?r] => destruct (when c r); cbn [bind]; [|discriminate] end. discriminate. }
  destruct L; try discriminate M; try apply G; try (cbn; discriminate).
  { cbn [call_shapes]. unfold call_sigmoid. destruct (s_fullinputs _ _ _ _ _); cbn [bind]; [|discriminate].
    match goal with |- context [bind ?r _] => destruct r as [[[[? ?] ?] ?]|] end; cbn [bind]; discriminate. }
  { cbn [call_shapes]. unfold call_exponential. destruct (s_fullinputs _ _ _ _ _); cbn [bind]; [|discriminate].
    match goal with |- context [if get_affine mode then ?a else ?c] => destruct (if get_affine mode then a else c) as [[[[? ?] ?] ?]|] end; cbn [bind]; discriminate. }
  cbn [call_shapes]. unfold call_batchnorm. destruct (s_fullinputs _ _ _ _ _); cbn [bind]; [|discriminate]. destruct (kerasinputshape _); cbn [bind]; [|discriminate]. destruct (norm_axis _ _); cbn [bind]; [|discriminate].
  repeat match goal with |- context [when ?c ?r] => destruct (when c r); cbn [bind]; [|discriminate] end. destruct (s_expand1 _); cbn [bind]; [|discriminate].
  repeat match goal with |- context [when ?c ?r] => destruct (when c r); cbn [bind]; [|discriminate] end. discriminate.
Qed.

(** ** Operands of different ranks *)
Lemma bcast_rev_err : forall r p q e, bcast_rev p q = Err e -> bcast_rev (r ++ p) (r ++ q) = Err e.
Proof. induction r as [|a r IH]; intros p q e E; [exact E|]. cbn [app bcast_rev]. rewrite dim_bcast_refl. cbn [bind]. now rewrite (IH _ _ _ E). Qed.
Lemma dim_bcast_err : forall d k, d <> k -> d <> 1 -> k <> 1 -> dim_bcast (Some d) (Some k) = Err ValueError.
Proof.
  intros d k H D K. assert (E : (d =? k) = false) by now apply Nat.eqb_neq. destruct d as [|[|d]]; [|congruence|]; (destruct k as [|[|k]]; [|congruence|]); cbn -[Nat.eqb]; try congruence; now rewrite E.
Qed.
Lemma rank_err : forall k pre d s, d <> k -> d <> 1 -> k <> 1 ->
  s_bin (value_shape (Some k) (pre ++ d :: s)) (value_shape (Some k) s) = Err ValueError /\
  s_bin (value_shape (Some k) s) (value_shape (Some k) (pre ++ d :: s)) = Err ValueError.
Proof.
  intros k pre d s H D K. unfold s_bin, value_shape. cbn [rev]. rewrite map_app. cbn [map]. rewrite rev_app_distr. cbn [rev]. rewrite <- !app_assoc. cbn [app].
  split; rewrite (bcast_rev_err _ _ _ ValueError); try reflexivity; cbn [bcast_rev]; rewrite dim_bcast_err by congruence; reflexivity.
Qed.
Lemma rank_keras : forall b pre s, keras_elementwise (value_shape b (pre ++ s)) [value_shape b s] = Ok (value_shape b (pre ++ s)).
Proof.
  intros. unfold keras_elementwise, value_shape. cbn [tl hd map fold_sh]. unfold s_bin. rewrite map_app, rev_app_distr.
  pose proof (bcast_rev_app (rev (map Some s)) (rev (map Some pre)) [] (rev (map Some pre))) as E. rewrite app_nil_r in E. rewrite E by (destruct (rev (map Some pre)); reflexivity).
  cbn [bind]. rewrite rev_app_distr, !rev_involutive. reflexivity.
Qed.
Lemma s_bin_err : forall s t e, s_bin s t = Err e -> e = ValueError.
Proof.
  assert (D : forall a c e, dim_bcast a c = Err e -> e = ValueError).
  { intros [[|[|a]]|] [[|[|c]]|] e; cbn; try discriminate; try (destruct (_ =? _); [discriminate|]); intro H; injection H as <-; reflexivity. }
  assert (B : forall s t e, bcast_rev s t = Err e -> e = ValueError).
  { induction s as [|a s IH]; intros [|c t] e; cbn; try discriminate. destruct (dim_bcast a c) eqn:E; cbn; [|intro H; injection H as <-; exact (D _ _ _ E)].
    destruct (bcast_rev s t) eqn:E'; cbn; [discriminate|]. intro H; injection H as <-. exact (IH _ _ E'). }
  intros s t e. unfold s_bin. destruct (bcast_rev _ _) eqn:E; cbn; [discriminate|]. intro H; injection H as <-. exact (B _ _ _ E).
Qed.
Theorem rank_differs : forall L D mode b n k pre d s, In L [SAdd; SAverage; SSubtract; SMaximum; SMinimum; SMultiply] -> d <> k -> d <> 1 -> k <> 1 ->
  announced L D n mode false (concat (map (tuple_shapes D mode false b n) [pre ++ d :: s; s])) = Ok (tuple_shapes D mode false b n (pre ++ d :: s)) /\
  call_shapes L 0 true D mode false (concat (map (tuple_shapes D mode false (Some k) n) [pre ++ d :: s; s])) = Err ValueError.
Proof.
  intros L D mode b n k pre d s I H H1 K. split.
  - assert (M : merging L = true) by (cbn in I; intuition subst; reflexivity). unfold announced. rewrite M. unfold announced_merge, merge_shapes.
    rewrite split_tuples, (mapR_map _ _ _ _ _ (value_shape b)) by (intros; apply kerasinput_tuple). cbn [bind map].
    assert (E : keras_shape L [value_shape b (pre ++ d :: s); value_shape b s] = Ok (value_shape b (pre ++ d :: s))).
    { replace (pre ++ d :: s) with ((pre ++ [d]) ++ s) by (rewrite <- app_assoc; reflexivity). cbn in I; intuition subst; cbn [keras_shape]; apply rank_keras. }
    rewrite E. cbn [bind]. rewrite sh_eqb_refl. reflexivity.
  - destruct (rank_err k pre d s H H1 K) as [E1 E2]. set (t := pre ++ d :: s) in *. clearbody t.
    assert (A1 : s_add D mode false (tuple_shapes D mode false (Some k) n t) (tuple_shapes D mode false (Some k) n s) = Err ValueError).
    { unfold s_add. rewrite !fullinputs_ok. destruct mode; cbn -[s_bin value_shape weight_shape]; change (s_bin [] []) with (@Ok sh []); cbn -[s_bin value_shape weight_shape]; rewrite E1; reflexivity. }
    assert (A2 : s_add D mode false (tuple_shapes D mode false (Some k) n s) (tuple_shapes D mode false (Some k) n t) = Err ValueError).
    { unfold s_add. rewrite !fullinputs_ok. destruct mode; cbn -[s_bin value_shape weight_shape]; change (s_bin [] []) with (@Ok sh []); cbn -[s_bin value_shape weight_shape]; rewrite E2; reflexivity. }
    assert (G : call_merge s_sum s_sum D mode false (concat (map (tuple_shapes D mode false (Some k) n) [t; s])) = Err ValueError).
    { unfold call_merge. rewrite split_tuples, (mapR_map _ _ _ _ _ (full_tuple D mode false false (Some k) n)) by (intros; apply fullinputs_ok).
      destruct mode; cbn -[s_bin value_shape weight_shape]; rewrite E1; reflexivity. }
    assert (X : s_maximum D mode false (tuple_shapes D mode false (Some k) n t) (tuple_shapes D mode false (Some k) n s) = Err ValueError).
    { unfold s_maximum, s_subtract. rewrite (minus_ok D). cbn [bind]. rewrite A2. reflexivity. }
    cbn [In] in I. destruct I as [<-|[<-|[<-|[<-|[<-|[<-|[]]]]]]]; cbn [call_shapes]; try exact G.
    + unfold call_subtract. rewrite split_tuples. cbn [map]. unfold s_subtract. rewrite (minus_ok D). cbn [bind]. exact A1.
    + unfold call_maximum. rewrite split_tuples. cbn [map fold_tuples]. rewrite X. reflexivity.
    + unfold call_minimum. rewrite split_tuples, (mapR_map _ _ _ _ _ (tuple_shapes D mode false (Some k) n)) by (intros; apply minus_ok). cbn [bind map fold_tuples]. rewrite X. reflexivity.
    + unfold call_multiply. rewrite split_tuples. cbn [map fold_tuples].
      assert (Y : s_multiply D mode false (tuple_shapes D mode false (Some k) n t) (tuple_shapes D mode false (Some k) n s) = Err ValueError); [|rewrite Y; reflexivity].
      unfold s_multiply. rewrite !fullinputs_ok. assert (W : forall u, s_expand1 (value_shape (Some k) u) = Ok (Some k :: Some 1 :: map Some u)) by reflexivity.
      destruct mode; cbn -[s_bin value_shape weight_shape s_expand1]; rewrite ?W, ?E1; cbn -[s_bin value_shape weight_shape s_expand1]; try reflexivity.
      repeat (match goal with |- context [s_bin ?a ?c] => let Q := fresh in destruct (s_bin a c) eqn:Q; [|rewrite (s_bin_err _ _ _ Q)] end;
        cbn -[s_bin value_shape weight_shape s_expand1]; try reflexivity).
Qed.
(** no error when the batch has the size of that axis *)
Theorem rank_batch : forall D n pre d s, call_shapes SAdd 0 true D IBP false (concat (map (tuple_shapes D IBP false (Some d) n) [pre ++ d :: s; s]))
  = Ok (tuple_shapes D IBP false (Some d) n (pre ++ d :: s)).
Proof.
  intros D n pre d s.
  assert (E : s_bin (value_shape (Some d) (pre ++ d :: s)) (value_shape (Some d) s) = Ok (value_shape (Some d) (pre ++ d :: s))).
  { unfold s_bin, value_shape. cbn [rev]. rewrite map_app. cbn [map]. rewrite rev_app_distr. cbn [rev]. rewrite <- !app_assoc. cbn [app].
    rewrite (bcast_rev_app _ _ _ (Some d :: rev (map Some pre) ++ [Some d])).
    2:{ cbn [bcast_rev]. rewrite dim_bcast_refl. cbn [bind]. destruct (rev (map Some pre)); reflexivity. }
    cbn [bind]. rewrite rev_app_distr. cbn [rev]. rewrite rev_app_distr, !rev_involutive. cbn [rev app]. rewrite <- app_assoc. reflexivity. }
  cbn -[s_bin value_shape]. rewrite E. cbn -[s_bin value_shape]. reflexivity.
Qed.

(** ** Dot of two vectors *)
Lemma joined_refl : forall s, joined s s s.
Proof. induction s; constructor; [lia|assumption]. Qed.
Theorem dot_vectors : forall D mode b n d,
  let l := concat (map (tuple_shapes D mode false b n) [[d]; [d]]) in
  announced_dot D n mode false l = Ok (tuple_shapes D mode false b n [1]) /\ call_dot D mode false l = Ok (tuple_shapes D mode false b n []) /\
  announced_dot D n mode false l <> call_dot D mode false l.
Proof.
  intros D mode b n d l.
  assert (A : announced_dot D n mode false l = Ok (tuple_shapes D mode false b n [1])).
  { unfold announced_dot, merge_shapes, l. rewrite split_tuples, (mapR_map _ _ _ _ _ (value_shape b)) by (intros; apply kerasinput_tuple). cbn [bind map].
    unfold keras_dot, value_shape at 1 2. cbn [map]. rewrite dim_eqb_refl. cbn [bind]. destruct (sh_eqb _ _) eqn:E.
    - apply sh_eqb_eq in E. injection E as E. subst d. reflexivity.
    - apply (deduced_ok D mode false b n [d] [1]). }
  assert (C : call_dot D mode false l = Ok (tuple_shapes D mode false b n [])).
  { unfold call_dot, l. rewrite split_tuples. cbn [map]. rewrite (multiply_ok _ _ _ _ _ _ _ (joined_refl [d])). cbn [bind]. apply (sum_last_ok D mode b n [] d). }
  split; [exact A|]. split; [exact C|]. rewrite A, C. destruct mode; discriminate.
Qed.
