(** Layers as sound operations, instances and counter-examples for the conversion of graphs. *)
From Coq Require Import String Ascii Reals List Arith Bool ZArith Lra Lia Psatz.
From Verif Require Import RLib Spec Spec_Layers Spec_Backward Spec_Convert M_Core M_Utils M_MergeLayers M_Ops M_Layers M_Pool M_Backward M_Crown M_Convert
  P_Core P_CoreThm P_Merge P_Utils P_MergeLayers P_Layers P_Backward P_BackwardOps P_BackwardMore P_Crown P_BackwardThm P_Graph P_Convert.
Import ListNotations.
Local Open Scope R_scope.

(** ** Layers *)
Lemma fwd_unary : forall sp (P : list tensor -> Prop) m m' op (F : vec -> vec),
  (forall (S : vec -> Prop) f ts, op_sp sp S m f ts -> P ts -> exists out, op ts = Ok out /\ op_sp sp S m' (fun z => F (f z)) out) ->
  fwd_sound sp P [m] m' op (fun l => F (head_vec l)).
Proof.
  intros sp P m m' op F H S gs tss Hl HF HP. destruct gs as [|f [|]]; try discriminate Hl. cbn [combine] in HF.
  inversion HF as [|? ts ? q V HF']; subst. inversion HF'; subst. cbn [concat map head_vec hd] in *. rewrite app_nil_r in *. apply (H S f ts V HP).
Qed.

Lemma fwd_dense : forall sp d units kernel bias, (0 < sp_n sp)%nat -> dom_ok (sp_dom sp) (sp_mode sp) -> (0 < units)%nat ->
  fwd_sound sp (fun _ => True) [d] units (decomon_dense sp d units kernel bias false None) (fun l => keras_dense d units kernel (bias_of bias) (head_vec l)).
Proof.
  intros sp d units kernel bias Hn Hd Hu. apply (fwd_unary sp (fun _ => True) d units _ (keras_dense d units kernel (bias_of bias))). intros S f ts V _.
  destruct (dense_sound sp 1 d units kernel bias S f ts Hn Hd Hu) as (out & E & V'); [rewrite Nat.mul_1_l; exact V|].
  rewrite Nat.mul_1_l in V'. eauto.
Qed.

Lemma fwd_relu : forall ke sp sl ft m, 0 < ke -> (0 < sp_n sp)%nat -> dom_ok (sp_dom sp) (sp_mode sp) -> ft_ok m ft ->
  fwd_sound sp (gaps_ok ke sp m) [m] m (relu_ ke sp sl ft) (fun l j => Rrelu (head_vec l j)).
Proof.
  intros ke sp sl ft m Hke Hn Hd Hft. apply (fwd_unary sp (gaps_ok ke sp m) m m (relu_ ke sp sl ft) (fun y j => Rrelu (y j))).
  intros S f ts V HP. apply (relu_sound ke sp sl ft S m f ts); auto.
Qed.

Lemma repeat_combine : forall A B (a : A) (l : list B), combine (repeat a (length l)) l = map (fun b => (a, b)) l.
Proof. intros A B a. induction l as [|b l IH]; [reflexivity|]. cbn. rewrite IH. reflexivity. Qed.

Lemma Forall2_map_l : forall A B C (f : A -> B) (R0 : B -> C -> Prop) l l', Forall2 R0 (map f l) l' -> Forall2 (fun a c => R0 (f a) c) l l'.
Proof. intros A B C f R0. induction l as [|a l IH]; intros l' H; inversion H; subst; constructor; auto. Qed.

Lemma fwd_add : forall sp m k, (0 < sp_n sp)%nat -> dom_ok (sp_dom sp) (sp_mode sp) -> sp_dc sp = false -> (0 < k)%nat ->
  fwd_sound sp (fun _ => True) (repeat m k) m (decomon_add sp) (fun l j => sum_list (map (fun y => y j) l)).
Proof.
  intros sp m k Hn Hd Hdc Hk S gs tss Hl HF _. rewrite repeat_length in Hl. subst k. rewrite repeat_combine in HF. apply Forall2_map_l in HF. cbn in HF.
  destruct (decomon_add_sound sp S m gs tss Hn Hd Hdc HF) as (out & E & V).
  { intros ->. inversion HF; subst. cbn in Hk. lia. }
  exists out. split; [exact E|]. eapply op_sp_ext; [|exact V]. intros z j _ _. unfold vals. rewrite map_map. reflexivity.
Qed.

(** a nested model with one input *)
Lemma fwd_nested : forall sp m0 sub ops v dims (P : nat -> list tensor -> Prop) lv o,
  acyclic (parents_of sub) ->
  (forall i nod, nth_error sub i = Some nod -> fn_kind nod = KInput -> fn_parents nod = [] /\ dims i = m0 /\ forall y, v i y = y) ->
  (forall i nod, nth_error sub i = Some nod -> fn_parents nod = [] -> fn_kind nod = KInput) ->
  map snd ops = parents_of sub -> network_value ops v ->
  (forall i nod op f ps, nth_error sub i = Some nod -> fn_kind nod = KOp op -> nth_error ops i = Some (f, ps) ->
     fwd_sound sp (P i) (map dims ps) (dims i) op f) ->
  unshared sub -> longest_path (parents_of sub) lv -> deepest (parents_of sub) lv o ->
  exists op, nested_model sub [o] = KOp op /\
    fwd_sound sp (fun ts => forall i nod vs, nth_error sub i = Some nod -> evaluates (firstn i sub) no_map ts vs -> P i (concat (map vs (fn_parents nod))))
      [m0] (dims o) op (fun l => v o (head_vec l)).
Proof.
  intros sp m0 sub ops v dims P lv o Hacy Hin Hsrc Hops Hv Hlay Hu Hlv Hd. eexists. split; [reflexivity|].
  apply (fwd_unary sp _ m0 (dims o) _ (v o)). intros S f ts V HP.
  assert (Ho : (o < length sub)%nat) by (destruct Hd as [Q _]; unfold parents_of in Q; rewrite map_length in Q; exact Q).
  destruct (forward_outputs_sound sp S m0 f ts sub ops v dims P V Hacy Hin Hsrc Hops Hv Hlay HP lv [o] Hu Hlv) as (tss & E & F).
  - intros o' [<-|[]]. exact Ho.
  - intros ->. cbn in Ho. lia.
  - cbn [filter] in F. rewrite (deepest_b _ sub lv o Hd) in F. inversion F as [|? t ? q Vo F' Q1 Q2]; subst. inversion F'; subst.
    exists t. change (fun _ : nat => None) with (@no_map tensor). rewrite E. cbn [concat]. rewrite app_nil_r. split; [reflexivity|exact Vo].
Qed.

(** ** Example: x + relu (dense x), any width *)
Section Residual.
Variables (n : nat) (kernel : mat) (bias : option vec) (z : tensor).
Hypothesis Hn : (0 < n)%nat.
Let sp := mk_spec false IBP Box n.
Let kd' := keras_dense n n kernel (bias_of bias).
Definition res_graph : fgraph tensor :=
  [mk_fnode 0 KInput []; mk_fnode 1 (KOp (decomon_dense sp n n kernel bias false None)) [0%nat];
   mk_fnode 2 (KOp (relu_ (1/10) sp V_SLOPE None)) [1%nat]; mk_fnode 3 (KOp (decomon_add sp)) [2%nat; 0%nat]].
Definition res_ops : list ((list vec -> vec) * list nat) :=
  [(head_vec, []); (fun l => kd' (head_vec l), [0%nat]); (fun l j => Rrelu (head_vec l j), [1%nat]); (fun l j => sum_list (map (fun y => y j) l), [2%nat; 0%nat])].
Definition res_v (i : nat) (y : vec) : vec :=
  match i with O => y | 1%nat => kd' y | 2%nat => fun j => Rrelu (kd' y j) | _ => fun j => sum_list [Rrelu (kd' y j); y j] end.

Lemma residual_clone : exists ts, clone_forward Box n IBP IBP res_graph [3%nat] z = Ok ts /\
  valid Box IBP false (in_dom Box n z) n n (fun y j => Rrelu (keras_dense n n kernel (bias_of bias) y j) + y j) ts.
Proof.
  destruct (clone_forward_first Box n IBP IBP z res_graph res_ops res_v (fun _ => n)
    (fun i => match i with 2%nat => gaps_ok (1/10) sp n | _ => fun _ => True end) (fun i => i) [3%nat] 3%nat []) as (ts & E & V).
  - exact Hn.
  - exact I.
  - reflexivity.
  - intros i ps p E Hp. destruct i as [|[|[|[|i]]]]; cbn in E; [..|destruct i; discriminate E]; injection E; intros <-; cbn in Hp; lia.
  - intros i nod E Ek. four; injection E; intros <-; try discriminate Ek. auto.
  - intros i nod E Ep. four; injection E; intros <-; try discriminate Ep. reflexivity.
  - reflexivity.
  - intros y i f ps E. four; injection E; intros <- <-; reflexivity.
  - intros i nod op f ps E Ek Ef. four; cbn in Ef; injection E; intros <-; try discriminate Ek; injection Ek; intros <-; injection Ef; intros <- <-.
    + apply (fwd_dense sp n n kernel bias); auto; exact I.
    + apply (fwd_relu (1/10) sp V_SLOPE None n); auto; try exact I; lra.
    + apply (fwd_add sp n 2); auto; exact I.
  - intros its i nod vs _ E _. four; auto. intros Q. exfalso. apply Q. reflexivity.
  - repeat constructor; cbn; intuition discriminate.
  - intros i ps E. four; injection E; intros <-; try reflexivity; (split; [intros p Hp; cbn in Hp; lia|]); [exists 0%nat|exists 1%nat|exists 2%nat]; cbn; auto.
  - intros o [<-|[]]. cbn. lia.
  - reflexivity.
  - exists ts. split; [exact E|]. apply (op_sp_ext sp _ n (res_v 3)); [|exact V]. intros y j _ _. cbn. fold kd'. lra.
Qed.
End Residual.

(** ** C35: from ibp *)
Definition ibp_plus10 : fgraph tensor :=
  [mk_fnode 0 KInput []; mk_fnode 1 (KOp (decomon_dense (mk_spec false IBP Box 1) 1 1 (fun _ _ => 1) (Some (fun _ => 10)) false None)) [0%nat]].

Lemma clone_ibp_affine_refuted : exists (z : tensor) y x rest,
  clone_forward Box 1 IBP HYBRID ibp_plus10 [1%nat] z = Ok (x :: rest) /\ in_dom Box 1 z y /\ ~ in_dom Box 1 x y.
Proof.
  exists (fun c _ => INR c), (fun _ => 0). eexists. eexists. split; [reflexivity|]. split.
  - intros i Hi. cbn. lra.
  - intros H. specialize (H 0%nat ltac:(lia)). revert H. cbv -[Rmax Rmin Rplus Rmult Rminus Ropp IZR Rlt Rle Rdiv Rinv]. rminmax. lra.
Qed.

Lemma convert2mode_shape_refuted : forall D input_dim m,
  convert2mode_shapes D input_dim m = convert2mode_actual m <-> (D = Box /\ input_dim = m).
Proof.
  intros D d m. unfold convert2mode_shapes, convert2mode_actual. split.
  - intros H. injection H as H. destruct D; [injection H as ->; auto|discriminate H].
  - intros [-> ->]. reflexivity.
Qed.

(** the default method (crown, ibp mode) over a ball *)
Lemma crown_ball_error : forall eps p n final fg ids g outs back z ts,
  clone_backward (Ball eps p) n IBP final fg ids g outs back z <> Ok ts.
Proof.
  intros eps p n final fg ids g outs back z ts H. unfold clone_backward in H. destruct (get_input_tensors _ _ _ _) as [its|]; [|discriminate H]. cbn [bind] in H.
  destruct (match fg with Some h => _ | None => _ end) as [fm|]; [|discriminate H]. cbn [bind] in H. unfold convert_backward in H.
  destruct (_ && _)%bool; [discriminate H|]. destruct (output_nodes _ _) as [l|]; [|discriminate H]. cbn [bind] in H.
  destruct (crown_model _ _ _ _ _ _ _ _) as [o|] eqn:E; [|discriminate H]. cbn [bind] in H.
  assert (o = []) as ->.
  { unfold crown_model in E. destruct (_ && _)%bool; [discriminate E|]. destruct (get_input_nodes _ _ _ _ _ _ _ _) as [imap|]; [|discriminate E]. cbn [bind] in E.
    destruct l as [|a l]; [injection E as <-; reflexivity|]. cbn [mapR] in E. destruct (crown _ _ _ _ _ _ _) as [B|]; [|discriminate E]. cbn [bind] in E.
    exfalso. unfold convert2backward in E. destruct its as [|u [|l' [|]]]; discriminate E. }
  discriminate H.
Qed.

Lemma rank3_error : forall eps p n m x_0 w b r, (3 <= n)%nat -> upper_rank3 eps p n m x_0 w b <> Ok r.
Proof.
  intros eps p n m x_0 w b r Hn H. unfold upper_rank3 in H. destruct (rank3_radius _ _ _ _); [|discriminate H]. cbn [bind] in H.
  destruct n as [|[|[|n]]]; try lia. discriminate H.
Qed.

(** one input: the upper bound is below a value taken in the ball; [ts]: the input tensors of the converted model *)
Lemma rank3_refuted : exists (z : tensor) (y : vec) (u l : tensor) (r : vec),
  (get_input_tensors (Some (Ball 1 (Pnum 2))) IBP 1 z = Ok [u; l]) /\ in_dom (Ball 1 (Pnum 2)) 1 z y /\ upper_rank3 1 (Pnum 2) 1 1 (fun c => if Nat.eqb c 0 then l 0%nat else u 0%nat) id_mat zero_vec = Ok r /\ r 0%nat < aff 1 id_mat zero_vec y 0%nat.
Proof.
  exists (fun _ _ => -5), (fun _ => -5). do 3 eexists. split; [reflexivity|]. split; [|split; [reflexivity|]].
  - split; [lra|]. unfold rsum. cbn. replace (-5 - -5) with 0 by ring. rewrite Rabs_R0. lra.
  - rewrite identity_aff by lia. cbn. unfold vt. assert (Q : sqrt (0 + 1 * (1 * 1)) = 1) by (replace (0 + 1 * (1 * 1)) with 1 by ring; apply sqrt_1).
    unfold rsum, id_mat, zero_vec. cbn. rewrite ?Q. lra.
Qed.

Lemma rank3_inf_refuted : exists (z : tensor) (y : vec) (u l : tensor) (r : vec),
  (get_input_tensors (Some (Ball 1 Pinf)) IBP 1 z = Ok [u; l]) /\ in_dom (Ball 1 Pinf) 1 z y /\
  upper_rank3 1 Pinf 1 1 (fun c => if Nat.eqb c 0 then l 0%nat else u 0%nat) (fun _ _ => -1) zero_vec = Ok r /\ r 0%nat < aff 1 (fun _ _ => -1) zero_vec y 0%nat.
Proof.
  exists (fun _ _ => 2), (fun _ => 1). do 3 eexists. split; [reflexivity|]. split; [|split; [reflexivity|]].
  - intros i Hi. rewrite Rabs_left; lra.
  - unfold aff, rsum, vt, rank3_term, zero_vec. cbn. rewrite Rmax_right, Rmin_left by lra. lra.
Qed.
Lemma back_outputs_error : forall D n mode final fg ids g a b outs back z ts,
  clone_backward D n mode final fg ids g (a :: b :: outs) (Some back) z <> Ok ts.
Proof.
  intros D n mode final fg ids g a b outs back z ts H. unfold clone_backward in H. destruct (get_input_tensors _ _ _ _) as [its|]; [|discriminate H]. cbn [bind] in H.
  destruct (match fg with Some h => _ | None => _ end) as [fm|]; [|discriminate H]. discriminate H.
Qed.

(** ** C37 *)
Lemma convert_method_table : forall s m, convert_method s = Ok m <-> In (s, m) methods.
Proof.
  intros s m. unfold convert_method. split.
  - destruct (find _ methods) as [[a b]|] eqn:E; [|discriminate]. intros H. injection H as <-. apply find_some in E. destruct E as [Hin E].
    apply String.eqb_eq in E. cbn in E. subst. exact Hin.
  - intros H. cbn in H. repeat (destruct H as [H|H]; [injection H as <- <-; reflexivity|]). contradiction.
Qed.

Lemma convert_method_unknown : forall s, (forall m, ~ In (s, m) methods) -> convert_method s = Err ValueError.
Proof.
  intros s H. destruct (convert_method s) as [m|e] eqn:E; [apply convert_method_table in E; destruct (H m E)|].
  unfold convert_method in E. destruct (find _ methods); [discriminate|]. congruence.
Qed.

Definition ends_with (t s : string) : Prop := exists p, s = (p ++ t)%string.

Lemma method_flags : forall s m, convert_method s = Ok m ->
  (get_direction m = FORWARD <-> prefix "forward" s = true) /\
  (get_direction m = BACKWARD <-> prefix "crown" s = true) /\
  (ends_with "ibp" s -> ibp_affine m = (true, false)) /\
  (ends_with "affine" s -> ibp_affine m = (false, true)) /\
  (ends_with "hybrid" s -> ibp_affine m = (true, true)) /\
  (s = "crown"%string -> ibp_affine m = (true, false)) /\
  (let '(i, a) := ibp_affine m in get_ibp (get_mode i a) = i /\ get_affine (get_mode i a) = a).
Proof.
  assert (L : forall p t, String.length (p ++ t) = (String.length p + String.length t)%nat).
  { induction p as [|c p IH]; intros t; [reflexivity|]. cbn. rewrite IH. reflexivity. }
  assert (E : forall s t, ends_with t s -> substring (String.length s - String.length t) (String.length t) s = t).
  { intros s t [p ->]. rewrite L. replace (String.length p + String.length t - String.length t)%nat with (String.length p) by lia.
    induction p as [|c p IH]; cbn; [|exact IH]. induction t as [|c t IH]; [reflexivity|]. cbn. rewrite IH. reflexivity. }
  intros s m H. apply convert_method_table in H. cbn in H.
  repeat (destruct H as [H|H]; [injection H as <- <-; repeat split; try reflexivity; try discriminate;
    intros Q; try (apply E in Q; cbn in Q; discriminate Q); try discriminate Q|]). contradiction.
Qed.

Lemma mode_roundtrip : forall i a, (i || a)%bool = true -> get_ibp (get_mode i a) = i /\ get_affine (get_mode i a) = a.
Proof. intros [] [] H; try discriminate H; split; reflexivity. Qed.

(** clone with both final flags off: the tensors are affine although the model announces neither kind *)
Lemma clone_flags_refuted : exists m mode, clone_flags "forward-hybrid" (Some false) (Some false) = Ok (m, mode, (false, false)) /\
  get_mode false false = AFFINE /\ get_affine (get_mode false false) <> false.
Proof. do 2 eexists. split; [reflexivity|]. split; [reflexivity|discriminate]. Qed.

(** the final flags default to those of the method *)
Lemma clone_flags_default : forall s m mode f, clone_flags s None None = Ok (m, mode, f) -> In (s, m) methods /\ f = ibp_affine m /\ mode = get_mode (fst f) (snd f).
Proof.
  intros s m mode f H. unfold clone_flags, get_ibp_affine_from_method in H. destruct (convert_method s) as [m0|] eqn:E; [|discriminate H]. cbn [bind] in H.
  apply convert_method_table in E.
  cbn in E. repeat (destruct E as [E|E]; [injection E as <- <-; cbv in H; injection H as <- <- <-; split; [|split]; try reflexivity; cbn; intuition|]). contradiction.
Qed.

Lemma clone_flags_final : forall s fi fa m mode f, clone_flags s fi fa = Ok (m, mode, f) ->
  f = (match fi with Some b => b | None => fst (ibp_affine m) end, match fa with Some b => b | None => snd (ibp_affine m) end).
Proof.
  intros s fi fa m mode f H. unfold clone_flags, get_ibp_affine_from_method in H. destruct (convert_method s) as [m0|] eqn:E; [|discriminate H]. cbn [bind] in H.
  apply convert_method_table in E. cbn in E.
  repeat (destruct E as [E|E]; [injection E as <- <-; cbv in H; injection H as <- <- <-; reflexivity|]). contradiction.
Qed.

Lemma clone_name_case_refuted : clone_flags "CROWN" None None = Err ValueError /\ convert_flags "CROWN" = Ok CROWN.
Proof. split; reflexivity. Qed.

Lemma clone_backward_count : forall D n mode final fg ids g outs back z ts,
  clone_backward D n mode final fg ids g outs back z = Ok ts -> length ts = nb_tensors final false.
Proof.
  intros D n mode final fg ids g outs back z ts H. unfold clone_backward in H. destruct (get_input_tensors _ _ _ _) as [its|]; [|discriminate H]. cbn [bind] in H.
  destruct (match fg with Some h => _ | None => _ end) as [fm|]; [|discriminate H]. cbn [bind] in H. unfold convert_backward in H.
  destruct (_ && _)%bool; [discriminate H|]. destruct (output_nodes _ _); [|discriminate H]. cbn [bind] in H.
  destruct (crown_model _ _ _ _ _ _ _ _) as [o|]; [|discriminate H]. cbn [bind] in H.
  destruct (convert2mode D n mode final (concat o)) as [c|] eqn:E; [|discriminate H]. cbn [bind] in H. apply convert2mode_count in E.
  destruct (_ && _)%bool; [|injection H as <-; exact E].
  destruct its as [|u [|l its]]; try discriminate H. destruct c as [|x q]; [discriminate H|]. injection H as <-. exact E.
Qed.

(** at most one flattened input *)
Lemma check_inputs_spec : forall shapes, check_inputs shapes = Ok tt <-> (length shapes <= 1)%nat /\ (length (nth 0 shapes []) <= 2)%nat.
Proof.
  intros shapes. unfold check_inputs. destruct (Nat.ltb_spec 1 (length shapes)); [split; [discriminate|lia]|].
  destruct (Nat.ltb_spec 2 (length (nth 0 shapes []))); split; try discriminate; try lia; auto.
Qed.

(** ** C38, C40: a nested model with several inputs *)
Definition sum_vecs (l : list vec) : vec := fun j => sum_list (map (fun y => y j) l).
Definition add_kind : fkind vec := KOp (fun l => Ok [sum_vecs l]).
(** Add()([a, b]) as a model of two inputs; a node calling it on two nodes of the outer model *)
Definition inner_add : fgraph vec := [mk_fnode 0 KInput []; mk_fnode 1 KInput []; mk_fnode 2 add_kind [0%nat; 1%nat]].

Lemma nested_inputs_refuted : forall (a b : vec) op, nested_model inner_add [2%nat] = KOp op ->
  exists r, op [a; b] = Ok [r] /\ forall j, r j = 2 * (a j + b j).
Proof.
  intros a b op H. injection H as <-. eexists. split; [reflexivity|]. intros j. cbn. lra.
Qed.

(** same thing on the bounds when the forward conversion meets a nested model *)
Definition inner_add_d (sp : spec) : fgraph tensor := [mk_fnode 0 KInput []; mk_fnode 1 KInput []; mk_fnode 2 (KOp (decomon_add sp)) [0%nat; 1%nat]].
Lemma nested_bounds_refuted : exists sp op (f0 f1 : vec -> vec) u l,
  valid (sp_dom sp) (sp_mode sp) false (fun _ => True) 1 1 f0 (ts_ibp (-1) (-1)) /\
  valid (sp_dom sp) (sp_mode sp) false (fun _ => True) 1 1 f1 (ts_ibp (-1) (-1)) /\
  nested_model (inner_add_d sp) [2%nat] = KOp op /\
  op (ts_ibp (-1) (-1) ++ ts_ibp (-1) (-1)) = Ok [u; l] /\
  u 0%nat 0%nat < f0 (fun _ => 0) 0%nat + f1 (fun _ => 0) 0%nat.
Proof.
  exists (mk_spec false IBP Box 1). eexists. exists (fun _ _ => -1), (fun _ _ => -1). do 2 eexists.
  split; [apply ts_ibp_valid; intros; lra|]. split; [apply ts_ibp_valid; intros; lra|]. split; [reflexivity|]. split; [reflexivity|].
  cbv -[Rmax Rmin Rplus Rmult Rminus Ropp IZR Rlt Rle Rdiv Rinv]. lra.
Qed.

(** a nested model with two outputs followed by an Add of the first output and of the input *)
Definition two_outputs : fgraph vec :=
  [mk_fnode 0 KInput []; mk_fnode 1 (KOp (fun l => Ok [fun j => 2 * head_vec l j])) [0%nat]; mk_fnode 2 (KOp (fun l => Ok [fun j => 3 * head_vec l j])) [0%nat]].
Definition outer_two : fgraph vec :=
  [mk_fnode 0 KInput []; mk_fnode 1 (nested_model two_outputs [1%nat; 2%nat]) [0%nat]; mk_fnode 2 add_kind [1%nat; 0%nat]].
Lemma nested_outputs_refuted : forall y : vec, exists r,
  preprocess outer_two [2%nat] (fun i => if Nat.eqb i 0 then Some [y] else None) [y] = Ok [r] /\
  forall j, r j = 2 * y j + 3 * y j + y j.
Proof. intros y. eexists. split; [reflexivity|]. intros j. cbn. lra. Qed.

(** ** C39 *)
Lemma outputs_kept : forall A (g : fgraph A), acyclic (parents_of g) -> forall lv, longest_path (parents_of g) lv -> unshared g -> g <> [] ->
  forall outs, (forall o, In o outs -> (o < length g)%nat) -> output_nodes g outs = Ok (filter (deepestb g lv) outs).
Proof. intros A g Hacy lv Hlv Hu Hg outs Ho. apply output_nodes_ok; auto. apply topo_acyclic. exact Hacy. Qed.

Definition scale (c : R) : fkind vec := KOp (fun l => Ok [fun j => c * head_vec l j]).
(** an output which is not at the end of a longest path *)
Definition g_dropped : fgraph vec := [mk_fnode 0 KInput []; mk_fnode 1 (scale 2) [0%nat]; mk_fnode 2 (scale 3) [1%nat]].
Lemma dropped_refuted : forall y : vec, exists r,
  convert_forward g_dropped [1%nat; 2%nat] no_map [y] = Ok [r] /\ forall j, r j = 3 * (2 * y j).
Proof. intros y. eexists. split; [reflexivity|]. intros j. cbn. reflexivity. Qed.

(** one layer called twice: both calls match both outputs *)
Definition g_shared : fgraph vec := [mk_fnode 0 KInput []; mk_fnode 1 (scale 2) [0%nat]; mk_fnode 2 (scale 5) [0%nat]; mk_fnode 3 (scale 3) [1%nat]; mk_fnode 3 (scale 3) [2%nat]].
Lemma shared_refuted : forall y : vec, exists a b,
  convert_forward g_shared [3%nat; 4%nat] no_map [y] = Ok [a; b; a; b].
Proof. intros y. do 2 eexists. reflexivity. Qed.

(** one layer called at two depths: no node has depth 0 *)
Definition g_two_depths : fgraph vec :=
  [mk_fnode 0 KInput []; mk_fnode 1 (scale 2) [0%nat]; mk_fnode 2 (scale 3) [1%nat]; mk_fnode 2 (scale 3) [0%nat];
   mk_fnode 3 (scale 5) [3%nat]; mk_fnode 4 add_kind [2%nat; 4%nat]].
Lemma two_depths_refuted : acyclic (parents_of g_two_depths) /\
  (forall y : vec, convert_forward g_two_depths [5%nat] no_map [y] = Err KeyError).
Proof.
  split.
  - intros i ps p E Hp. destruct i as [|[|[|[|[|[|i]]]]]]; cbn in E; [..|destruct i; discriminate E]; injection E; intros <-; cbn in Hp; lia.
  - intros y. reflexivity.
Qed.

(** ** C40 *)
Lemma split_same : forall L ts, call_all (split_activation L) ts = [kl_call L ts].
Proof.
  intros L ts. unfold split_activation, call_all, kl_call. destruct (kl_act L) as [a|] eqn:E; [|cbn; unfold kl_call; rewrite E; reflexivity].
  destruct (kl_is_activation L); [cbn; unfold kl_call; rewrite E; reflexivity|reflexivity].
Qed.

Lemma split_idempotent : forall L L', In L' (split_activation L) -> split_activation L' = [L'].
Proof.
  intros L L' H. unfold split_activation in H. destruct (kl_act L) as [a|] eqn:E.
  - destruct (kl_is_activation L) eqn:Ea.
    + destruct H as [<-|[]]. unfold split_activation. rewrite E, Ea. reflexivity.
    + destruct H as [<- | [<- | []]]; reflexivity.
  - destruct H as [<-|[]]. unfold split_activation. rewrite E. reflexivity.
Qed.

Lemma split_separates : forall L L', In L' (split_activation L) -> kl_act L' = None \/ kl_is_activation L' = true.
Proof.
  intros L L' H. unfold split_activation in H. destruct (kl_act L) as [a|] eqn:E.
  - destruct (kl_is_activation L) eqn:Ea; [destruct H as [<-|[]]; auto|]. destruct H as [<- | [<- | []]]; auto.
  - destruct H as [<-|[]]. auto.
Qed.

(** a model: inputs and layers *)
Definition kgraph := list (nat * option klayer * list nat).
Definition kg_nodes (g : kgraph) : fgraph vec :=
  map (fun q => let '(k, o, ps) := q in mk_fnode k match o with Some L => split_kind L | None => KInput end ps) g.
(** what the user's model computes *)
Definition kg_value (g : kgraph) (y v : nat -> vec) : Prop :=
  forall i k o ps, nth_error g i = Some (k, o, ps) -> v i = match o with Some L => kl_call L (map v ps) | None => y i end.
Definition kg_inputs (g : kgraph) (y : nat -> vec) : nat -> option (list vec) :=
  fun i => match nth_error g i with Some (_, None, _) => Some [y i] | _ => None end.
Definition kg_ok (g : kgraph) : Prop :=
  acyclic (map snd g) /\ (forall i k o ps, nth_error g i = Some (k, o, ps) -> ps = [] -> o = None) /\ NoDup (map (fun q => fst (fst q)) g) /\ g <> [].

Lemma concat_single : forall A B (f : A -> B) l, concat (map (fun a => [f a]) l) = map f l.
Proof. intros A B f. induction l as [|a l IH]; [reflexivity|]. cbn. rewrite IH. reflexivity. Qed.

Lemma preprocess_same : forall g y v lv outs its, kg_ok g -> kg_value g y v -> longest_path (map snd g) lv ->
  (forall o, In o outs -> (o < length g)%nat) ->
  preprocess (kg_nodes g) outs (kg_inputs g y) its = Ok (map v (filter (deepestb (kg_nodes g) lv) outs)).
Proof.
  intros g y v lv outs its (Hacy & Hsrc & Hnd & Hne) Hv Hlv Ho.
  assert (Hpar : parents_of (kg_nodes g) = map snd g).
  { unfold parents_of, kg_nodes. rewrite map_map. apply map_ext. intros [[k o] ps]. reflexivity. }
  assert (Hlen : length (kg_nodes g) = length g) by (unfold kg_nodes; apply map_length).
  assert (Ht : topo (kg_nodes g)) by (apply topo_acyclic; rewrite Hpar; exact Hacy).
  assert (Hnth : forall i nod, nth_error (kg_nodes g) i = Some nod -> exists k o ps, nth_error g i = Some (k, o, ps) /\
    nod = mk_fnode k match o with Some L => split_kind L | None => KInput end ps).
  { intros i nod E. unfold kg_nodes in E. rewrite nth_error_map in E. destruct (nth_error g i) as [[[k o] ps]|]; [|discriminate E].
    injection E as <-. do 3 eexists. split; reflexivity. }
  unfold preprocess. rewrite (convert_forward_eval vec (kg_nodes g) (kg_inputs g y) its (fun i => [v i]) outs (filter (deepestb (kg_nodes g) lv) outs)).
  - rewrite concat_single. reflexivity.
  - exact Ht.
  - intros i nod E Ep. destruct (Hnth i nod E) as (k & o & ps & Eg & ->). cbn in Ep |- *. rewrite (Hsrc i k o ps Eg Ep). reflexivity.
  - intros i Q. unfold kg_inputs in Q. rewrite Hlen. apply nth_error_Some. intros N. rewrite N in Q. apply Q. reflexivity.
  - intros i nod E. destruct (Hnth i nod E) as (k & o & ps & Eg & ->). unfold kg_inputs. rewrite Eg. pose proof (Hv i k o ps Eg) as Q.
    destruct o as [L|]; [|rewrite Q; reflexivity].
    unfold node_out. cbn [fn_kind fn_parents split_kind]. destruct ps as [|p ps]; [specialize (Hsrc i k _ _ Eg eq_refl); discriminate Hsrc|].
    rewrite concat_single, split_same, Q. reflexivity.
  - apply output_nodes_ok; auto.
    + rewrite Hpar. exact Hlv.
    + unfold unshared, kg_nodes. rewrite map_map. erewrite map_ext; [exact Hnd|]. intros [[k o] ps]. reflexivity.
    + intros Q. apply Hne. destruct g; [reflexivity|discriminate Q].
    + intros o Q. rewrite Hlen. apply Ho. exact Q.
  - intros o Q. apply filter_In in Q. rewrite Hlen. apply Ho. apply Q.
Qed.

Definition kdense_relu : klayer := mk_klayer (fun l j => 2 * head_vec l j) (Some (fun y j => Rrelu (y j))) false.
Definition kadd : klayer := mk_klayer sum_vecs None false.
Lemma ex_preprocess : forall y : vec, exists r,
  preprocess (kg_nodes [(0%nat, None, []); (1%nat, Some kdense_relu, [0%nat]); (2%nat, Some kadd, [1%nat; 0%nat])]) [2%nat]
    (fun i => if Nat.eqb i 0 then Some [y] else None) [y] = Ok [r] /\ forall j, r j = Rrelu (2 * y j) + y j.
Proof. intros y. eexists. split; [reflexivity|]. intros j. cbn. lra. Qed.

Lemma ex_convert : exists ts out, get_input_tensors (Some (Ball 1 (Pnum 2))) AFFINE 3 (fun _ _ => 0) = Ok ts /\
  convert2mode (Ball 1 (Pnum 2)) 3 AFFINE HYBRID ts = Ok out /\
  valid (Ball 1 (Pnum 2)) HYBRID false (in_dom (Ball 1 (Pnum 2)) 3 (fun _ _ => 0)) 3 3 (fun y => y) out.
Proof.
  destruct (input_tensors_ok (Ball 1 (Pnum 2)) AFFINE 3 (fun _ _ => 0)) as (ts & E & V); [lia|discriminate|].
  destruct (convert2mode_sound (Ball 1 (Pnum 2)) 3 AFFINE HYBRID _ _ _ ts ltac:(lia) I ltac:(discriminate) V) as (out & E' & V').
  exists ts, out. auto.
Qed.

Lemma ex_two_outputs : forall y : vec, exists a b,
  convert_forward [mk_fnode 0 KInput []; mk_fnode 1 (scale 2) [0%nat]; mk_fnode 2 (scale 3) [0%nat]] [2%nat; 1%nat] no_map [y] = Ok [a; b] /\
  (forall j, a j = 3 * y j) /\ (forall j, b j = 2 * y j).
Proof. intros y. do 2 eexists. split; [reflexivity|]. split; intros; reflexivity. Qed.
