(** Theorems C35-C40: input tensors, modes, methods, conversion of graphs, split of the activations.
    [valid D mode dc S n m f ts]: the tensors ts bound the m outputs of f on the set S;
    [evaluates g om its vs]: vs are the outputs of the nodes of g called on the outputs of their parents. *)
From Coq Require Import String Ascii Reals List Arith Bool ZArith.
From Verif Require Import RLib Spec Spec_Layers Spec_Backward Spec_Convert M_Core M_Utils M_MergeLayers M_Ops M_Layers M_Pool M_Backward M_Crown M_Convert.
From Verif Require Import P_Core P_Utils P_MergeLayers P_Layers P_Backward P_BackwardOps P_BackwardMore P_Crown P_BackwardThm P_Graph P_Convert P_ConvertThm.
Import ListNotations.
Local Open Scope R_scope.

(** C35. Missing: from ibp to affine or hybrid *)
Theorem C35_convert_partial : forall D n from to_ S m f ts, (0 < n)%nat -> dom_ok D from -> (from = IBP -> to_ = IBP) ->
  valid D from false S n m f ts -> exists out, convert2mode D n from to_ ts = Ok out /\ valid D to_ false S n m f out.
Proof. exact convert2mode_sound. Qed.
Print Assumptions C35_convert_partial.

(** from ibp: the bounds are sound, the first tensor is the box of the outputs *)
Theorem C35_convert_from_ibp : forall D n to_ S m f ts, to_ <> IBP -> valid D IBP false S n m f ts ->
  exists u l x, ts = [u; l] /\
    convert2mode D n IBP to_ ts = Ok (match to_ with HYBRID => [x; u; (fun _ _ => 0); u; l; (fun _ _ => 0); l] | _ => [x; (fun _ _ => 0); u; (fun _ _ => 0); l] end) /\
    const_ok S m f (u 0%nat) (l 0%nat) /\
    affine_ok S n m f (fun _ _ => 0) (u 0%nat) (fun _ _ => 0) (l 0%nat) /\
    (x 0%nat = l 0%nat /\ x 1%nat = u 0%nat).
Proof. exact convert2mode_ibp. Qed.
Print Assumptions C35_convert_from_ibp.

(** the first tensor of the converted model does not contain the input domain *)
Theorem C35_from_ibp_refuted : exists (z : tensor) y x rest,
  clone_forward Box 1 IBP HYBRID ibp_plus10 [1%nat] z = Ok (x :: rest) /\ in_dom Box 1 z y /\ ~ in_dom Box 1 x y.
Proof. exact clone_ibp_affine_refuted. Qed.
Print Assumptions C35_from_ibp_refuted.

(** and its announced shape is right only for a box with as many outputs as inputs *)
Theorem C35_from_ibp_shapes_refuted : forall D input_dim m,
  convert2mode_shapes D input_dim m = convert2mode_actual m <-> (D = Box /\ input_dim = m).
Proof. exact convert2mode_shape_refuted. Qed.
Print Assumptions C35_from_ibp_shapes_refuted.

(** the constant bounds become the best implied by the tensors, nothing else changes *)
Theorem C35_convert_hybrid : forall D n to_ x u wu bu l wl bl extra, (0 < n)%nat -> norm_ok D -> dom_nonempty D n x ->
  exists u' l', best_upper D n x wu bu (Some u) u' /\ best_lower D n x wl bl (Some l) l' /\
    convert2mode D n HYBRID to_ (x :: u :: wu :: bu :: l :: wl :: bl :: extra) =
      Ok match to_ with IBP => [u'; l'] | AFFINE => [x; wu; bu; wl; bl] | HYBRID => [x; u'; wu; bu; l'; wl; bl] end.
Proof. exact convert2mode_hybrid. Qed.
Print Assumptions C35_convert_hybrid.

Theorem C35_convert_affine : forall D n to_ x wu bu wl bl extra, (0 < n)%nat -> norm_ok D -> dom_nonempty D n x ->
  exists u' l', best_upper D n x wu bu None u' /\ best_lower D n x wl bl None l' /\
    convert2mode D n AFFINE to_ (x :: wu :: bu :: wl :: bl :: extra) =
      Ok match to_ with IBP => [u'; l'] | AFFINE => [x; wu; bu; wl; bl] | HYBRID => [x; u'; wu; bu; l'; wl; bl] end.
Proof. exact convert2mode_affine. Qed.
Print Assumptions C35_convert_affine.

Theorem C35_convert_ibp : forall D n u l extra, convert2mode D n IBP IBP (u :: l :: extra) = Ok [u; l].
Proof. exact convert2mode_ibp_ibp. Qed.
Print Assumptions C35_convert_ibp.

Theorem C35_count : forall D n from to_ ts out, convert2mode D n from to_ ts = Ok out -> length out = nb_tensors to_ false.
Proof. exact convert2mode_count. Qed.
Print Assumptions C35_count.

Example C35_example : exists ts out, get_input_tensors (Some (Ball 1 (Pnum 2))) AFFINE 3 (fun _ _ => 0) = Ok ts /\
  convert2mode (Ball 1 (Pnum 2)) 3 AFFINE HYBRID ts = Ok out /\
  valid (Ball 1 (Pnum 2)) HYBRID false (in_dom (Ball 1 (Pnum 2)) 3 (fun _ _ => 0)) 3 3 (fun y => y) out.
Proof. exact ex_convert. Qed.

(** C36 *)
Theorem C36_input_tensors : forall D mode n z, (0 < n)%nat -> (get_ibp mode = true -> norm_ok D) ->
  exists ts, get_input_tensors (Some D) mode n z = Ok ts /\ valid D mode false (in_dom D n z) n n (fun y => y) ts.
Proof. exact input_tensors_ok. Qed.
Print Assumptions C36_input_tensors.

(** the constant bounds are the extreme values of each coordinate *)
Theorem C36_input_tensors_exact : forall D mode n z ts j, (0 < n)%nat -> norm_ok D -> get_ibp mode = true -> dom_nonempty D n z ->
  get_input_tensors (Some D) mode n z = Ok ts -> (j < n)%nat ->
  exists r, unpack empty_tensor mode false ts = Ok r /\ is_max (in_dom D n z) (fun y => y j) (f_uc r 0%nat j) /\ is_min (in_dom D n z) (fun y => y j) (f_lc r 0%nat j).
Proof. exact input_tensors_exact. Qed.
Print Assumptions C36_input_tensors_exact.

Theorem C36_other_domain : forall mode n z, get_input_tensors None mode n z = Err NotImplementedError.
Proof. exact input_tensors_other. Qed.
Print Assumptions C36_other_domain.

Theorem C36_input_check : forall shapes, check_inputs shapes = Ok tt <-> (length shapes <= 1)%nat /\ (length (nth 0 shapes []) <= 2)%nat.
Proof. exact check_inputs_spec. Qed.
Print Assumptions C36_input_check.

Example C36_example : exists ts, get_input_tensors (Some (Ball 1 (Pnum 2))) HYBRID 3 (fun _ _ => 0) = Ok ts /\
  valid (Ball 1 (Pnum 2)) HYBRID false (in_dom (Ball 1 (Pnum 2)) 3 (fun _ _ => 0)) 3 3 (fun y => y) ts.
Proof. exact (input_tensors_ok (Ball 1 (Pnum 2)) HYBRID 3 (fun _ _ => 0) (Nat.lt_0_succ 2) (fun _ => I)). Qed.

(** C37 *)
Theorem C37_names : forall s m, convert_method s = Ok m <-> In (s, m) methods.
Proof. exact convert_method_table. Qed.
Print Assumptions C37_names.

Theorem C37_unknown_name : forall s, (forall m, ~ In (s, m) methods) -> convert_method s = Err ValueError.
Proof. exact convert_method_unknown. Qed.
Print Assumptions C37_unknown_name.

(** direction and flags follow the name; the mode gives the flags back *)
Theorem C37_flags : forall s m, convert_method s = Ok m ->
  (get_direction m = FORWARD <-> prefix "forward" s = true) /\
  (get_direction m = BACKWARD <-> prefix "crown" s = true) /\
  (ends_with "ibp" s -> ibp_affine m = (true, false)) /\
  (ends_with "affine" s -> ibp_affine m = (false, true)) /\
  (ends_with "hybrid" s -> ibp_affine m = (true, true)) /\
  (s = "crown"%string -> ibp_affine m = (true, false)) /\
  (let '(i, a) := ibp_affine m in get_ibp (get_mode i a) = i /\ get_affine (get_mode i a) = a).
Proof. exact method_flags. Qed.
Print Assumptions C37_flags.

Theorem C37_mode_roundtrip : forall i a, (i || a)%bool = true -> get_ibp (get_mode i a) = i /\ get_affine (get_mode i a) = a.
Proof. exact mode_roundtrip. Qed.
Print Assumptions C37_mode_roundtrip.

Theorem C37_default_flags : forall s m mode f, clone_flags s None None = Ok (m, mode, f) -> In (s, m) methods /\ f = ibp_affine m /\ mode = get_mode (fst f) (snd f).
Proof. exact clone_flags_default. Qed.
Print Assumptions C37_default_flags.

Theorem C37_final_flags : forall s fi fa m mode f, clone_flags s fi fa = Ok (m, mode, f) ->
  f = (match fi with Some b => b | None => fst (ibp_affine m) end, match fa with Some b => b | None => snd (ibp_affine m) end).
Proof. exact clone_flags_final. Qed.
Print Assumptions C37_final_flags.

(** both final flags off *)
Theorem C37_final_flags_refuted : exists m mode, clone_flags "forward-hybrid" (Some false) (Some false) = Ok (m, mode, (false, false)) /\
  get_mode false false = AFFINE /\ get_affine (get_mode false false) <> false.
Proof. exact clone_flags_refuted. Qed.
Print Assumptions C37_final_flags_refuted.

Theorem C37_name_case_refuted : clone_flags "CROWN" None None = Err ValueError /\ convert_flags "CROWN" = Ok CROWN.
Proof. exact clone_name_case_refuted. Qed.
Print Assumptions C37_name_case_refuted.

(** number of tensors of the converted model *)
Theorem C37_forward_count : forall D n mode final g outs z ts, clone_forward D n mode final g outs z = Ok ts -> length ts = nb_tensors final false.
Proof. exact clone_forward_count. Qed.
Print Assumptions C37_forward_count.

Theorem C37_backward_count : forall D n mode final fg ids g outs back z ts,
  clone_backward D n mode final fg ids g outs back z = Ok ts -> length ts = nb_tensors final false.
Proof. exact clone_backward_count. Qed.
Print Assumptions C37_backward_count.

(** C38. [fwd_sound sp P ms m op f]: op maps valid bounds of its operands, of sizes ms, satisfying P, to valid bounds of f *)
Theorem C38_nodes : forall sp (S : vec -> Prop) m0 g0 its (g : fgraph tensor) ops v dims (P : nat -> list tensor -> Prop),
  valid (sp_dom sp) (sp_mode sp) (sp_dc sp) S (sp_n sp) m0 g0 its -> acyclic (parents_of g) ->
  (forall i nod, nth_error g i = Some nod -> fn_kind nod = KInput -> fn_parents nod = [] /\ dims i = m0 /\ forall y, v i y = y) ->
  (forall i nod, nth_error g i = Some nod -> fn_parents nod = [] -> fn_kind nod = KInput) ->
  map snd ops = parents_of g -> network_value ops v ->
  (forall i nod op f ps, nth_error g i = Some nod -> fn_kind nod = KOp op -> nth_error ops i = Some (f, ps) -> fwd_sound sp (P i) (map dims ps) (dims i) op f) ->
  (forall i nod vs, nth_error g i = Some nod -> evaluates (firstn i g) no_map its vs -> P i (concat (map vs (fn_parents nod)))) ->
  exists om, convert_nodes g no_map its = Ok om /\
  forall i, (i < length g)%nat -> exists ts, om i = Some ts /\ valid (sp_dom sp) (sp_mode sp) (sp_dc sp) S (sp_n sp) (dims i) (fun z => v i (g0 z)) ts.
Proof. exact forward_nodes_sound. Qed.
Print Assumptions C38_nodes.

Theorem C38_outputs : forall sp (S : vec -> Prop) m0 g0 its (g : fgraph tensor) ops v dims (P : nat -> list tensor -> Prop),
  valid (sp_dom sp) (sp_mode sp) (sp_dc sp) S (sp_n sp) m0 g0 its -> acyclic (parents_of g) ->
  (forall i nod, nth_error g i = Some nod -> fn_kind nod = KInput -> fn_parents nod = [] /\ dims i = m0 /\ forall y, v i y = y) ->
  (forall i nod, nth_error g i = Some nod -> fn_parents nod = [] -> fn_kind nod = KInput) ->
  map snd ops = parents_of g -> network_value ops v ->
  (forall i nod op f ps, nth_error g i = Some nod -> fn_kind nod = KOp op -> nth_error ops i = Some (f, ps) -> fwd_sound sp (P i) (map dims ps) (dims i) op f) ->
  (forall i nod vs, nth_error g i = Some nod -> evaluates (firstn i g) no_map its vs -> P i (concat (map vs (fn_parents nod)))) ->
  forall lv outs, unshared g -> longest_path (parents_of g) lv -> (forall o, In o outs -> (o < length g)%nat) -> g <> [] ->
  exists tss, convert_forward g outs no_map its = Ok (concat tss) /\
    Forall2 (fun o ts => valid (sp_dom sp) (sp_mode sp) (sp_dc sp) S (sp_n sp) (dims o) (fun z => v o (g0 z)) ts) (filter (deepestb g lv) outs) tss.
Proof. exact forward_outputs_sound. Qed.
Print Assumptions C38_outputs.

(** from the domain of the input to the tensors of the converted model. Missing: layers called several times, the other outputs (C39) *)
Theorem C38_clone_forward_partial : forall D n mode final z g ops v dims P lv outs o rest,
  (0 < n)%nat -> norm_ok D -> (mode = IBP -> final = IBP) ->
  acyclic (parents_of g) ->
  (forall i nod, nth_error g i = Some nod -> fn_kind nod = KInput -> fn_parents nod = [] /\ dims i = n /\ forall y, v i y = y) ->
  (forall i nod, nth_error g i = Some nod -> fn_parents nod = [] -> fn_kind nod = KInput) ->
  map snd ops = parents_of g -> network_value ops v ->
  (forall i nod op f ps, nth_error g i = Some nod -> fn_kind nod = KOp op -> nth_error ops i = Some (f, ps) ->
     fwd_sound (mk_spec false mode D n) (P i) (map dims ps) (dims i) op f) ->
  (forall its i nod vs, get_input_tensors (Some D) mode n z = Ok its -> nth_error g i = Some nod ->
     evaluates (firstn i g) no_map its vs -> P i (concat (map vs (fn_parents nod)))) ->
  unshared g -> longest_path (parents_of g) lv -> (forall o', In o' outs -> (o' < length g)%nat) ->
  filter (deepestb g lv) outs = o :: rest ->
  exists ts, clone_forward D n mode final g outs z = Ok ts /\ valid D final false (in_dom D n z) n (dims o) (v o) ts.
Proof. exact clone_forward_first. Qed.
Print Assumptions C38_clone_forward_partial.

(** same thing with a backward method. Missing: balls in ibp mode (C34_ball_refuted), merges (C34) *)
Theorem C38_clone_crown_partial : forall D n mode final z ids g ops v (P : nat -> list tensor -> Prop) lv o,
  (0 < n)%nat -> norm_ok D -> (mode = IBP -> D = Box) ->
  well_formed n g -> no_merge g -> models_last g ->
  map snd ops = map snd g -> network_value ops v ->
  (forall i L ps f, nth_error g i = Some (L, ps) -> nth_error ops i = Some (f, ps) -> bwd_sound (mk_spec false mode D n) (P i) L (fun y => f [y])) ->
  (forall its i L ps imap ts, get_input_tensors (Some D) mode n z = Ok its -> nth_error g i = Some (L, ps) ->
     get_input_nodes mode D n its no_map g (firstn i g) [] = Ok imap -> node_inputs mode D n its no_map g imap ps = Ok ts -> P i ts) ->
  length ids = length g -> NoDup ids -> longest_path (map snd g) lv -> deepest (map snd g) lv o ->
  exists L ps ts, nth_error g o = Some (L, ps) /\ clone_backward D n mode final None ids g [o] None z = Ok ts /\
    valid D final false (in_dom D n z) n (ly_out L) (v o) ts.
Proof. exact clone_crown_sound. Qed.
Print Assumptions C38_clone_crown_partial.

(** and with crown-forward-xxx *)
Theorem C38_clone_crown_forward_partial : forall D n mode final z h ids g ops v (P P' : nat -> list tensor -> Prop) lv o,
  (0 < n)%nat -> norm_ok D -> (mode = IBP -> D = Box) ->
  well_formed n g -> no_merge g -> models_last g ->
  map snd ops = map snd g -> network_value ops v ->
  (forall i L ps f, nth_error g i = Some (L, ps) -> nth_error ops i = Some (f, ps) -> bwd_sound (mk_spec false mode D n) (P i) L (fun y => f [y])) ->
  parents_of h = map snd g -> unshared h ->
  (forall i nod L ps, nth_error h i = Some nod -> nth_error g i = Some (L, ps) -> fn_kind nod = KInput -> ps = [] /\ ly_out L = n /\ forall y, v i y = y) ->
  (forall i nod, nth_error h i = Some nod -> fn_parents nod = [] -> fn_kind nod = KInput) ->
  (forall i nod op f ps L, nth_error h i = Some nod -> fn_kind nod = KOp op -> nth_error ops i = Some (f, ps) -> nth_error g i = Some (L, ps) ->
     fwd_sound (mk_spec false mode D n) (P' i) (map (fun p => match nth_error g p with Some (L', _) => ly_out L' | None => O end) ps) (ly_out L) op f) ->
  (forall its i nod vs, get_input_tensors (Some D) mode n z = Ok its -> nth_error h i = Some nod ->
     evaluates (firstn i h) no_map its vs -> P' i (concat (map vs (fn_parents nod)))) ->
  (forall its om i L ps imap ts, get_input_tensors (Some D) mode n z = Ok its -> convert_nodes h no_map its = Ok om -> nth_error g i = Some (L, ps) ->
     get_input_nodes mode D n its om g (firstn i g) [] = Ok imap -> node_inputs mode D n its om g imap ps = Ok ts -> P i ts) ->
  length ids = length g -> NoDup ids -> longest_path (map snd g) lv -> deepest (map snd g) lv o ->
  exists L ps ts, nth_error g o = Some (L, ps) /\ clone_backward D n mode final (Some h) ids g [o] None z = Ok ts /\
    valid D final false (in_dom D n z) n (ly_out L) (v o) ts.
Proof. exact clone_crown_forward_sound. Qed.
Print Assumptions C38_clone_crown_forward_partial.

(** operations *)
Theorem C38_dense : forall sp d units kernel bias, (0 < sp_n sp)%nat -> dom_ok (sp_dom sp) (sp_mode sp) -> (0 < units)%nat ->
  fwd_sound sp (fun _ => True) [d] units (decomon_dense sp d units kernel bias false None) (fun l => keras_dense d units kernel (bias_of bias) (head_vec l)).
Proof. exact fwd_dense. Qed.
Print Assumptions C38_dense.

Theorem C38_relu : forall ke sp sl ft m, 0 < ke -> (0 < sp_n sp)%nat -> dom_ok (sp_dom sp) (sp_mode sp) -> ft_ok m ft ->
  fwd_sound sp (gaps_ok ke sp m) [m] m (relu_ ke sp sl ft) (fun l j => Rrelu (head_vec l j)).
Proof. exact fwd_relu. Qed.
Print Assumptions C38_relu.

Theorem C38_add : forall sp m k, (0 < sp_n sp)%nat -> dom_ok (sp_dom sp) (sp_mode sp) -> sp_dc sp = false -> (0 < k)%nat ->
  fwd_sound sp (fun _ => True) (repeat m k) m (decomon_add sp) (fun l j => sum_list (map (fun y => y j) l)).
Proof. exact fwd_add. Qed.
Print Assumptions C38_add.

(** a nested model with one input *)
Theorem C38_nested_model : forall sp m0 sub ops v dims (P : nat -> list tensor -> Prop) lv o,
  acyclic (parents_of sub) ->
  (forall i nod, nth_error sub i = Some nod -> fn_kind nod = KInput -> fn_parents nod = [] /\ dims i = m0 /\ forall y, v i y = y) ->
  (forall i nod, nth_error sub i = Some nod -> fn_parents nod = [] -> fn_kind nod = KInput) ->
  map snd ops = parents_of sub -> network_value ops v ->
  (forall i nod op f ps, nth_error sub i = Some nod -> fn_kind nod = KOp op -> nth_error ops i = Some (f, ps) ->
     fwd_sound sp (P i) (map dims ps) (dims i) op f) ->
  unshared sub -> longest_path (parents_of sub) lv -> deepest (parents_of sub) lv o ->
  exists op, nested_model sub [o] = KOp op /\
    fwd_sound sp (fun ts => forall i nod vs, nth_error sub i = Some nod -> evaluates (firstn i sub) no_map ts vs -> P i (concat (map vs (fn_parents nod))))
      [m0] (dims o) op (fun l => v o (head_vec l)).
Proof. exact fwd_nested. Qed.
Print Assumptions C38_nested_model.

(** a nested model with two inputs: each of its inputs receives the tensors of both *)
Theorem C38_nested_inputs_refuted : exists sp op (f0 f1 : vec -> vec) u l,
  valid (sp_dom sp) (sp_mode sp) false (fun _ => True) 1 1 f0 (ts_ibp (-1) (-1)) /\
  valid (sp_dom sp) (sp_mode sp) false (fun _ => True) 1 1 f1 (ts_ibp (-1) (-1)) /\
  nested_model (inner_add_d sp) [2%nat] = KOp op /\
  op (ts_ibp (-1) (-1) ++ ts_ibp (-1) (-1)) = Ok [u; l] /\
  u 0%nat 0%nat < f0 (fun _ => 0) 0%nat + f1 (fun _ => 0) 0%nat.
Proof. exact nested_bounds_refuted. Qed.
Print Assumptions C38_nested_inputs_refuted.

(** x + relu (dense x), any width *)
Example C38_example : forall n kernel bias z, (0 < n)%nat -> exists ts, clone_forward Box n IBP IBP (res_graph n kernel bias) [3%nat] z = Ok ts /\
  valid Box IBP false (in_dom Box n z) n n (fun y j => Rrelu (keras_dense n n kernel (bias_of bias) y j) + y j) ts.
Proof. exact residual_clone. Qed.

(** C39. the outputs kept are the deepest ones *)
Theorem C39_outputs : forall A (g : fgraph A), acyclic (parents_of g) -> forall lv, longest_path (parents_of g) lv -> unshared g -> g <> [] ->
  forall outs, (forall o, In o outs -> (o < length g)%nat) -> output_nodes g outs = Ok (filter (deepestb g lv) outs).
Proof. exact outputs_kept. Qed.
Print Assumptions C39_outputs.

Theorem C39_deepest : forall A (g : fgraph A) lv o, (o < length g)%nat -> deepestb g lv o = true -> deepest (parents_of g) lv o.
Proof. exact deepest_b'. Qed.
Print Assumptions C39_deepest.

Theorem C39_all_deepest : forall A (g : fgraph A) lv o, deepest (parents_of g) lv o -> deepestb g lv o = true.
Proof. exact deepest_b. Qed.
Print Assumptions C39_all_deepest.

(** the tensors of the other outputs are dropped by the conversion of the mode *)
Theorem C39_first_output_only_refuted : forall D n from to_ ts extra, length ts = nb_tensors from false ->
  convert2mode D n from to_ (ts ++ extra) = convert2mode D n from to_ ts.
Proof. exact convert2mode_first. Qed.
Print Assumptions C39_first_output_only_refuted.

(** an output which is not at the end of a longest path *)
Theorem C39_dropped_output_refuted : forall y : vec, exists r,
  convert_forward g_dropped [1%nat; 2%nat] no_map [y] = Ok [r] /\ forall j, r j = 3 * (2 * y j).
Proof. exact dropped_refuted. Qed.
Print Assumptions C39_dropped_output_refuted.

Theorem C39_shared_layer_refuted : forall y : vec, exists a b,
  convert_forward g_shared [3%nat; 4%nat] no_map [y] = Ok [a; b; a; b].
Proof. exact shared_refuted. Qed.
Print Assumptions C39_shared_layer_refuted.

Theorem C39_two_depths_refuted : acyclic (parents_of g_two_depths) /\
  (forall y : vec, convert_forward g_two_depths [5%nat] no_map [y] = Err KeyError).
Proof. exact two_depths_refuted. Qed.
Print Assumptions C39_two_depths_refuted.

Example C39_example : forall y : vec, exists a b,
  convert_forward [mk_fnode 0 KInput []; mk_fnode 1 (scale 2) [0%nat]; mk_fnode 2 (scale 3) [0%nat]] [2%nat; 1%nat] no_map [y] = Ok [a; b] /\
  (forall j, a j = 3 * y j) /\ (forall j, b j = 2 * y j).
Proof. exact ex_two_outputs. Qed.

(** C40 *)
Theorem C40_split : forall L ts, call_all (split_activation L) ts = [kl_call L ts].
Proof. exact split_same. Qed.
Print Assumptions C40_split.

Theorem C40_split_idempotent : forall L L', In L' (split_activation L) -> split_activation L' = [L'].
Proof. exact split_idempotent. Qed.
Print Assumptions C40_split_idempotent.

Theorem C40_split_separates : forall L L', In L' (split_activation L) -> kl_act L' = None \/ kl_is_activation L' = true.
Proof. exact split_separates. Qed.
Print Assumptions C40_split_separates.

(** graphs of layers. Missing: nested models with several inputs or outputs, outputs that are not deepest, shared layers *)
Theorem C40_preprocess_partial : forall g y v lv outs its, kg_ok g -> kg_value g y v -> longest_path (map snd g) lv ->
  (forall o, In o outs -> (o < length g)%nat) ->
  preprocess (kg_nodes g) outs (kg_inputs g y) its = Ok (map v (filter (deepestb (kg_nodes g) lv) outs)).
Proof. exact preprocess_same. Qed.
Print Assumptions C40_preprocess_partial.

(** Add as a nested model: the sum is doubled *)
Theorem C40_nested_inputs_refuted : forall (a b : vec) op, nested_model inner_add [2%nat] = KOp op ->
  exists r, op [a; b] = Ok [r] /\ forall j, r j = 2 * (a j + b j).
Proof. exact nested_inputs_refuted. Qed.
Print Assumptions C40_nested_inputs_refuted.

Theorem C40_nested_outputs_refuted : forall y : vec, exists r,
  preprocess outer_two [2%nat] (fun i => if Nat.eqb i 0 then Some [y] else None) [y] = Ok [r] /\
  forall j, r j = 2 * y j + 3 * y j + y j.
Proof. exact nested_outputs_refuted. Qed.
Print Assumptions C40_nested_outputs_refuted.

Example C40_example : forall y : vec, exists r,
  preprocess (kg_nodes [(0%nat, None, []); (1%nat, Some kdense_relu, [0%nat]); (2%nat, Some kadd, [1%nat; 0%nat])]) [2%nat]
    (fun i => if Nat.eqb i 0 then Some [y] else None) [y] = Ok [r] /\ forall j, r j = Rrelu (2 * y j) + y j.
Proof. exact ex_preprocess. Qed.

(** crown in ibp mode (the default) over a ball: never a result in the model of M_Backward *)
Theorem C34_ball_error : forall eps p n final fg ids g outs back z ts,
  clone_backward (Ball eps p) n IBP final fg ids g outs back z <> Ok ts.
Proof. exact crown_ball_error. Qed.
Print Assumptions C34_ball_error.

(** broadcasting raises with three inputs or more *)
Theorem C34_ball_shapes : forall eps p n m x_0 w b r, (3 <= n)%nat -> upper_rank3 eps p n m x_0 w b <> Ok r.
Proof. exact rank3_error. Qed.
Print Assumptions C34_ball_shapes.

(** and is silently wrong with one *)
Theorem C34_ball_refuted : exists (z : tensor) (y : vec) (u l : tensor) (r : vec),
  (get_input_tensors (Some (Ball 1 (Pnum 2))) IBP 1 z = Ok [u; l]) /\ in_dom (Ball 1 (Pnum 2)) 1 z y /\ upper_rank3 1 (Pnum 2) 1 1 (fun c => if Nat.eqb c 0 then l 0%nat else u 0%nat) id_mat zero_vec = Ok r /\ r 0%nat < aff 1 id_mat zero_vec y 0%nat.
Proof. exact rank3_refuted. Qed.
Print Assumptions C34_ball_refuted.

(** also with the infinity norm and a negative weight *)
Theorem C34_ball_inf_refuted : exists (z : tensor) (y : vec) (u l : tensor) (r : vec),
  (get_input_tensors (Some (Ball 1 Pinf)) IBP 1 z = Ok [u; l]) /\ in_dom (Ball 1 Pinf) 1 z y /\
  upper_rank3 1 Pinf 1 1 (fun c => if Nat.eqb c 0 then l 0%nat else u 0%nat) (fun _ _ => -1) zero_vec = Ok r /\ r 0%nat < aff 1 (fun _ _ => -1) zero_vec y 0%nat.
Proof. exact rank3_inf_refuted. Qed.
Print Assumptions C34_ball_inf_refuted.

(** backward bounds given for a model with several outputs are refused *)
Theorem C34_several_outputs : forall D n mode final fg ids g a b outs back z ts,
  clone_backward D n mode final fg ids g (a :: b :: outs) (Some back) z <> Ok ts.
Proof. exact back_outputs_error. Qed.
Print Assumptions C34_several_outputs.
