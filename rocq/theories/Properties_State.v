(** Theorems C41-C45 and C62: side effects of clone, name tables, freezing, set_domain, weights, batched identity. *)
From Coq Require Import String Ascii Reals List Arith Bool ZArith Permutation.
From Verif Require Import RLib Spec Spec_Layers M_Core M_Utils M_MergeLayers M_Ops M_Layers M_Convert M_State Spec_State.
From Verif Require Import P_Core P_Utils P_State P_StateNames P_StateTables P_StateDomain P_StateWeights P_StateThm.
Import ListNotations.
Local Open Scope nat_scope.

(** C41: classes are kept, and the activations of all the objects except the one holding a final softmax *)
Theorem C41_objects : forall h inputs ops l h' q, obj_wf h -> refs_wf h (ops ++ [l]) ->
  clone_objs h inputs (ops ++ [l]) = Ok h' -> q < h_next h ->
  lo_class (h_obj h' q) = lo_class (h_obj h q) /\
  ((owns_softmax h l q /\ lo_act (h_obj h' q) = AName "linear") \/
   (~ owns_softmax h l q /\ lo_act (h_obj h' q) = lo_act (h_obj h q))).
Proof. exact clone_acts. Qed.
Print Assumptions C41_objects.

(** the function of the model is kept when its last layer does not own a softmax. Missing: final softmax *)
Theorem C41_function_partial : forall V core act h inputs ops l h' x, obj_wf h -> refs_wf h (ops ++ [l]) ->
  clone_objs h inputs (ops ++ [l]) = Ok h' -> (forall b, ~ owns_softmax h l b) ->
  call_model V core act h' (ops ++ [l]) x = call_model V core act h (ops ++ [l]) x.
Proof. exact clone_function. Qed.
Print Assumptions C41_function_partial.

(** a final softmax is always lost *)
Theorem C41_softmax_lost : forall V core act h inputs ops l h' b y, obj_wf h -> refs_wf h (ops ++ [l]) ->
  clone_objs h inputs (ops ++ [l]) = Ok h' -> owns_softmax h l b ->
  exists w, call_obj V core act h l y = act "softmax"%string w /\ call_obj V core act h' l y = act "linear"%string w.
Proof. exact clone_softmax_lost. Qed.
Print Assumptions C41_softmax_lost.

(** the model computes another function after the conversion *)
Theorem C41_softmax_refuted : exists (core : kclass -> nat -> nat) (act : string -> nat -> nat) h inputs ops h' x,
  act "linear"%string x = x /\ clone_objs h inputs ops = Ok h' /\ call_model nat core act h' ops x <> call_model nat core act h ops x.
Proof. exact function_refuted. Qed.
Print Assumptions C41_softmax_refuted.

(** the layers which are not split are renamed in the user's model *)
Theorem C41_names_refuted : forall h inputs ops h' r, obj_wf h -> refs_wf h ops -> clone_objs h inputs ops = Ok h' ->
  In r ops -> unsplit h r -> lo_name (h_obj h' r) <> lo_name (h_obj h r).
Proof. exact clone_renames. Qed.
Print Assumptions C41_names_refuted.

(** once per conversion *)
Theorem C41_names_grow : forall k h inputs ops h' r, obj_wf h -> refs_wf h ops -> clone_times k h inputs ops = Ok h' ->
  In r ops -> unsplit h r -> slen (lo_name (h_obj h r)) + k <= slen (lo_name (h_obj h' r)).
Proof. exact clone_times_names. Qed.
Print Assumptions C41_names_grow.

(** the new names are distinct, so the conversion fails only when the name of an input ends with an underscore and a number *)
Theorem C41_no_clash : forall h inputs ops, obj_wf h -> refs_wf h ops ->
  (forall i, In i inputs -> apart h ops i) ->
  (forall i j, In i inputs -> In j inputs -> lo_name (h_obj h i) = lo_name (h_obj h j) -> i = j) ->
  (forall i c p, In i inputs -> lo_name (h_obj h i) <> add_count p c) ->
  exists h', clone_objs h inputs ops = Ok h'.
Proof. exact clone_ok. Qed.
Print Assumptions C41_no_clash.

(** distinct names, yet the conversion fails *)
Theorem C41_clash_refuted : exists h inputs ops, obj_wf h /\ refs_wf h ops /\ (forall i, In i inputs -> apart h ops i) /\
  NoDup (map (fun r => lo_name (h_obj h r)) (inputs ++ ops)) /\ clone_objs h inputs ops = Err ValueError.
Proof. exact clash_refuted. Qed.
Print Assumptions C41_clash_refuted.

Example C41_example : obj_wf h_relu /\ refs_wf h_relu [1; 2] /\ (forall b, ~ owns_softmax h_relu 2 b) /\ (exists h', clone_objs h_relu [0] [1; 2] = Ok h') /\ unsplit h_relu 2.
Proof. exact ex_clone. Qed.

Example C41_softmax_example : obj_wf h_softmax /\ refs_wf h_softmax [1; 2] /\ owns_softmax h_softmax 2 2 /\ exists h', clone_objs h_softmax [0] [1; 2] = Ok h'.
Proof. exact ex_softmax. Qed.

Example C41_no_clash_example : (forall i, In i [0] -> apart h_relu [1; 2] i) /\ forall c p, lo_name (h_obj h_relu 0) <> add_count p c.
Proof. exact ex_clone_ok. Qed.

(** C42 *)
Theorem C42_to_decomon : forall built cls a ok,
  match to_decomon built cls a ok with
  | Ok (c, act) => built <> Some false /\ In cls decomon_names /\ c = ("Decomon" ++ cls)%string /\ (cls = "Activation"%string -> act = a)
  | Err ValueError => built = Some false
  | Err NotImplementedError => built <> Some false /\ (~ In cls decomon_names \/ ok = false)
  | Err _ => False
  end.
Proof. exact to_decomon_spec. Qed.
Print Assumptions C42_to_decomon.

Theorem C42_tables : forall c, In c decomon_names <-> In c backward_names.
Proof. exact names_same. Qed.
Print Assumptions C42_tables.

(** a converted layer has a backward layer, the one of its Keras class *)
Theorem C42_to_backward_of_decomon : forall built cls a ok c act, to_decomon built cls a ok = Ok (c, act) ->
  to_backward c = Ok ("Backward" ++ cls)%string /\ to_backward cls = Ok ("Backward" ++ cls)%string.
Proof. exact to_backward_decomon. Qed.
Print Assumptions C42_to_backward_of_decomon.

Theorem C42_to_backward : forall cls b, prefix "Decomon" cls = false ->
  (to_backward cls = Ok b <-> In cls backward_names /\ b = ("Backward" ++ cls)%string).
Proof. exact to_backward_spec. Qed.
Print Assumptions C42_to_backward.

Theorem C42_activation_names : forall s a, deserialize s = Ok a <-> In (lower s, a) forward_table /\ a <> GroupSort2.
Proof. exact deserialize_spec. Qed.
Print Assumptions C42_activation_names.

Theorem C42_backward_activation_names : forall s a, backward_deserialize s = Ok a <-> deserialize s = Ok a \/ (lower s = "relu_"%string /\ a = Relu).
Proof. exact backward_deserialize_spec. Qed.
Print Assumptions C42_backward_activation_names.

Theorem C42_activation_agree : forall i a, get_activation deserialize i = Ok a ->
  get_activation backward_deserialize i = Ok a.
Proof. exact get_activation_spec. Qed.
Print Assumptions C42_activation_agree.

Theorem C42_activation_cases : forall d, (d = deserialize \/ d = backward_deserialize) ->
  get_activation d INone = Ok Linear /\ (forall s, get_activation d (IStr s) = d s) /\
  (forall f, get_activation d (ICallable f) = Ok f) /\ get_activation d IOther = Err ValueError /\ get_activation d INone = d "linear"%string.
Proof. exact get_activation_cases. Qed.
Print Assumptions C42_activation_cases.

(** an entry of the table which no name reaches *)
Theorem C42_groupsort_refuted : In ("GroupSort2"%string, GroupSort2) forward_table /\ forall s, deserialize s <> Ok GroupSort2 /\ backward_deserialize s <> Ok GroupSort2.
Proof. exact groupsort_refuted. Qed.
Print Assumptions C42_groupsort_refuted.

(** a Dense layer converted without splitting loses its activation *)
Theorem C42_activation_dropped_refuted : exists built cls a, a <> None /\ to_decomon built cls a true = Ok ("DecomonDense"%string, None).
Proof. exact activation_dropped_refuted. Qed.
Print Assumptions C42_activation_dropped_refuted.

Example C42_example : deserialize "ReLU"%string = Ok Relu /\ backward_deserialize "ReLU"%string = Ok Relu /\ deserialize "gelu"%string = Err ValueError /\
  to_decomon (Some true) "Dense" None true = Ok ("DecomonDense"%string, None) /\ to_backward "DecomonDense" = Ok "BackwardDense"%string /\
  to_decomon (Some true) "LSTM" None true = Err NotImplementedError.
Proof. exact (conj eq_refl (conj eq_refl (conj eq_refl (conj eq_refl (conj eq_refl eq_refl))))). Qed.

(** C43, models made of forward layers: after any history the trainable weights are those of the groups not frozen. Missing: backward layers *)
Theorem C43_forward_partial : forall ls os, Forall forward_init ls ->
  exists ls', model_run os ls = Ok ls' /\ map flayer_tw ls' = map (expected_tw os) ls.
Proof. exact model_run_forward. Qed.
Print Assumptions C43_forward_partial.

Theorem C43_unfreeze_restores : forall ls os, Forall forward_init ls ->
  exists ls', model_run (os ++ [UnfreezeW; UnfreezeA]) ls = Ok ls' /\ map flayer_tw ls' = map flayer_tw ls.
Proof. exact model_unfreeze. Qed.
Print Assumptions C43_unfreeze_restores.

(** a backward dense layer never gets its weights back *)
Theorem C43_backward_dense_refuted : forall b os, In FreezeW os -> bd_tw (bdense_init b) <> [] /\ bd_tw (run bdense_step os (bdense_init b)) = [].
Proof. exact bdense_refuted. Qed.
Print Assumptions C43_backward_dense_refuted.

(** but the layer it wraps does *)
Theorem C43_backward_dense_inner : forall os b, fd_tw (bd_layer (run bdense_step os (bdense_init b))) = if weights_frozen os then [] else fd_tw (fdense_init b).
Proof. exact bdense_layer. Qed.
Print Assumptions C43_backward_dense_inner.

(** with finetuning and a mode which is not ibp, up to the order of the weights *)
Theorem C43_backward_activation_partial : forall os m k, not_ibp m = true ->
  exists l, foldR (fun st o => bact_step o st) os (bact_init true m k) = Ok l /\
    (alpha_frozen os = true -> ba_tw l = []) /\ (alpha_frozen os = false -> Permutation (ba_tw l) (ba_tw (bact_init true m k))).
Proof. exact bact_init_run. Qed.
Print Assumptions C43_backward_activation_partial.

(** without finetuning the whole operation raises *)
Theorem C43_backward_activation_refuted : forall ls m k, In (LBAct (bact_init false m k)) ls -> model_step FreezeA ls = Err AttributeError /\ model_step UnfreezeA ls = Err AttributeError.
Proof. exact bact_error_refuted. Qed.
Print Assumptions C43_backward_activation_refuted.

(** in ibp mode nothing is ever frozen *)
Theorem C43_backward_activation_ibp_refuted : forall os k, foldR (fun st o => bact_step o st) os (bact_init true IBP k) = Ok (bact_init true IBP k).
Proof. exact bact_ibp_refuted. Qed.
Print Assumptions C43_backward_activation_ibp_refuted.

Theorem C43_grid_refuted : forall m, not_ibp m = true -> exists l,
  bact_step FreezeA (bact_init_grid true m) = Ok l /\ In AlphaL (ba_tw l) /\ In GridPos (ba_tw (bact_init_grid true m)) /\ ~ In GridPos (ba_tw l).
Proof. exact bact_grid_refuted. Qed.
Print Assumptions C43_grid_refuted.

(** reset_finetuning sets the finetuned slopes to one and nothing else *)
Theorem C43_reset : forall ft m k v x, reset_finetuning (LAct (fact_init ft m k)) v x = if in_dec var_eq_dec x (fa_tw (fact_init ft m k)) then 1%R else v x.
Proof. exact reset_spec. Qed.
Print Assumptions C43_reset.

Theorem C43_reset_backward_refuted : exists l v, In AlphaL (flayer_tw l) /\ reset_finetuning l v AlphaL <> 1%R.
Proof. exact reset_backward_refuted. Qed.
Print Assumptions C43_reset_backward_refuted.

Example C43_example : Forall forward_init [LDense (fdense_init true); LAct (fact_init true HYBRID ARelu); LOther []] /\
  exists ls, model_run [FreezeW; FreezeA; UnfreezeW] [LDense (fdense_init true); LAct (fact_init true HYBRID ARelu); LOther []] = Ok ls /\ map flayer_tw ls = [[Kernel; Bias]; []; []].
Proof. exact ex_freeze. Qed.

Local Open Scope R_scope.
(** C44 *)
Theorem C44_reject : forall Ds D mode n ops e, set_domains Ds (new_model D mode n ops) = Err e ->
  e = NotImplementedError /\ exists D', In D' Ds /\ same_type D' D = false.
Proof. exact set_domains_error. Qed.
Print Assumptions C44_reject.

Theorem C44_accept : forall Ds D mode n ops, (forall D', In D' Ds -> same_type D' D = true) ->
  exists m, set_domains Ds (new_model D mode n ops) = Ok m.
Proof. exact set_domains_ok. Qed.
Print Assumptions C44_accept.

Theorem C44_last : forall Ds A D mode n ops m, set_domains (Ds ++ [A]) (new_model D mode n ops) = Ok m -> dm_domain m = A.
Proof. exact set_domains_last. Qed.
Print Assumptions C44_last.

Theorem C44_box : forall ke Ds mode n ops m m' z, 0 < ke -> (0 < n)%nat -> ops_dim n ops m' ->
  set_domains Ds (new_model Box mode n ops) = Ok m -> input_gaps ke m z ->
  exists out, predict ke m z = Ok out /\ valid Box mode false (in_dom Box n z) n m' (ops_fn ops) out.
Proof. exact set_domain_box. Qed.
Print Assumptions C44_box.

(** a ball, affine mode: any history. Missing: the other modes with a larger radius *)
Theorem C44_affine_partial : forall ke Ds eps p n ops m m' z, 0 < ke -> (0 < n)%nat -> ops_dim n ops m' ->
  set_domains Ds (new_model (Ball eps p) AFFINE n ops) = Ok m -> norm_ok (dm_domain m) -> input_gaps ke m z ->
  exists out, predict ke m z = Ok out /\ valid (dm_domain m) AFFINE false (in_dom (dm_domain m) n z) n m' (ops_fn ops) out.
Proof. exact set_domain_affine. Qed.
Print Assumptions C44_affine_partial.

(** ibp mode: sound when the radius is not larger than the first one *)
Theorem C44_ibp_smaller_partial : forall ke Ds eps p eps' n ops m m' z, 0 < ke -> (0 < n)%nat -> ops_dim n ops m' -> norm_ok (Ball eps p) ->
  set_domains Ds (new_model (Ball eps p) IBP n ops) = Ok m -> dm_domain m = Ball eps' p -> eps' <= eps ->
  exists out, predict ke m z = Ok out /\ valid (dm_domain m) IBP false (in_dom (dm_domain m) n z) n m' (ops_fn ops) out.
Proof. exact set_domain_ibp. Qed.
Print Assumptions C44_ibp_smaller_partial.

Theorem C44_hybrid_smaller_partial : forall ke Ds eps p eps' n ops m m' z, 0 < ke -> (0 < n)%nat -> ops_dim n ops m' -> norm_ok (Ball eps p) ->
  set_domains Ds (new_model (Ball eps p) HYBRID n ops) = Ok m -> dm_domain m = Ball eps' p -> eps' <= eps -> input_gaps ke m z ->
  exists out, predict ke m z = Ok out /\ valid (dm_domain m) HYBRID false (in_dom (dm_domain m) n z) n m' (ops_fn ops) out.
Proof. exact set_domain_hybrid. Qed.
Print Assumptions C44_hybrid_smaller_partial.

(** in ibp mode the bounds do not depend on the domain set *)
Theorem C44_ibp_ignored : forall ke Ds D n ops m z, set_domains Ds (new_model D IBP n ops) = Ok m ->
  predict ke m z = predict ke (new_model D IBP n ops) z.
Proof. exact predict_ibp_same. Qed.
Print Assumptions C44_ibp_ignored.

Theorem C44_ibp_refuted : exists ke m z y u l,
  set_domain (new_model (Ball 1 Pinf) IBP 1 [DRelu V_SLOPE]) (Ball 2 Pinf) = Ok m /\
  predict ke m z = Ok [u; l] /\ in_dom (dm_domain m) 1 z y /\ u 0%nat 0%nat < ops_fn [DRelu V_SLOPE] y 0%nat.
Proof. exact set_domain_ibp_refuted. Qed.
Print Assumptions C44_ibp_refuted.

Theorem C44_hybrid_refuted : exists ke m z y ts u,
  set_domain (new_model (Ball 1 Pinf) HYBRID 1 [DDense 1 1 (fun _ _ => 1) None]) (Ball 2 Pinf) = Ok m /\
  predict ke m z = Ok ts /\ nth_error ts 1 = Some u /\ in_dom (dm_domain m) 1 z y /\ u 0%nat 0%nat < ops_fn [DDense 1 1 (fun _ _ => 1) None] y 0%nat.
Proof. exact set_domain_hybrid_refuted. Qed.
Print Assumptions C44_hybrid_refuted.

Example C44_example : exists m, set_domains [Ball 3 (Pnum 2); Ball 5 Pinf] (new_model (Ball 1 (Pnum 2)) AFFINE 2 [DDense 2 1 (fun _ _ => 1) None]) = Ok m /\
  dm_domain m = Ball 5 Pinf /\ norm_ok (dm_domain m) /\ input_gaps (1/10) m (fun _ _ => 0) /\ ops_dim 2 [DDense 2 1 (fun _ _ => 1) None] 1.
Proof. exact ex_set_domain. Qed.

Local Open Scope nat_scope.
(** C45 *)
Theorem C45_reset : forall st new orig names, wl_built orig = true -> wl_built new = true -> NoDup (wl_weights new) ->
  (forall n, In n names -> has_weight orig n /\ has_weight new n) ->
  (forall n, In n names -> tv_shape (st (ov new n)) = tv_shape (st (ov orig n))) ->
  exists st', reset_layer st new orig names = Ok st' /\
    (forall v n, last_name new v names = Some n -> st' v = st (ov orig n)) /\
    (forall v, (forall n, In n names -> wl_attr new n <> Some v) -> st' v = st v).
Proof. exact reset_ok. Qed.
Print Assumptions C45_reset.

Theorem C45_reset_named : forall st new orig names, wl_built orig = true -> wl_built new = true -> NoDup (wl_weights new) ->
  (forall n, In n names -> has_weight orig n /\ has_weight new n) ->
  (forall n, In n names -> tv_shape (st (ov new n)) = tv_shape (st (ov orig n))) ->
  (forall n n', In n names -> In n' names -> ov new n = ov new n' -> n = n') ->
  exists st', reset_layer st new orig names = Ok st' /\ forall n, In n names -> st' (ov new n) = st (ov orig n).
Proof. exact reset_named. Qed.
Print Assumptions C45_reset_named.

Theorem C45_reset_requires : forall st new orig names st', reset_layer st new orig names = Ok st' ->
  wl_built orig = true /\ wl_built new = true /\ forall n, In n names -> has_weight orig n /\ has_weight new n.
Proof. exact reset_requires. Qed.
Print Assumptions C45_reset_requires.

Theorem C45_reset_errors : forall st new orig names e, reset_layer st new orig names = Err e ->
  (e = ValueError \/ e = AttributeError \/ e = IndexError).
Proof. exact reset_errors. Qed.
Print Assumptions C45_reset_errors.

(** the new layer holds the variables of the original: a later update of the original is an update of the new layer *)
Theorem C45_share : forall created orig new names (fr : string -> nat), wl_built orig = true -> wl_built new = false -> wl_weights new = [] ->
  NoDup names -> (forall n, In n names -> exists w, wl_attr orig n = Some w) ->
  (forall n m, In n names -> In m names -> ov orig n = ov orig m -> n = m) ->
  Permutation (map fst created) names -> (forall n v, In (n, v) created -> v = fr n) ->
  (forall n m, In n names -> In m names -> fr n = fr m -> n = m) -> (forall n m, In n names -> In m names -> ov orig n <> fr m) ->
  exists l, share_weights_and_build created true orig new names = Ok l /\ wl_built l = true /\ wl_weights l = map (ov orig) names /\
    forall n, In n names -> wl_attr l n = wl_attr orig n.
Proof. exact share_ok. Qed.
Print Assumptions C45_share.

Theorem C45_share_errors : forall created called orig new names, (wl_built orig = false \/ wl_built new = true \/ called = false) ->
  share_weights_and_build created called orig new names = Err ValueError.
Proof. exact share_errors. Qed.
Print Assumptions C45_share_errors.

(** a named weight which build does not create is not tracked any more *)
Theorem C45_share_refuted : exists created orig new names l, wl_built orig = true /\ wl_built new = false /\
  (forall n, In n names -> has_weight orig n) /\ share_weights_and_build created true orig new names = Ok l /\
  exists n, In n names /\ ~ has_weight l n.
Proof. exact share_untracked_refuted. Qed.
Print Assumptions C45_share_refuted.

Theorem C45_single_shape : forall l, (forall v, In v l -> exists n, v = PInt n \/ v = PNone) -> l <> [] ->
  check_if_single_shape (PList l) = Ok true /\ check_if_single_shape (PTuple l) = Ok true.
Proof. exact single_shape_dims. Qed.
Print Assumptions C45_single_shape.

Theorem C45_shape_list : forall l, (forall v, In v l -> exists s, v = PTuple s \/ v = PList s) ->
  check_if_single_shape (PList l) = Ok false /\ check_if_single_shape (PTuple l) = Ok false.
Proof. exact single_shape_list. Qed.
Print Assumptions C45_shape_list.

Example C45_reset_example : let st : store := fun v => mk_tval [2] (fun _ => INR v) in
  exists st', reset_layer st l_new l_orig ["kernel"; "bias"]%string = Ok st' /\ st' 3 = st 2 /\ st' 4 = st 4 /\ st' 5 = st 1 /\ st' 1 = st 1.
Proof. exact ex_reset. Qed.

Example C45_share_example : exists l, share_weights_and_build [("kernel", 6); ("bias", 7)]%string true l_orig (mk_wlayer false [] (fun _ => None)) ["kernel"; "bias"]%string = Ok l /\
  wl_weights l = [2; 1] /\ wl_attr l "kernel"%string = Some 2 /\ wl_attr l "bias"%string = Some 1.
Proof. exact ex_share. Qed.

(** C62 *)
Theorem C62_identity_shape : forall lead d, tv_shape (batched_identity lead d) = batched_spec (lead ++ [d]).
Proof. exact batched_identity_shape. Qed.
Print Assumptions C62_identity_shape.

Theorem C62_identity : forall lead d r i j, i < d -> j < d ->
  tv_data (batched_identity lead d) ((r * d + i) * d + j) = if Nat.eqb i j then 1%R else 0%R.
Proof. exact batched_identity_data. Qed.
Print Assumptions C62_identity.

(** Missing: three axes or more *)
Theorem C62_diag_partial : forall batch d x, tv_shape (batched_diag batch [d] x) = batched_spec [batch; d] /\
  forall b i j, i < d -> j < d -> tv_data (batched_diag batch [d] x) ((b * d + i) * d + j) = if Nat.eqb i j then x (b * d + i) else 0%R.
Proof. exact batched_diag_rank2. Qed.
Print Assumptions C62_diag_partial.

Theorem C62_diag_refuted : forall batch rest x, 2 <= length rest -> tv_shape (batched_diag batch rest x) <> batched_spec (batch :: rest).
Proof. exact batched_diag_rank3_refuted. Qed.
Print Assumptions C62_diag_refuted.

Example C62_example : tv_shape (batched_diag 2 [3; 4] (fun _ => 1%R)) = [2; 12; 12] /\ batched_spec [2; 3; 4] = [2; 3; 4; 4].
Proof. exact (conj eq_refl eq_refl). Qed.
