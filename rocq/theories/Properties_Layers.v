(** Theorems C19-C27: layers with weights, structural layers, pooling, hulls, difference-of-convex
    decompositions and weight constraints.
    [valid D mode dc S n m f ts]: the tensors ts bound the m outputs of f on the set S. *)
From Coq Require Import Reals List Arith Bool ZArith Sorting.Permutation.
From Verif Require Import RLib Spec Spec_Layers M_Core M_Utils M_MergeLayers M_Ops M_Layers M_Pool.
From Verif Require Import P_Core P_Utils P_MergeLayers P_UtilsThm P_Axis P_Ops P_OpsThm P_Layers P_Move P_Exact P_Pool P_Hull P_DC P_LayersThm.
Import ListNotations.
Local Open Scope R_scope.

(** C19. The last axis of the block has length d; [rows] is the product of the other axes. *)
Theorem C19_dense : forall sp rows d units kernel bias S f ts,
  (0 < sp_n sp)%nat -> dom_ok (sp_dom sp) (sp_mode sp) -> (0 < units)%nat ->
  valid (sp_dom sp) (sp_mode sp) (sp_dc sp) S (sp_n sp) (rows * d) f ts ->
  exists out, decomon_dense sp d units kernel bias false None ts = Ok out /\
    valid (sp_dom sp) (sp_mode sp) (sp_dc sp) S (sp_n sp) (rows * units) (fun z => keras_dense d units kernel (bias_of bias) (f z)) out.
Proof. exact dense_sound. Qed.
Print Assumptions C19_dense.

(** an input whose weights denote the identity *)
Theorem C19_dense_identity : forall sp units kernel bias S ts,
  (0 < units)%nat -> (forall eps, sp_dom sp <> Ball eps (Pnum 0)) ->
  valid_identity (sp_dom sp) (sp_mode sp) (sp_dc sp) S (sp_n sp) ts ->
  exists out, decomon_dense sp (sp_n sp) units kernel bias true None ts = Ok out /\
    valid (sp_dom sp) (sp_mode sp) (sp_dc sp) S (sp_n sp) units (fun z => keras_dense (sp_n sp) units kernel (bias_of bias) z) out.
Proof. exact dense_ident. Qed.
Print Assumptions C19_dense_identity.

(** no precision is lost: equal lower and upper affine functions stay equal *)
Theorem C19_dense_exact : forall sp rows d units kernel bias ts out, (0 < units)%nat ->
  exact_weights (sp_mode sp) (sp_n sp) (rows * d) ts ->
  decomon_dense sp d units kernel bias false None ts = Ok out ->
  exact_weights (sp_mode sp) (sp_n sp) (rows * units) out.
Proof. exact dense_exact. Qed.
Print Assumptions C19_dense_exact.

Theorem C19_dense_identity_exact : forall sp units kernel bias ts out,
  decomon_dense sp (sp_n sp) units kernel bias true None ts = Ok out ->
  exact_weights (sp_mode sp) (sp_n sp) units out.
Proof. exact dense_ident_exact. Qed.
Print Assumptions C19_dense_identity_exact.

(** interval mode: both bounds are reached in the box *)
Theorem C19_dense_ibp_tight : forall sp d units kernel bias u l out,
  sp_mode sp = IBP -> sp_dc sp = false -> (0 < units)%nat ->
  (forall i, (i < d)%nat -> l 0%nat i <= u 0%nat i) ->
  decomon_dense sp d units kernel bias false None [u; l] = Ok out ->
  exists u' l', out = [u'; l'] /\ forall j, (j < units)%nat ->
    (exists v, (forall i, (i < d)%nat -> l 0%nat i <= v i <= u 0%nat i) /\ keras_dense d units kernel (bias_of bias) v j = u' 0%nat j) /\
    (exists v, (forall i, (i < d)%nat -> l 0%nat i <= v i <= u 0%nat i) /\ keras_dense d units kernel (bias_of bias) v j = l' 0%nat j).
Proof. exact dense_attained. Qed.
Print Assumptions C19_dense_ibp_tight.

(** with a backward matrix, interval mode, without bias *)
Theorem C19_dense_back : forall sp d units kernel back S f ts,
  sp_mode sp = IBP -> sp_dc sp = false -> (0 < units)%nat ->
  valid (sp_dom sp) (sp_mode sp) (sp_dc sp) S (sp_n sp) d f ts ->
  exists out, decomon_dense sp d units kernel None false (Some back) ts = Ok out /\
    valid (sp_dom sp) (sp_mode sp) (sp_dc sp) S (sp_n sp) units (fun z k => rsum units (fun j => back j k * keras_dense d units kernel (fun _ => 0) (f z) j)) out.
Proof. exact dense_back_sound. Qed.
Print Assumptions C19_dense_back.

(** with a bias the backward matrix is summed along the wrong axis *)
Theorem C19_dense_back_bias_refuted : exists sp kernel bias back u l out,
  sp_mode sp = IBP /\ sp_dc sp = false /\
  valid (sp_dom sp) (sp_mode sp) (sp_dc sp) (fun _ => True) (sp_n sp) 1 (fun _ _ => 0) [u; l] /\
  decomon_dense sp 1 2 kernel (Some bias) false (Some back) [u; l] = Ok out /\
  nth 0 out empty_tensor 0%nat 0%nat < rsum 2 (fun j => back j 0%nat * keras_dense 1 2 kernel bias (fun _ => 0) j).
Proof. exact dense_back_bias_refuted. Qed.
Print Assumptions C19_dense_back_bias_refuted.

(** with an identity input the affine weights ignore the backward matrix *)
Theorem C19_dense_back_identity_refuted : exists kernel back ts out z,
  valid_identity Box AFFINE false (fun z => 0 <= z 0%nat <= 1) 1 ts /\ 0 <= z 0%nat <= 1 /\
  decomon_dense (mk_spec false AFFINE Box 1) 1 1 kernel None true (Some back) ts = Ok out /\
  aff 1 (nth 1 out empty_tensor) (nth 2 out empty_tensor 0%nat) z 0%nat <
    rsum 1 (fun j => back j 0%nat * keras_dense 1 1 kernel (fun _ => 0) z j).
Proof. exact dense_back_ident_refuted. Qed.
Print Assumptions C19_dense_back_identity_refuted.

Theorem C19_dense_back_errors : forall sp d units kernel bias back ts,
  get_affine (sp_mode sp) = true -> forall r, get_fullinputs_r false sp false true ts = Ok r ->
  decomon_dense sp d units kernel bias false (Some back) ts = Err NotImplementedError.
Proof. exact dense_back_errors. Qed.
Print Assumptions C19_dense_back_errors.

Example C19_example : valid Box AFFINE false unit_box 1 (1 * 1) (fun z => z) (id_affine 0 1) /\
  exists out, decomon_dense (mk_spec false AFFINE Box 1) 1 2 (fun _ j => if Nat.eqb j 0 then 1 else -1) (Some (fun j => INR j)) false None (id_affine 0 1) = Ok out /\
    valid Box AFFINE false unit_box 1 (1 * 2) (fun z j => if Nat.eqb j 0 then z 0%nat else 1 - z 0%nat) out /\
    exact_weights AFFINE 1 (1 * 2) out.
Proof. exact ex_dense. Qed.

(** backward bounds are accepted exactly when the activation is linear and the input shape known *)
Theorem C19_set_back_bounds : forall linear built has_shape back,
  set_back_bounds linear built has_shape back = Ok back <->
  (back = true -> linear = true /\ (built = true -> has_shape = true)).
Proof. exact set_back_bounds_spec. Qed.
Print Assumptions C19_set_back_bounds.

Theorem C19_set_back_bounds_error : forall linear built has_shape back,
  ~ (back = true -> linear = true /\ (built = true -> has_shape = true)) ->
  set_back_bounds linear built has_shape back = Err ValueError.
Proof. exact set_back_bounds_error. Qed.
Print Assumptions C19_set_back_bounds_error.

(** C20 *)
Theorem C20_conv2d : forall sp g kernel bias S f ts,
  (0 < sp_n sp)%nat -> dom_ok (sp_dom sp) (sp_mode sp) ->
  valid (sp_dom sp) (sp_mode sp) (sp_dc sp) S (sp_n sp) (im_size (cg_in g)) f ts ->
  exists out, decomon_conv2d sp g kernel bias false ts = Ok out /\
    valid (sp_dom sp) (sp_mode sp) (sp_dc sp) S (sp_n sp) (im_size (cg_out g)) (fun z => keras_conv2d g kernel (bias_of bias) (f z)) out.
Proof. exact conv_sound. Qed.
Print Assumptions C20_conv2d.

Theorem C20_conv2d_identity : forall sp g kernel bias S ts,
  im_size (cg_in g) = sp_n sp -> (forall eps, sp_dom sp <> Ball eps (Pnum 0)) ->
  valid_identity (sp_dom sp) (sp_mode sp) (sp_dc sp) S (sp_n sp) ts ->
  exists out, decomon_conv2d sp g kernel bias true ts = Ok out /\
    valid (sp_dom sp) (sp_mode sp) (sp_dc sp) S (sp_n sp) (im_size (cg_out g)) (fun z => keras_conv2d g kernel (bias_of bias) z) out.
Proof. exact conv_ident. Qed.
Print Assumptions C20_conv2d_identity.

Theorem C20_conv2d_exact : forall sp g kernel bias ts out, dom_ok (sp_dom sp) (sp_mode sp) ->
  exact_weights (sp_mode sp) (sp_n sp) (im_size (cg_in g)) ts ->
  decomon_conv2d sp g kernel bias false ts = Ok out ->
  exact_weights (sp_mode sp) (sp_n sp) (im_size (cg_out g)) out.
Proof. exact conv_exact. Qed.
Print Assumptions C20_conv2d_exact.

Example C20_example : valid Box AFFINE false unit_box 1 (im_size (cg_in ex_geo)) (pick_f 0) (pick_ts 0) /\
  im_size (cg_out ex_geo) = 8%nat /\
  exists out, decomon_conv2d (mk_spec false AFFINE Box 1) ex_geo (fun ky kx c o => INR o - INR ky) None false (pick_ts 0) = Ok out.
Proof. exact ex_conv. Qed.

(** C21 *)
Theorem C21_batch_normalization : forall sp pre k post axis gamma beta mean var eps S f g ts,
  (0 < sp_n sp)%nat -> dom_ok (sp_dom sp) (sp_mode sp) -> sp_dc sp = false -> bn_axis pre post axis ->
  (forall c, (c < k)%nat -> 0 < var c + eps) ->
  (forall z p c q, in_shape pre p -> in_shape post q -> (c < k)%nat ->
     g z (ravel (pre ++ k :: post) (p ++ c :: q)) =
     keras_bn (match gamma with Some v => v | None => fun _ => 1 end) (match beta with Some v => v | None => fun _ => 0 end)
       mean var eps c (f z (ravel (pre ++ k :: post) (p ++ c :: q)))) ->
  valid (sp_dom sp) (sp_mode sp) (sp_dc sp) S (sp_n sp) (prodn (pre ++ k :: post)) f ts ->
  exists out, decomon_bn sp (pre ++ k :: post) axis gamma beta mean var eps false ts = Ok out /\
    valid (sp_dom sp) (sp_mode sp) (sp_dc sp) S (sp_n sp) (prodn (pre ++ k :: post)) g out.
Proof. exact bn_sound. Qed.
Print Assumptions C21_batch_normalization.

Theorem C21_batch_normalization_exact : forall sp s axis gamma beta mean var eps ts out m,
  exact_weights (sp_mode sp) (sp_n sp) m ts ->
  decomon_bn sp s axis gamma beta mean var eps false ts = Ok out ->
  exact_weights (sp_mode sp) (sp_n sp) m out.
Proof. exact bn_exact. Qed.
Print Assumptions C21_batch_normalization_exact.

Theorem C21_training_error : forall sp s axis gamma beta mean var eps ts, decomon_bn sp s axis gamma beta mean var eps true ts = Err NotImplementedError.
Proof. exact bn_training_errors. Qed.
Print Assumptions C21_training_error.

Example C21_example : valid Box AFFINE false unit_box 1 2 (pick_f 0) (pick_ts 0) /\ bn_axis [] [] (-1) /\
  exists out, decomon_bn (mk_spec false AFFINE Box 1) [2]%nat (-1) (Some (fun c => 1 - 2 * INR c)) None (fun _ => 1) (fun _ => 3) 1 false (pick_ts 0) = Ok out.
Proof. exact ex_bn. Qed.

(** C22. Missing: channels_first in the affine modes (refuted below) *)
Theorem C22_flatten_partial : forall sp (cf : bool) ch size S f ts,
  (0 < sp_n sp)%nat -> dom_ok (sp_dom sp) (sp_mode sp) -> (sp_mode sp = IBP \/ cf = false) ->
  valid (sp_dom sp) (sp_mode sp) (sp_dc sp) S (sp_n sp) (ch * size) f ts ->
  exists out, decomon_flatten sp cf ch size ts = Ok out /\
    valid (sp_dom sp) (sp_mode sp) (sp_dc sp) S (sp_n sp) (ch * size) (fun z j => f z (flatten_idx cf ch size j)) out.
Proof. exact flatten_sound. Qed.
Print Assumptions C22_flatten_partial.

Theorem C22_flatten_channels_first_refuted : exists f ts out z,
  valid Box AFFINE false unit_box 1 4 f ts /\ decomon_flatten (mk_spec false AFFINE Box 1) true 2 2 ts = Ok out /\ unit_box z /\
  aff 1 (nth 1 out empty_tensor) (nth 2 out empty_tensor 0%nat) z 1 < f z (flatten_idx true 2 2 1).
Proof. exact flatten_cf_refuted. Qed.
Print Assumptions C22_flatten_channels_first_refuted.

Theorem C22_reshape : forall sp m S f ts,
  (0 < sp_n sp)%nat -> dom_ok (sp_dom sp) (sp_mode sp) -> valid (sp_dom sp) (sp_mode sp) (sp_dc sp) S (sp_n sp) m f ts ->
  exists out, decomon_reshape sp ts = Ok out /\ valid (sp_dom sp) (sp_mode sp) (sp_dc sp) S (sp_n sp) m f out.
Proof. exact reshape_sound. Qed.
Print Assumptions C22_reshape.

Theorem C22_reshape_exact : forall sp m ts out, exact_weights (sp_mode sp) (sp_n sp) m ts ->
  decomon_reshape sp ts = Ok out -> exact_weights (sp_mode sp) (sp_n sp) m out.
Proof. exact reshape_exact. Qed.
Print Assumptions C22_reshape_exact.

(** [permutes perm s f g]: entry p of f is entry (p_perm0, p_perm1, ..) of g *)
Theorem C22_permute : forall sp s dims S f g ts,
  (0 < sp_n sp)%nat -> dom_ok (sp_dom sp) (sp_mode sp) ->
  Permutation dims (seq 1 (length s)) -> permutes (map pred dims) s f g ->
  valid (sp_dom sp) (sp_mode sp) (sp_dc sp) S (sp_n sp) (prodn s) f ts ->
  exists out, decomon_permute sp s dims ts = Ok out /\
    valid (sp_dom sp) (sp_mode sp) (sp_dc sp) S (sp_n sp) (prodn (permuted (map pred dims) s)) g out.
Proof. exact permute_sound. Qed.
Print Assumptions C22_permute.

Theorem C22_permute_exact : forall sp s dims ts out, Permutation dims (seq 1 (length s)) ->
  exact_weights (sp_mode sp) (sp_n sp) (prodn s) ts ->
  decomon_permute sp s dims ts = Ok out -> exact_weights (sp_mode sp) (sp_n sp) (prodn (permuted (map pred dims) s)) out.
Proof. exact permute_exact. Qed.
Print Assumptions C22_permute_exact.

Theorem C22_dropout : forall ts, decomon_dropout false ts = Ok ts.
Proof. exact dropout_id. Qed.
Print Assumptions C22_dropout.

Theorem C22_dropout_training_error : forall ts, decomon_dropout true ts = Err NotImplementedError.
Proof. exact dropout_errors. Qed.
Print Assumptions C22_dropout_training_error.

(** C23. Missing: negative axes other than -1 in the affine modes (refuted below) *)
Theorem C23_concatenate_partial : forall sp pre post ks axis S fs g ls,
  (0 < sp_n sp)%nat -> dom_ok (sp_dom sp) (sp_mode sp) -> sp_dc sp = false -> axis_ok (sp_mode sp) pre post axis ->
  ks <> [] -> length ks = length fs -> length ls = length fs ->
  (forall t f l, nth_error fs t = Some f -> nth_error ls t = Some l -> valid (sp_dom sp) (sp_mode sp) (sp_dc sp) S (sp_n sp) (prodn (pre ++ nth t ks O :: post)) f l) ->
  concatenated pre post ks fs g ->
  exists out, decomon_concatenate sp (cat_shapes pre post ks) axis (concat ls) = Ok out /\
    valid (sp_dom sp) (sp_mode sp) (sp_dc sp) S (sp_n sp) (prodn (pre ++ total ks :: post)) g out.
Proof. exact concatenate_sound. Qed.
Print Assumptions C23_concatenate_partial.

Theorem C23_concatenate_axis_refuted : exists g out z,
  valid Box AFFINE false unit_box 1 4 (pick_f 2) (pick_ts 2) /\ valid Box AFFINE false unit_box 1 4 (pick_f 4) (pick_ts 4) /\
  concatenated [] [2%nat] [2; 2]%nat [pick_f 2; pick_f 4] g /\
  decomon_concatenate (mk_spec false AFFINE Box 1) (cat_shapes [] [2%nat] [2; 2]%nat) (neg_axis [2%nat]) (concat [pick_ts 2; pick_ts 4]) = Ok out /\
  unit_box z /\
  aff 1 (nth 1 out empty_tensor) (nth 2 out empty_tensor 0%nat) z 2 < g z 2%nat.
Proof. exact concat_axis_refuted. Qed.
Print Assumptions C23_concatenate_axis_refuted.

Example C23_concatenate_example : exists out,
  valid Box AFFINE false unit_box 1 2 (pick_f 0) (pick_ts 0) /\ valid Box AFFINE false unit_box 1 1 (pick_f 1) (pick_ts 1) /\
  concatenated [] [] [2; 1]%nat [pick_f 0; pick_f 1] (pick_f 0) /\
  decomon_concatenate (mk_spec false AFFINE Box 1) (cat_shapes [] [] [2; 1]%nat) (-1) (concat [pick_ts 0; pick_ts 1]) = Ok out.
Proof. exact ex_concat. Qed.

(** Missing: positive axes of blocks of rank 2 and more in the affine modes (refuted below) *)
Theorem C23_dot_partial : forall sp pre0 post0 pre1 post1 k axis0 axis1 S f0 f1 g in0 in1,
  (0 < sp_n sp)%nat -> dom_ok (sp_dom sp) (sp_mode sp) -> sp_dc sp = false ->
  dot_axis_ok (sp_mode sp) pre0 post0 axis0 -> dot_axis_ok (sp_mode sp) pre1 post1 axis1 ->
  valid (sp_dom sp) (sp_mode sp) (sp_dc sp) S (sp_n sp) (prodn (pre0 ++ k :: post0)) f0 in0 -> valid (sp_dom sp) (sp_mode sp) (sp_dc sp) S (sp_n sp) (prodn (pre1 ++ k :: post1)) f1 in1 ->
  dotted pre0 post0 pre1 post1 k f0 f1 g ->
  exists out, decomon_dot sp (pre0 ++ k :: post0) (pre1 ++ k :: post1) axis0 axis1 (in0 ++ in1) = Ok out /\
    valid (sp_dom sp) (sp_mode sp) (sp_dc sp) S (sp_n sp) (prodn ((pre0 ++ post0) ++ pre1 ++ post1)) g out.
Proof. exact dot_sound. Qed.
Print Assumptions C23_dot_partial.

Theorem C23_dot_axis_refuted : exists g out z,
  valid Box AFFINE false unit_box 1 4 (pick_f 2) (pick_ts 2) /\ valid Box AFFINE false unit_box 1 2 (fun _ => pick 0 0%nat) dot_ts1 /\
  dotted [2%nat] [] [] [] 2 (pick_f 2) (fun _ => pick 0 0%nat) g /\
  decomon_dot (mk_spec false AFFINE Box 1) [2; 2]%nat [2]%nat (pos_axis [2%nat]) (-1) (pick_ts 2 ++ dot_ts1) = Ok out /\
  unit_box z /\
  aff 1 (nth 1 out empty_tensor) (nth 2 out empty_tensor 0%nat) z 1 < g z 1%nat.
Proof. exact dot_axis_refuted. Qed.
Print Assumptions C23_dot_axis_refuted.

Theorem C23_dot_arity : forall sp s0 s1 a0 a1 ts, sp_dc sp = false ->
  (forall x y, split_to_merge (nb_tensors (sp_mode sp) false) ts <> [x; y]) ->
  (forall x, split_to_merge (nb_tensors (sp_mode sp) false) ts <> [x]) ->
  decomon_dot sp s0 s1 a0 a1 ts = Err NotImplementedError.
Proof. exact dot_arity. Qed.
Print Assumptions C23_dot_arity.

Theorem C23_dot_dc : forall sp s0 s1 a0 a1 ts, sp_dc sp = true -> decomon_dot sp s0 s1 a0 a1 ts = Err NotImplementedError.
Proof. exact dot_dc. Qed.
Print Assumptions C23_dot_dc.

Example C23_dot_example : exists out,
  valid Box AFFINE false unit_box 1 4 (pick_f 2) (pick_ts 2) /\ valid Box AFFINE false unit_box 1 2 (fun _ => pick 0 0%nat) dot_ts1 /\
  dotted [2%nat] [] [] [] 2 (pick_f 2) (fun _ => pick 0 0%nat) (pick_f 1) /\
  decomon_dot (mk_spec false AFFINE Box 1) [2; 2]%nat [2]%nat (-1) (-1) (pick_ts 2 ++ dot_ts1) = Ok out.
Proof. exact ex_dot. Qed.

(** C24. [pool_ok]: channels_last, no padding, square pools or pools of height 1. Missing: the other geometries (refuted below) and short crossing intervals ([pool_gaps], see C07) *)
Theorem C24_max_pooling_partial : forall ke sp (fast : bool) g S f ts,
  0 < ke -> (0 < sp_n sp)%nat -> dom_ok (sp_dom sp) (sp_mode sp) -> sp_dc sp = false ->
  (if fast then cg_cout g = cg_cin g /\ (wn_k (cg_y g) <= 1 \/ wn_k (cg_y g) <= wn_k (cg_x g))%nat
   else pool_ok g /\ (sp_mode sp = IBP \/ forall fl, pool_init (wn_k (cg_y g)) (wn_k (cg_x g)) = Ok fl -> pool_gaps ke sp g fl ts)) ->
  valid (sp_dom sp) (sp_mode sp) (sp_dc sp) S (sp_n sp) (im_size (cg_in g)) f ts ->
  exists out, decomon_max_pooling ke sp fast g ts = Ok out /\ valid (sp_dom sp) (sp_mode sp) (sp_dc sp) S (sp_n sp) (im_size (cg_out g)) (fun z => max_pool g (f z)) out.
Proof. exact max_pooling_sound. Qed.
Print Assumptions C24_max_pooling_partial.

(** "same" padding, and pools of 2 x 3 pixels *)
Theorem C24_max_pooling_refuted : forall g, g = geo_same \/ g = geo_23 -> forall ke, exists ts out,
  valid Box IBP false (fun z => True) 1 (im_size (cg_in g)) (fun z j => -1) ts /\
  decomon_max_pooling ke (mk_spec false IBP Box 1) false g ts = Ok out /\
  max_pool g (fun _ => -1) 0%nat < nth 1 out empty_tensor 0%nat 0%nat.
Proof. exact pool_refuted. Qed.
Print Assumptions C24_max_pooling_refuted.

(** pools higher than wide cannot be built *)
Theorem C24_pool_size_error : forall ph pw, (2 <= ph)%nat -> (1 <= pw)%nat -> (pw < ph)%nat -> pool_init ph pw = Err IndexError.
Proof. exact pool_init_error. Qed.
Print Assumptions C24_pool_size_error.

Example C24_example : pool_ok pool_geo /\
  valid Box AFFINE false (fun z => -1 <= z 0%nat <= 3) 1 (im_size (cg_in pool_geo)) (fun z j => if Nat.eqb j 0 then z 0%nat else - z 0%nat) pm_ts /\
  (forall fl, pool_init 1 2 = Ok fl -> pool_gaps (1/10) (mk_spec false AFFINE Box 1) pool_geo fl pm_ts).
Proof. exact ex_pool. Qed.

(** C25. Missing: coefficients that differ along the axis (refuted below) *)
Theorem C25_lower_hull_partial : forall sp S pre k post axis ft (f g : vec -> vec) ts,
  (0 < sp_n sp)%nat -> dom_ok (sp_dom sp) (sp_mode sp) -> (0 < k)%nat ->
  hull_axis_ok pre k post axis -> ft_line pre k post ft -> along_axis rmax pre k post f g ->
  valid (sp_dom sp) (sp_mode sp) (sp_dc sp) S (sp_n sp) (prodn (pre ++ k :: post)) f ts ->
  exists w b, lower_hull_max sp (pre ++ k :: post) axis ft ts = Ok (w, b) /\
    forall z p q, in_shape pre p -> in_shape post q ->
      line_fun pre k post w b (f z) p q <= g z (ravel (pre ++ post) (p ++ q)).
Proof. exact lower_hull_sound. Qed.
Print Assumptions C25_lower_hull_partial.

Theorem C25_lower_hull_refuted : exists a ts w b z,
  (forall j, (j < 2)%nat -> 0 <= a j <= 1) /\
  valid Box IBP false (in_box 2 (fun _ => 1) (fun j => if Nat.eqb j 0 then 2 else 3)) 2 2 (fun z => z) ts /\
  lower_hull_max (mk_spec false IBP Box 2) [2]%nat (-1) (Some a) ts = Ok (w, b) /\
  in_box 2 (fun _ => 1) (fun j => if Nat.eqb j 0 then 2 else 3) z /\
  Rmax (z 0%nat) (z 1%nat) < w 0%nat 0%nat * z 0%nat + w 0%nat 1%nat * z 1%nat + b 0%nat 0%nat.
Proof. exact lower_hull_ft_refuted. Qed.
Print Assumptions C25_lower_hull_refuted.

(** the upper line is above the maximum on the box exactly when no coordinate alone decides the largest value *)
Theorem C25_upper_line : forall solve n l u, solver solve -> (0 < n)%nat -> box_ok n l u ->
  (forall v, in_box n l u v -> rmax n v <= line_value n (upper_line solve n l u) v) <->
  (forall t, (t < n)%nat -> rmax n (fun j => if Nat.eqb t j then l j else u j) = rmax n u).
Proof. exact upper_line_sound. Qed.
Print Assumptions C25_upper_line.

Theorem C25_upper_line_unsound_refuted : forall solve n l u t, solver solve -> box_ok n l u -> (t < n)%nat -> l t < u t ->
  (forall j, (j < n)%nat -> j <> t -> u j < u t) ->
  line_value n (upper_line solve n l u) u < rmax n u.
Proof. exact upper_line_unsound. Qed.
Print Assumptions C25_upper_line_unsound_refuted.

(** full statement: without the hypothesis on ties *)
Theorem C25_upper_hull_partial : forall solve sp S pre k post axis (f g : vec -> vec) ts,
  solver solve -> (0 < sp_n sp)%nat -> dom_ok (sp_dom sp) (sp_mode sp) -> (0 < k)%nat ->
  hull_axis_ok pre k post axis -> along_axis rmax pre k post f g ->
  valid (sp_dom sp) (sp_mode sp) (sp_dc sp) S (sp_n sp) (prodn (pre ++ k :: post)) f ts ->
  (forall r p q t, get_fullinputs sp true true ts = Ok r -> in_shape pre p -> in_shape post q -> (t < k)%nat ->
     let at_ (v : tensor) c := v 0%nat (ravel (pre ++ k :: post) (p ++ c :: q)) in
     rmax k (fun c => if Nat.eqb t c then at_ (f_lc r) c else at_ (f_uc r) c) = rmax k (at_ (f_uc r))) ->
  exists w b, upper_hull_max solve sp (pre ++ k :: post) axis ts = Ok (w, b) /\
    forall z p q, S z -> in_shape pre p -> in_shape post q ->
      g z (ravel (pre ++ post) (p ++ q)) <= line_fun pre k post w b (f z) p q.
Proof. exact upper_hull_partial. Qed.
Print Assumptions C25_upper_hull_partial.

Theorem C25_upper_hull_refuted : forall solve, solver solve -> exists ts w b z,
  valid Box IBP false (in_box 2 (hull_l 0%nat) (hull_u 0%nat)) 2 2 (fun z => z) ts /\
  upper_hull_max solve (mk_spec false IBP Box 2) [2]%nat (-1) ts = Ok (w, b) /\
  in_box 2 (hull_l 0%nat) (hull_u 0%nat) z /\
  w 0%nat 0%nat * z 0%nat + w 0%nat 1%nat * z 1%nat + b 0%nat 0%nat < Rmax (z 0%nat) (z 1%nat).
Proof. exact upper_hull_refuted. Qed.
Print Assumptions C25_upper_hull_refuted.

Theorem C25_axis_error : forall s axis, (axis < -1)%Z -> hull_axis s axis = Err NotImplementedError.
Proof. exact hull_axis_error. Qed.
Print Assumptions C25_axis_error.

(** C26. [dc_ok S m f h g]: h + g = f on S, h convex and g concave. The bounds are those computed without h and g;
    h and g only depend on the h and g of the inputs. *)
Theorem C26_add : forall sp, (0 < sp_n sp)%nat -> dom_ok (sp_dom sp) (sp_mode sp) -> sp_dc sp = true -> forall S, forall m f0 f1 b0 h0 g0 b1 h1 g1, (valid (sp_dom sp) (sp_mode sp) false S (sp_n sp) m f0 b0 /\ dc_ok S m f0 h0 g0) -> (valid (sp_dom sp) (sp_mode sp) false S (sp_n sp) m f1 b1 /\ dc_ok S m f1 h1 g1) ->
  exists b h g, add (no_dc sp) b0 b1 = Ok b /\ (forall z, add sp (b0 ++ [h0 z; g0 z]) (b1 ++ [h1 z; g1 z]) = Ok (b ++ [h z; g z])) /\
    (valid (sp_dom sp) (sp_mode sp) false S (sp_n sp) m (fun z j => f0 z j + f1 z j) b /\ dc_ok S m (fun z j => f0 z j + f1 z j) h g).
Proof. exact add_dc. Qed.
Print Assumptions C26_add.

Theorem C26_minus : forall sp, (0 < sp_n sp)%nat -> dom_ok (sp_dom sp) (sp_mode sp) -> sp_dc sp = true -> forall S, forall m f b0 h0 g0, (valid (sp_dom sp) (sp_mode sp) false S (sp_n sp) m f b0 /\ dc_ok S m f h0 g0) ->
  exists b h g, minus (no_dc sp) b0 = Ok b /\ (forall z, minus sp (b0 ++ [h0 z; g0 z]) = Ok (b ++ [h z; g z])) /\
    (valid (sp_dom sp) (sp_mode sp) false S (sp_n sp) m (fun z j => - f z j) b /\ dc_ok S m (fun z j => - f z j) h g).
Proof. exact minus_dc. Qed.
Print Assumptions C26_minus.

Theorem C26_subtract : forall sp, (0 < sp_n sp)%nat -> dom_ok (sp_dom sp) (sp_mode sp) -> sp_dc sp = true -> forall S, forall m f0 f1 b0 h0 g0 b1 h1 g1, (valid (sp_dom sp) (sp_mode sp) false S (sp_n sp) m f0 b0 /\ dc_ok S m f0 h0 g0) -> (valid (sp_dom sp) (sp_mode sp) false S (sp_n sp) m f1 b1 /\ dc_ok S m f1 h1 g1) ->
  exists b h g, subtract (no_dc sp) b0 b1 = Ok b /\ (forall z, subtract sp (b0 ++ [h0 z; g0 z]) (b1 ++ [h1 z; g1 z]) = Ok (b ++ [h z; g z])) /\
    (valid (sp_dom sp) (sp_mode sp) false S (sp_n sp) m (fun z j => f0 z j - f1 z j) b /\ dc_ok S m (fun z j => f0 z j - f1 z j) h g).
Proof. exact subtract_dc. Qed.
Print Assumptions C26_subtract.

Theorem C26_relu : forall sp, (0 < sp_n sp)%nat -> dom_ok (sp_dom sp) (sp_mode sp) -> sp_dc sp = true -> forall S, forall ke sl ft m f b0 h0 g0, 0 < ke -> ft_ok m ft -> gaps_ok ke (no_dc sp) m b0 -> (valid (sp_dom sp) (sp_mode sp) false S (sp_n sp) m f b0 /\ dc_ok S m f h0 g0) ->
  exists b h g, relu_ ke (no_dc sp) sl ft b0 = Ok b /\ (forall z, relu_ ke sp sl ft (b0 ++ [h0 z; g0 z]) = Ok (b ++ [h z; g z])) /\
    (valid (sp_dom sp) (sp_mode sp) false S (sp_n sp) m (fun z j => Rrelu (f z j)) b /\ dc_ok S m (fun z j => Rrelu (f z j)) h g).
Proof. exact relu_dc. Qed.
Print Assumptions C26_relu.

Theorem C26_maximum : forall sp, (0 < sp_n sp)%nat -> dom_ok (sp_dom sp) (sp_mode sp) -> sp_dc sp = true -> forall S, forall ke ft m f0 f1 b0 h0 g0 b1 h1 g1, 0 < ke -> ft_ok m ft -> max_gaps_ok ke (no_dc sp) m b0 b1 ->
  (valid (sp_dom sp) (sp_mode sp) false S (sp_n sp) m f0 b0 /\ dc_ok S m f0 h0 g0) -> (valid (sp_dom sp) (sp_mode sp) false S (sp_n sp) m f1 b1 /\ dc_ok S m f1 h1 g1) ->
  exists b h g, maximum ke (no_dc sp) ft b0 b1 = Ok b /\
    (forall z, maximum ke sp ft (b0 ++ [h0 z; g0 z]) (b1 ++ [h1 z; g1 z]) = Ok (b ++ [h z; g z])) /\
    (valid (sp_dom sp) (sp_mode sp) false S (sp_n sp) m (fun z j => Rmax (f0 z j) (f1 z j)) b /\ dc_ok S m (fun z j => Rmax (f0 z j) (f1 z j)) h g).
Proof. exact maximum_dc. Qed.
Print Assumptions C26_maximum.

Theorem C26_minimum : forall sp, (0 < sp_n sp)%nat -> dom_ok (sp_dom sp) (sp_mode sp) -> sp_dc sp = true -> forall S, forall ke ft m f0 f1 b0 h0 g0 b1 h1 g1, 0 < ke -> ft_ok m ft -> min_gaps_ok ke (no_dc sp) m b0 b1 ->
  (valid (sp_dom sp) (sp_mode sp) false S (sp_n sp) m f0 b0 /\ dc_ok S m f0 h0 g0) -> (valid (sp_dom sp) (sp_mode sp) false S (sp_n sp) m f1 b1 /\ dc_ok S m f1 h1 g1) ->
  exists b h g, minimum ke (no_dc sp) ft b0 b1 = Ok b /\
    (forall z, minimum ke sp ft (b0 ++ [h0 z; g0 z]) (b1 ++ [h1 z; g1 z]) = Ok (b ++ [h z; g z])) /\
    (valid (sp_dom sp) (sp_mode sp) false S (sp_n sp) m (fun z j => Rmin (f0 z j) (f1 z j)) b /\ dc_ok S m (fun z j => Rmin (f0 z j) (f1 z j)) h g).
Proof. exact minimum_dc. Qed.
Print Assumptions C26_minimum.

Theorem C26_max : forall sp, (0 < sp_n sp)%nat -> dom_ok (sp_dom sp) (sp_mode sp) -> sp_dc sp = true -> forall S, forall ke pre k post axis ft f g b0 h0 g0,
  0 < ke -> (0 < k)%nat -> axis_ok (sp_mode sp) pre post axis -> along_axis rmax pre k post f g ->
  ft_ok (prodn (pre ++ k :: post)) ft -> (valid (sp_dom sp) (sp_mode sp) false S (sp_n sp) (prodn (pre ++ k :: post)) f b0 /\ dc_ok S (prodn (pre ++ k :: post)) f h0 g0) ->
  op_max_gaps ke (no_dc sp) (pre ++ k :: post) axis ft b0 (prodn (pre ++ post)) ->
  exists b h g', (forall z, op_max ke sp (pre ++ k :: post) axis ft (b0 ++ [h0 z; g0 z]) = Ok (b ++ [h z; g' z])) /\
    (valid (sp_dom sp) (sp_mode sp) false S (sp_n sp) (prodn (pre ++ post)) g b /\ dc_ok S (prodn (pre ++ post)) g h g').
Proof. exact max_dc. Qed.
Print Assumptions C26_max.

Theorem C26_dense : forall sp, (0 < sp_n sp)%nat -> dom_ok (sp_dom sp) (sp_mode sp) -> sp_dc sp = true -> forall S, forall rows d units kernel bias f b0 h0 g0, (0 < units)%nat -> (valid (sp_dom sp) (sp_mode sp) false S (sp_n sp) (rows * d) f b0 /\ dc_ok S (rows * d) f h0 g0) ->
  exists b h g, decomon_dense (no_dc sp) d units kernel bias false None b0 = Ok b /\
    (forall z, decomon_dense sp d units kernel bias false None (b0 ++ [h0 z; g0 z]) = Ok (b ++ [h z; g z])) /\
    (valid (sp_dom sp) (sp_mode sp) false S (sp_n sp) (rows * units) (fun z => keras_dense d units kernel (bias_of bias) (f z)) b /\ dc_ok S (rows * units) (fun z => keras_dense d units kernel (bias_of bias) (f z)) h g).
Proof. exact dense_dc. Qed.
Print Assumptions C26_dense.

Theorem C26_conv2d : forall sp, (0 < sp_n sp)%nat -> dom_ok (sp_dom sp) (sp_mode sp) -> sp_dc sp = true -> forall S, forall gm kernel bias f b0 h0 g0, (valid (sp_dom sp) (sp_mode sp) false S (sp_n sp) (im_size (cg_in gm)) f b0 /\ dc_ok S (im_size (cg_in gm)) f h0 g0) ->
  exists b h g, decomon_conv2d (no_dc sp) gm kernel bias false b0 = Ok b /\
    (forall z, decomon_conv2d sp gm kernel bias false (b0 ++ [h0 z; g0 z]) = Ok (b ++ [h z; g z])) /\
    (valid (sp_dom sp) (sp_mode sp) false S (sp_n sp) (im_size (cg_out gm)) (fun z => keras_conv2d gm kernel (bias_of bias) (f z)) b /\ dc_ok S (im_size (cg_out gm)) (fun z => keras_conv2d gm kernel (bias_of bias) (f z)) h g).
Proof. exact conv_dc. Qed.
Print Assumptions C26_conv2d.

Theorem C26_flatten : forall sp, (0 < sp_n sp)%nat -> dom_ok (sp_dom sp) (sp_mode sp) -> sp_dc sp = true -> forall S, forall (cf : bool) ch size f b0 h0 g0, (sp_mode sp = IBP \/ cf = false) -> (valid (sp_dom sp) (sp_mode sp) false S (sp_n sp) (ch * size) f b0 /\ dc_ok S (ch * size) f h0 g0) ->
  exists b h g, decomon_flatten (no_dc sp) cf ch size b0 = Ok b /\ (forall z, decomon_flatten sp cf ch size (b0 ++ [h0 z; g0 z]) = Ok (b ++ [h z; g z])) /\
    (valid (sp_dom sp) (sp_mode sp) false S (sp_n sp) (ch * size) (fun z j => f z (flatten_idx cf ch size j)) b /\ dc_ok S (ch * size) (fun z j => f z (flatten_idx cf ch size j)) h g).
Proof. exact flatten_dc. Qed.
Print Assumptions C26_flatten.

Theorem C26_reshape : forall sp, (0 < sp_n sp)%nat -> dom_ok (sp_dom sp) (sp_mode sp) -> sp_dc sp = true -> forall S, forall m f b0 h0 g0, (valid (sp_dom sp) (sp_mode sp) false S (sp_n sp) m f b0 /\ dc_ok S m f h0 g0) ->
  exists b h g, decomon_reshape (no_dc sp) b0 = Ok b /\ (forall z, decomon_reshape sp (b0 ++ [h0 z; g0 z]) = Ok (b ++ [h z; g z])) /\
    (valid (sp_dom sp) (sp_mode sp) false S (sp_n sp) m f b /\ dc_ok S m f h g).
Proof. exact reshape_dc. Qed.
Print Assumptions C26_reshape.

Theorem C26_permute : forall sp, (0 < sp_n sp)%nat -> dom_ok (sp_dom sp) (sp_mode sp) -> sp_dc sp = true -> forall S, forall s dims f f' b0 h0 g0, Permutation dims (seq 1 (length s)) -> permutes (map pred dims) s f f' -> (valid (sp_dom sp) (sp_mode sp) false S (sp_n sp) (prodn s) f b0 /\ dc_ok S (prodn s) f h0 g0) ->
  exists b h g, decomon_permute (no_dc sp) s dims b0 = Ok b /\ (forall z, decomon_permute sp s dims (b0 ++ [h0 z; g0 z]) = Ok (b ++ [h z; g z])) /\
    (valid (sp_dom sp) (sp_mode sp) false S (sp_n sp) (prodn (permuted (map pred dims) s)) f' b /\ dc_ok S (prodn (permuted (map pred dims) s)) f' h g).
Proof. exact permute_dc. Qed.
Print Assumptions C26_permute.

Example C26_example : let sp := mk_spec true IBP Box 1 in
  valid Box IBP false unit_box 1 1 (fun z => z) [fun _ _ => 1; fun _ _ => 0] /\
  dc_ok unit_box 1 (fun z => z) (fun z _ _ => z 0%nat ^ 2) (fun z _ _ => z 0%nat - z 0%nat ^ 2) /\
  forall z : vec, exists out, minus sp [fun _ _ => 1; fun _ _ => 0; fun _ _ => z 0%nat ^ 2; fun _ _ => z 0%nat - z 0%nat ^ 2] = Ok out.
Proof. exact ex_dc. Qed.

(** C27. [train k cs w upds]: updates, each followed by the constraints cs in order *)
Theorem C27_training : forall k m cs w upds c, In c cs -> (upds <> [] \/ allowed k m c w) -> allowed k m c (train k cs w upds).
Proof. exact train_allowed. Qed.
Print Assumptions C27_training.

Theorem C27_multiple_reaches : forall k m c cs w, In c cs -> allowed k m c (apply_multiple k cs w).
Proof. exact multiple_allowed. Qed.
Print Assumptions C27_multiple_reaches.

Theorem C27_multiple_keeps : forall k m c cs w, allowed k m c w -> allowed k m c (apply_multiple k cs w).
Proof. exact multiple_keeps. Qed.
Print Assumptions C27_multiple_keeps.

Theorem C27_multiple_identity : forall k m cs w, (forall c, In c cs -> allowed k m c w) ->
  forall i q, (i < k)%nat -> (q < m)%nat -> apply_multiple k cs w i q = w i q.
Proof. exact multiple_id. Qed.
Print Assumptions C27_multiple_identity.

(** the constraints are applied in the order given, and the order does not matter *)
Theorem C27_order : forall k c0 c1 w i q, (i < k)%nat ->
  apply_multiple k (multiple_constraint (Some c0) c1) w i q = apply_constraint k c1 (apply_constraint k c0 w) i q /\
  apply_multiple k (multiple_constraint (Some c0) c1) w i q = apply_multiple k (multiple_constraint (Some c1) c0) w i q /\
  apply_multiple k (multiple_constraint None c1) w i q = apply_constraint k c1 w i q.
Proof. exact constraints_commute. Qed.
Print Assumptions C27_order.

Theorem C27_single_reaches : forall k m c w, allowed k m c (apply_constraint k c w).
Proof. exact apply_allowed. Qed.
Print Assumptions C27_single_reaches.

Theorem C27_single_identity : forall k m c w, allowed k m c w -> forall i q, (i < k)%nat -> (q < m)%nat -> apply_constraint k c w i q = w i q.
Proof. exact apply_id. Qed.
Print Assumptions C27_single_identity.

Theorem C27_initializer : forall k m (pos : bool) w, allowed k m (if pos then NonNeg else NonPos) (project_initializer pos w).
Proof. exact project_allowed. Qed.
Print Assumptions C27_initializer.

(** ClipAlphaAndSumtoOne never returns a tensor of the shape of its argument *)
Theorem C27_sum_to_one_shape_refuted : forall k s, sum_to_one_shape k s <> Some (k :: s).
Proof. exact sum_to_one_shape_wrong. Qed.
Print Assumptions C27_sum_to_one_shape_refuted.

Example C27_example : allowed 1 1 ClipAlpha (train 1 [NonNeg; ClipAlpha] (fun _ _ => 7) [fun _ _ => -10; fun _ _ => 3]) /\
  train 1 [NonNeg; ClipAlpha] (fun _ _ => 7) [fun _ _ => -10; fun _ _ => 3] 0%nat 0%nat = 1.
Proof. exact ex_constraint. Qed.

