(** Theorems C11-C18: products, reductions, sort and activations of decomon.layers.
    [valid D mode dc S n m f ts]: the tensors ts bound the m outputs of f on the set S. *)
From Coq Require Import Reals List Arith Bool ZArith Sorting.Sorted Sorting.Permutation.
From Verif Require Import RLib Spec M_Core M_Utils M_MergeLayers M_Ops P_Core P_Utils P_MergeLayers P_UtilsThm
  P_Axis P_Ops P_Sort P_Act P_SShape P_OpsThm.
Import ListNotations.
Local Open Scope R_scope.

(** C11 *)
Theorem C11_multiply : forall sp S m f0 f1 in0 in1,
  (0 < sp_n sp)%nat -> dom_ok (sp_dom sp) (sp_mode sp) -> sp_dc sp = false ->
  valid (sp_dom sp) (sp_mode sp) (sp_dc sp) S (sp_n sp) m f0 in0 ->
  valid (sp_dom sp) (sp_mode sp) (sp_dc sp) S (sp_n sp) m f1 in1 ->
  exists out, multiply sp in0 in1 = Ok out /\
    valid (sp_dom sp) (sp_mode sp) (sp_dc sp) S (sp_n sp) m (fun z j => f0 z j * f1 z j) out.
Proof. exact multiply_sound. Qed.
Print Assumptions C11_multiply.

Theorem C11_pow : forall sp S m f ts,
  (0 < sp_n sp)%nat -> dom_ok (sp_dom sp) (sp_mode sp) -> sp_dc sp = false ->
  valid (sp_dom sp) (sp_mode sp) (sp_dc sp) S (sp_n sp) m f ts ->
  exists out, op_pow sp ts = Ok out /\
    valid (sp_dom sp) (sp_mode sp) (sp_dc sp) S (sp_n sp) m (fun z j => f z j ^ 2) out.
Proof. exact pow_sound. Qed.
Print Assumptions C11_pow.

Theorem C11_layer_multiply : forall sp (S : vec -> Prop) m fs ls,
  (0 < sp_n sp)%nat -> dom_ok (sp_dom sp) (sp_mode sp) -> sp_dc sp = false ->
  Forall2 (valid (sp_dom sp) (sp_mode sp) (sp_dc sp) S (sp_n sp) m) fs ls -> ls <> [] ->
  exists out, decomon_multiply sp (concat ls) = Ok out /\
    valid (sp_dom sp) (sp_mode sp) (sp_dc sp) S (sp_n sp) m (fun z j => prod_list (vals fs z j)) out.
Proof. exact decomon_multiply_sound. Qed.
Print Assumptions C11_layer_multiply.

Example C11_example :
  valid Box AFFINE false (fun z => -2 <= z 0%nat <= 3) 1 1 (fun z => z) (id_affine (-2) 3) /\
  exists out, multiply (mk_spec false AFFINE Box 1) (id_affine (-2) 3) (id_affine (-2) 3) = Ok out.
Proof. exact ex_multiply. Qed.

(** C12: [along_axis red pre k post f g]: g is the reduction of f along the axis of length k of a tensor of
    shape pre ++ k :: post. [axis_ok]: the positive index of that axis, -1 when it is last, and in
    interval mode every negative index. *)
Theorem C12_sum_partial : forall sp S pre k post axis f g ts,
  (0 < sp_n sp)%nat -> dom_ok (sp_dom sp) (sp_mode sp) -> sp_dc sp = false ->
  axis_ok (sp_mode sp) pre post axis -> along_axis rsum pre k post f g ->
  valid (sp_dom sp) (sp_mode sp) (sp_dc sp) S (sp_n sp) (prodn (pre ++ k :: post)) f ts ->
  exists out, op_sum sp (pre ++ k :: post) axis ts = Ok out /\
    valid (sp_dom sp) (sp_mode sp) (sp_dc sp) S (sp_n sp) (prodn (pre ++ post)) g out.
Proof. exact sum_sound. Qed.
Print Assumptions C12_sum_partial.

Theorem C12_max_ibp : forall ke sp S pre k post axis ft f g ts,
  0 < ke -> (0 < sp_n sp)%nat -> sp_mode sp = IBP -> (0 < k)%nat ->
  axis_ok (sp_mode sp) pre post axis -> along_axis rmax pre k post f g ->
  ft_ok (prodn (pre ++ k :: post)) ft ->
  valid (sp_dom sp) (sp_mode sp) (sp_dc sp) S (sp_n sp) (prodn (pre ++ k :: post)) f ts ->
  exists out, op_max ke sp (pre ++ k :: post) axis ft ts = Ok out /\
    valid (sp_dom sp) (sp_mode sp) (sp_dc sp) S (sp_n sp) (prodn (pre ++ post)) g out.
Proof. exact max_ibp. Qed.
Print Assumptions C12_max_ibp.

Theorem C12_min_ibp : forall ke sp S pre k post axis ft f g ts,
  0 < ke -> (0 < sp_n sp)%nat -> sp_mode sp = IBP -> sp_dc sp = false -> (0 < k)%nat ->
  axis_ok (sp_mode sp) pre post axis -> along_axis rmin pre k post f g ->
  ft_ok (prodn (pre ++ k :: post)) ft ->
  valid (sp_dom sp) (sp_mode sp) (sp_dc sp) S (sp_n sp) (prodn (pre ++ k :: post)) f ts ->
  exists out, op_min ke sp (pre ++ k :: post) axis ft ts = Ok out /\
    valid (sp_dom sp) (sp_mode sp) (sp_dc sp) S (sp_n sp) (prodn (pre ++ post)) g out.
Proof. exact min_ibp. Qed.
Print Assumptions C12_min_ibp.

(** missing for the full C12: negative axes other than -1 in the affine modes (refuted below), short
    crossing intervals of the pairwise maxima ([op_max_gaps], see C07) *)
Theorem C12_max_partial : forall ke sp S pre k post axis ft f g ts,
  0 < ke -> (0 < sp_n sp)%nat -> dom_ok (sp_dom sp) (sp_mode sp) -> (0 < k)%nat ->
  axis_ok (sp_mode sp) pre post axis -> along_axis rmax pre k post f g ->
  ft_ok (prodn (pre ++ k :: post)) ft ->
  valid (sp_dom sp) (sp_mode sp) (sp_dc sp) S (sp_n sp) (prodn (pre ++ k :: post)) f ts ->
  op_max_gaps ke sp (pre ++ k :: post) axis ft ts (prodn (pre ++ post)) ->
  exists out, op_max ke sp (pre ++ k :: post) axis ft ts = Ok out /\
    valid (sp_dom sp) (sp_mode sp) (sp_dc sp) S (sp_n sp) (prodn (pre ++ post)) g out.
Proof. exact max_sound. Qed.
Print Assumptions C12_max_partial.

Theorem C12_min_partial : forall ke sp S pre k post axis ft f g ts,
  0 < ke -> (0 < sp_n sp)%nat -> dom_ok (sp_dom sp) (sp_mode sp) -> sp_dc sp = false -> (0 < k)%nat ->
  axis_ok (sp_mode sp) pre post axis -> along_axis rmin pre k post f g ->
  ft_ok (prodn (pre ++ k :: post)) ft ->
  valid (sp_dom sp) (sp_mode sp) (sp_dc sp) S (sp_n sp) (prodn (pre ++ k :: post)) f ts ->
  op_min_gaps ke sp (pre ++ k :: post) axis ft ts (prodn (pre ++ post)) ->
  exists out, op_min ke sp (pre ++ k :: post) axis ft ts = Ok out /\
    valid (sp_dom sp) (sp_mode sp) (sp_dc sp) S (sp_n sp) (prodn (pre ++ post)) g out.
Proof. exact min_sound. Qed.
Print Assumptions C12_min_partial.

(** affine mode, shape (2,2), axis -2: the weights are reduced along the wrong axis *)
Theorem C12_sum_negative_axis_refuted :
  exists f g ts out z, along_axis rsum [] 2 [2]%nat f g /\
    valid Box AFFINE false (fun z => 0 <= z 0%nat <= 1) 1 4 f ts /\
    op_sum (mk_spec false AFFINE Box 1) [2; 2]%nat (neg_axis [2%nat]) ts = Ok out /\
    0 <= z 0%nat <= 1 /\
    aff 1 (nth 1 out empty_tensor) (nth 2 out empty_tensor 0%nat) z 1 < g z 1%nat.
Proof. exact sum_negative_axis_refuted. Qed.
Print Assumptions C12_sum_negative_axis_refuted.

(** min_ fails on every valid input that carries a difference-of-convex decomposition *)
Theorem C12_min_dc_refuted : forall ke sp S m s axis ft f ts,
  (0 < sp_n sp)%nat -> dom_ok (sp_dom sp) (sp_mode sp) -> sp_dc sp = true ->
  valid (sp_dom sp) (sp_mode sp) (sp_dc sp) S (sp_n sp) m f ts -> op_min ke sp s axis ft ts = Err ValueError.
Proof. exact min_dc. Qed.
Print Assumptions C12_min_dc_refuted.

(** the maximum of (z, -z) along the last axis, -1 <= z <= 3 *)
Example C12_example :
  valid Box AFFINE false (fun z => -1 <= z 0%nat <= 3) 1 2 (fun z j => if Nat.eqb j 0 then z 0%nat else - z 0%nat) pm_ts /\
  along_axis rmax [] 2 [] (fun z j => if Nat.eqb j 0 then z 0%nat else - z 0%nat) (fun z j => Rabs (z 0%nat)) /\
  axis_ok AFFINE [] [] (-1) /\
  op_max_gaps (1/10) (mk_spec false AFFINE Box 1) [2]%nat (-1) None pm_ts 1.
Proof. exact ex_max. Qed.

(** C13: sort; g is any function whose lines along the axis are sorted permutations of those of f. *)
Theorem C13_sort_ibp : forall ke sp S pre k post axis (f g : vec -> vec) ts,
  0 < ke -> (0 < sp_n sp)%nat -> sp_mode sp = IBP -> sp_dc sp = false -> (0 < k)%nat ->
  axis_ok (sp_mode sp) pre post axis ->
  (forall z p q, in_shape pre p -> in_shape post q ->
     StronglySorted Rle (line g pre k post z p q) /\ Permutation (line g pre k post z p q) (line f pre k post z p q)) ->
  valid (sp_dom sp) (sp_mode sp) (sp_dc sp) S (sp_n sp) (prodn (pre ++ k :: post)) f ts ->
  exists out, op_sort ke sp (pre ++ k :: post) axis ts = Ok out /\
    valid (sp_dom sp) (sp_mode sp) (sp_dc sp) S (sp_n sp) (prodn (pre ++ k :: post)) g out.
Proof. exact sort_ibp. Qed.
Print Assumptions C13_sort_ibp.

(** missing for the full C13: short crossing intervals in the comparators of the affine modes, and
    negative axes other than -1 in the affine modes (both refuted in Properties_Axis) *)
Theorem C13_sort_partial : forall ke sp S pre k post axis (f g : vec -> vec) ts,
  0 < ke -> (0 < sp_n sp)%nat -> dom_ok (sp_dom sp) (sp_mode sp) -> sp_dc sp = false -> (0 < k)%nat ->
  axis_ok (sp_mode sp) pre post axis ->
  (forall z p q, in_shape pre p -> in_shape post q ->
     StronglySorted Rle (line g pre k post z p q) /\ Permutation (line g pre k post z p q) (line f pre k post z p q)) ->
  valid (sp_dom sp) (sp_mode sp) (sp_dc sp) S (sp_n sp) (prodn (pre ++ k :: post)) f ts ->
  op_sort_gaps ke sp (pre ++ k :: post) (length pre) (prodn (pre ++ post)) ts ->
  exists out, op_sort ke sp (pre ++ k :: post) axis ts = Ok out /\
    valid (sp_dom sp) (sp_mode sp) (sp_dc sp) S (sp_n sp) (prodn (pre ++ k :: post)) g out.
Proof. exact sort_sound. Qed.
Print Assumptions C13_sort_partial.

Example C13_example :
  valid Box IBP false (fun z => -1 <= z 0%nat <= 3) 1 2 (fun z j => if Nat.eqb j 0 then z 0%nat else - z 0%nat)
    [fun _ j => if Nat.eqb j 0 then 3 else 1; fun _ j => if Nat.eqb j 0 then -1 else -3] /\
  forall z p q, in_shape [] p -> in_shape [] q ->
    StronglySorted Rle (line (fun z j => if Nat.eqb j 0 then - Rabs (z 0%nat) else Rabs (z 0%nat)) [] 2 [] z p q) /\
    Permutation (line (fun z j => if Nat.eqb j 0 then - Rabs (z 0%nat) else Rabs (z 0%nat)) [] 2 [] z p q)
      (line (fun z j => if Nat.eqb j 0 then z 0%nat else - z 0%nat) [] 2 [] z p q).
Proof. exact ex_sort. Qed.

(** C14: [intervals P sp m ts]: in the affine modes, P holds of the constant bounds of every neuron.
    Missing for the full C14: exp on intervals shorter than epsilon but not reduced to a point, log
    with a lower bound below epsilon in AFFINE mode; both are refuted below. *)
Theorem C14_exp_partial : forall ke sp S m f ts,
  0 < ke -> (0 < sp_n sp)%nat -> dom_ok (sp_dom sp) (sp_mode sp) -> sp_dc sp = false ->
  valid (sp_dom sp) (sp_mode sp) (sp_dc sp) S (sp_n sp) m f ts -> intervals (wide ke) sp m ts ->
  exists out, op_exp ke sp ts = Ok out /\
    valid (sp_dom sp) (sp_mode sp) (sp_dc sp) S (sp_n sp) m (fun z j => exp (f z j)) out.
Proof. exact exp_sound. Qed.
Print Assumptions C14_exp_partial.

Theorem C14_log_partial : forall ke sp S m f ts,
  0 < ke -> (0 < sp_n sp)%nat -> dom_ok (sp_dom sp) (sp_mode sp) -> sp_dc sp = false ->
  valid (sp_dom sp) (sp_mode sp) (sp_dc sp) S (sp_n sp) m f ts ->
  (forall r, get_fullinputs sp true true ts = Ok r ->
     forall j, (j < m)%nat -> log_dom ke (sp_mode sp) (f_uc r 0%nat j) (f_lc r 0%nat j)) ->
  exists out, op_log ke sp ts = Ok out /\
    valid (sp_dom sp) (sp_mode sp) (sp_dc sp) S (sp_n sp) m (fun z j => ln (f z j)) out.
Proof. exact log_sound. Qed.
Print Assumptions C14_log_partial.

(** [upper_fails op phi a b]: on the identity neuron over [a,b], the affine upper bound returned by op
    is below phi at some point of [a,b] *)
Theorem C14_exp_short_refuted : forall ke, 0 < ke -> upper_fails (op_exp ke (mk_spec false AFFINE Box 1)) exp 0 (ke / 2).
Proof. exact exp_short_refuted. Qed.
Print Assumptions C14_exp_short_refuted.

Theorem C14_log_small_refuted : forall ke, 0 < ke ->
  lower_fails (op_log ke (mk_spec false AFFINE Box 1)) ln (ke / 4) (ke / 2).
Proof. exact log_small_refuted. Qed.
Print Assumptions C14_log_small_refuted.

Example C14_example : intervals (wide (1/10)) (mk_spec false AFFINE Box 1) 1 (id_affine 1 2) /\
  (forall r, get_fullinputs (mk_spec false AFFINE Box 1) true true (id_affine 1 2) = Ok r ->
     forall j, (j < 1)%nat -> log_dom (1/10) AFFINE (f_uc r 0%nat j) (f_lc r 0%nat j)) /\
  valid Box AFFINE false (fun z => 1 <= z 0%nat <= 2) 1 1 (fun z => z) (id_affine 1 2).
Proof. exact ex_exp_log. Qed.

(** C15 *)
Theorem C15_s_shape_ibp : forall F F', In (F, F') s_activations -> forall ke sp S m f ts,
  (0 < sp_n sp)%nat -> sp_mode sp = IBP -> sp_dc sp = false ->
  valid (sp_dom sp) (sp_mode sp) (sp_dc sp) S (sp_n sp) m f ts ->
  exists out, op_s_shape ke sp F F' ts = Ok out /\
    valid (sp_dom sp) (sp_mode sp) (sp_dc sp) S (sp_n sp) m (fun z j => F (f z j)) out.
Proof. exact act_ibp. Qed.
Print Assumptions C15_s_shape_ibp.

(** affine modes, neurons whose interval does not contain 0. Missing for the full C15: intervals
    containing 0, where the result is wrong (refuted below). *)
Theorem C15_s_shape_one_sided_partial : forall F F', In (F, F') s_activations -> forall ke sp S m f ts,
  0 < ke -> (0 < sp_n sp)%nat -> dom_ok (sp_dom sp) (sp_mode sp) -> sp_dc sp = false ->
  valid (sp_dom sp) (sp_mode sp) (sp_dc sp) S (sp_n sp) m f ts ->
  intervals (fun u l => wide ke u l /\ (u < 0 \/ 0 < l)) sp m ts -> (exists z, S z) ->
  exists out, op_s_shape ke sp F F' ts = Ok out /\
    valid (sp_dom sp) (sp_mode sp) (sp_dc sp) S (sp_n sp) m (fun z j => F (f z j)) out.
Proof. exact act_one_sided. Qed.
Print Assumptions C15_s_shape_one_sided_partial.

(** whatever the interval [a,b] around 0, one of the two affine bounds crosses the curve: the tangent
    search never returns a tangency point *)
Theorem C15_s_shape_crossing_refuted : forall F F', In (F, F') s_activations -> forall ke a b,
  0 < ke -> ke <= - a -> ke <= b ->
  valid Box AFFINE false (fun z => a <= z 0%nat <= b) 1 1 (fun z => z) (id_affine a b) /\
  (upper_fails (op_s_shape ke (mk_spec false AFFINE Box 1) F F') F a b \/
   lower_fails (op_s_shape ke (mk_spec false AFFINE Box 1) F F') F a b).
Proof. exact act_crossing_refuted. Qed.
Print Assumptions C15_s_shape_crossing_refuted.

Example C15_example : forall F F', s_shape F F' ->
  intervals (both_sides F F' (1/10)) (mk_spec false AFFINE Box 1) 1 (id_affine 1 2) /\
  intervals (both_sides F F' (1/10)) (mk_spec false AFFINE Box 1) 1 (id_affine (-2) (-1)).
Proof. exact ex_s_shape. Qed.

(** C16: interval mode is right. Missing for the full C16: the affine modes, refuted below. *)
Theorem C16_softplus_ibp_partial : forall ke sp sl S m f ts,
  (0 < sp_n sp)%nat -> sp_mode sp = IBP -> sp_dc sp = false ->
  valid (sp_dom sp) (sp_mode sp) (sp_dc sp) S (sp_n sp) m f ts ->
  exists out, op_softplus ke sp sl m ts = Ok out /\
    valid (sp_dom sp) (sp_mode sp) (sp_dc sp) S (sp_n sp) m (fun z j => ln (1 + exp (f z j))) out.
Proof. exact softplus_ibp. Qed.
Print Assumptions C16_softplus_ibp_partial.

Theorem C16_softplus_refuted : forall ke sl, 0 < ke -> sl <> A_SLOPE ->
  upper_fails (op_softplus ke (mk_spec false AFFINE Box 1) sl 1) (fun z => ln (1 + exp z)) (-1) 0.
Proof. exact softplus_refuted. Qed.
Print Assumptions C16_softplus_refuted.

(** the adaptive slope, accepted by every other activation, is an error *)
Theorem C16_softplus_adaptive_refuted : forall ke sp S m f ts,
  (0 < sp_n sp)%nat -> dom_ok (sp_dom sp) (sp_mode sp) -> sp_mode sp <> IBP -> (0 < m)%nat ->
  valid (sp_dom sp) (sp_mode sp) (sp_dc sp) S (sp_n sp) m f ts ->
  op_softplus ke sp A_SLOPE m ts = Err ValueError.
Proof. exact softplus_A. Qed.
Print Assumptions C16_softplus_adaptive_refuted.

Example C16_C18_example : valid Box IBP false (fun z => -1 <= z 0%nat <= 3) 1 1 (fun z => z) (id_ibp (-1) 3).
Proof. exact ex_id_ibp. Qed.

(** C17: 1/z in interval mode; the softmax layer in interval mode encloses softmax(-x) instead of
    softmax(x). Missing for the full C17: softmax(x) itself and the affine modes, refuted below. *)
Theorem C17_frac_pos_ibp_partial : forall ke sp S m f ts,
  (0 < sp_n sp)%nat -> sp_mode sp = IBP -> sp_dc sp = false ->
  valid (sp_dom sp) (sp_mode sp) (sp_dc sp) S (sp_n sp) m f ts ->
  (forall r, get_fullinputs sp true true ts = Ok r -> forall j, (j < m)%nat -> 0 < f_lc r 0%nat j) ->
  exists out, frac_pos ke sp ts = Ok out /\
    valid (sp_dom sp) (sp_mode sp) (sp_dc sp) S (sp_n sp) m (fun z j => / f z j) out.
Proof. exact frac_pos_ibp. Qed.
Print Assumptions C17_frac_pos_ibp_partial.

Theorem C17_softmax_of_opposite : forall ke D n S pre k f g ts,
  (0 < n)%nat -> (0 < k)%nat -> softmax_of (-1) pre k f g ->
  valid D IBP false S n (prodn (pre ++ [k])) f ts ->
  exists out, softmax ke (mk_spec false IBP D n) (pre ++ [k]) ts = Ok out /\
    valid D IBP false S n (prodn (pre ++ [k])) g out.
Proof. exact softmax_ibp. Qed.
Print Assumptions C17_softmax_of_opposite.

(** two classes with logits 0 and ln 2: the returned upper bound of the second is below its softmax *)
Theorem C17_softmax_refuted : forall ke, exists ts out z,
  valid Box IBP false (fun z => True) 1 2 (fun z j => if Nat.eqb j 0 then 0 else ln 2) ts /\
  softmax ke (mk_spec false IBP Box 1) [2]%nat ts = Ok out /\
  nth 0 out empty_tensor 0%nat 1%nat <
    exp ((fun j => if Nat.eqb j 0 then 0 else ln 2) 1%nat) /
    rsum 2 (fun c => exp ((fun (z : vec) j => if Nat.eqb j 0 then 0 else ln 2) z c)).
Proof. exact softmax_refuted. Qed.
Print Assumptions C17_softmax_refuted.

Theorem C17_frac_pos_affine_refuted : forall ke a b, 0 < ke -> 0 < a -> ke <= b - a ->
  upper_fails (frac_pos ke (mk_spec false AFFINE Box 1)) Rinv a b.
Proof. exact frac_pos_upper_wrong. Qed.
Print Assumptions C17_frac_pos_affine_refuted.

(** C18: abs returns bounds on its argument, not on its absolute value. Missing for the full C18: the
    statement itself, which is refuted. *)
Theorem C18_abs_is_identity : forall ke D n (u l : tensor),
  exists u' l', op_abs ke (mk_spec false IBP D n) [u; l] = Ok [u'; l'] /\
    (forall i j, u' i j = u i j) /\ (forall i j, l' i j = l i j).
Proof. exact abs_ibp. Qed.
Print Assumptions C18_abs_is_identity.

Theorem C18_abs_refuted : forall ke, exists ts u' l' z,
  valid Box IBP false (fun z => -2 <= z 0%nat <= -1) 1 1 (fun z => z) ts /\
  op_abs ke (mk_spec false IBP Box 1) ts = Ok [u'; l'] /\ -2 <= z 0%nat <= -1 /\ u' 0%nat 0%nat < Rabs (z 0%nat).
Proof. exact abs_refuted. Qed.
Print Assumptions C18_abs_refuted.

(** C61: split along an axis. Missing for the full C61: negative axes other than -1 in the affine modes (refuted in Properties_Axis). *)
Theorem C61_split_partial : forall sp S pre k post axis (f : vec -> vec) ts,
  (0 < sp_n sp)%nat -> dom_ok (sp_dom sp) (sp_mode sp) -> sp_dc sp = false ->
  axis_ok (sp_mode sp) pre post axis ->
  valid (sp_dom sp) (sp_mode sp) (sp_dc sp) S (sp_n sp) (prodn (pre ++ k :: post)) f ts ->
  exists outs, op_split sp (pre ++ k :: post) axis ts = Ok outs /\ length outs = k /\
    forall c (g : vec -> vec), (c < k)%nat ->
      (forall z p q, in_shape pre p -> in_shape post q ->
         g z (ravel (pre ++ post) (p ++ q)) = f z (ravel (pre ++ k :: post) (p ++ c :: q))) ->
      valid (sp_dom sp) (sp_mode sp) (sp_dc sp) S (sp_n sp) (prodn (pre ++ post)) g (nth c outs []).
Proof. exact split_sound. Qed.
Print Assumptions C61_split_partial.
