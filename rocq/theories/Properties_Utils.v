(** Theorems C07-C10: relu hull and the element-wise operators of decomon.utils. *)
From Coq Require Import Reals List Arith Bool.
From Verif Require Import RLib Spec M_Core M_Utils M_MergeLayers P_Core P_Utils P_MergeLayers P_UtilsThm.
Import ListNotations.
Local Open Scope R_scope.

(** C07: every slope and coefficient gives lines enclosing relu, provided a crossing interval is
    not shorter than epsilon. Missing for the full C07: crossing intervals shorter than epsilon,
    where the statement is false (refuted below) but the error is at most epsilon. *)
Theorem C07_relu_hull_partial : forall ke sl ft u l z,
  0 < ke -> l <= z <= u -> gap_free ke u l -> coef_ok ft ->
  exists h, get_linear_hull_relu ke sl false ft u l = Ok h /\
    h_wl h * z + h_bl h <= Rmax z 0 <= h_wu h * z + h_bu h.
Proof. exact relu_hull. Qed.
Print Assumptions C07_relu_hull_partial.

Theorem C07_relu_hull_slack : forall ke sl ft u l z, 0 < ke -> l <= z <= u -> coef_ok ft ->
  exists h, get_linear_hull_relu ke sl false ft u l = Ok h /\
    h_wl h * z + h_bl h <= Rmax z 0 <= h_wu h * z + h_bu h + ke.
Proof. exact relu_hull_slack. Qed.
Print Assumptions C07_relu_hull_slack.

(** stable neurons are relaxed exactly, and the upper line of a crossing neuron is the chord *)
Theorem C07_relu_hull_exact : forall ke sl ft u l, l <= u -> u <= 0 \/ 0 <= l ->
  exists h, get_linear_hull_relu ke sl false ft u l = Ok h /\
    forall z, l <= z <= u -> h_wl h * z + h_bl h = Rmax z 0 /\ h_wu h * z + h_bu h = Rmax z 0.
Proof. exact relu_hull_exact. Qed.
Print Assumptions C07_relu_hull_exact.

Theorem C07_relu_hull_chord : forall ke sl ft u l, 0 < ke -> l < 0 -> 0 < u -> ke <= u - l -> coef_ok ft ->
  exists h, get_linear_hull_relu ke sl false ft u l = Ok h /\
    h_wu h * l + h_bu h = 0 /\ h_wu h * u + h_bu h = u.
Proof. exact relu_hull_chord. Qed.
Print Assumptions C07_relu_hull_chord.

(** whatever epsilon > 0, slope and coefficient, some interval gives an upper line below relu *)
Theorem C07_relu_hull_short_refuted : forall ke sl ft, 0 < ke -> coef_ok ft ->
  exists u l z h, l <= z <= u /\ get_linear_hull_relu ke sl false ft u l = Ok h /\
    h_wu h * z + h_bu h < Rmax z 0.
Proof. exact relu_hull_refuted. Qed.
Print Assumptions C07_relu_hull_short_refuted.

Example C07_example : gap_free (1/10) 3 (-1) /\
  exists h, get_linear_hull_relu (1/10) V_SLOPE false None 3 (-1) = Ok h /\
    h_wu h = 3/4 /\ h_bu h = 3/4 /\ h_wl h = 1 /\ h_bl h = 0.
Proof. exact ex_relu_hull. Qed.

(** C08: interval propagation through relu needs no condition; affine modes need the width
    condition of C07 on every neuron, or lose at most epsilon on the affine upper bound. *)
Theorem C08_relu_ibp : forall ke sp sl ft S m f ts,
  0 < ke -> (0 < sp_n sp)%nat -> sp_mode sp = IBP -> ft_ok m ft ->
  valid (sp_dom sp) (sp_mode sp) (sp_dc sp) S (sp_n sp) m f ts ->
  exists out, relu_ ke sp sl ft ts = Ok out /\
    valid (sp_dom sp) (sp_mode sp) (sp_dc sp) S (sp_n sp) m (fun z j => Rmax (f z j) 0) out.
Proof. exact relu_ibp. Qed.
Print Assumptions C08_relu_ibp.

(** missing for the full C08: neurons whose crossing interval is shorter than epsilon *)
Theorem C08_relu_partial : forall ke sp sl ft S m f ts,
  0 < ke -> (0 < sp_n sp)%nat -> dom_ok (sp_dom sp) (sp_mode sp) -> ft_ok m ft ->
  valid (sp_dom sp) (sp_mode sp) (sp_dc sp) S (sp_n sp) m f ts -> gaps_ok ke sp m ts ->
  exists out, relu_ ke sp sl ft ts = Ok out /\
    valid (sp_dom sp) (sp_mode sp) (sp_dc sp) S (sp_n sp) m (fun z j => Rrelu (f z j)) out.
Proof. exact relu_sound. Qed.
Print Assumptions C08_relu_partial.

Theorem C08_relu_slack : forall ke sp sl ft S m f ts,
  0 < ke -> (0 < sp_n sp)%nat -> dom_ok (sp_dom sp) (sp_mode sp) -> ft_ok m ft ->
  valid (sp_dom sp) (sp_mode sp) (sp_dc sp) S (sp_n sp) m f ts ->
  exists out, relu_ ke sp sl ft ts = Ok out /\
    valid (sp_dom sp) (sp_mode sp) (sp_dc sp) S (sp_n sp) m (fun z j => Rmax (f z j) 0)
      (loosen (sp_mode sp) ke out).
Proof. exact relu_slack. Qed.
Print Assumptions C08_relu_slack.

Theorem C08_relu_short_refuted : forall ke sl, 0 < ke ->
  exists sp S f ts out z, sp_mode sp = AFFINE /\ norm_ok (sp_dom sp) /\ (0 < sp_n sp)%nat /\
    valid (sp_dom sp) (sp_mode sp) (sp_dc sp) S (sp_n sp) 1 f ts /\ relu_ ke sp sl None ts = Ok out /\ S z /\
    aff (sp_n sp) (nth 1 out empty_tensor) (nth 2 out empty_tensor 0%nat) z 0%nat < Rmax (f z 0%nat) 0.
Proof. exact relu_refuted. Qed.
Print Assumptions C08_relu_short_refuted.

Example C08_example :
  valid Box AFFINE false (fun z => -1 <= z 0%nat <= 3) 1 1 (fun z => z) (id_affine (-1) 3) /\
  gaps_ok (1/10) (mk_spec false AFFINE Box 1) 1 (id_affine (-1) 3).
Proof. exact ex_relu. Qed.

(** C09: addition, negation, subtraction. *)
Theorem C09_add : forall sp S m f0 f1 in0 in1,
  (0 < sp_n sp)%nat -> dom_ok (sp_dom sp) (sp_mode sp) ->
  valid (sp_dom sp) (sp_mode sp) (sp_dc sp) S (sp_n sp) m f0 in0 ->
  valid (sp_dom sp) (sp_mode sp) (sp_dc sp) S (sp_n sp) m f1 in1 ->
  exists out, add sp in0 in1 = Ok out /\
    valid (sp_dom sp) (sp_mode sp) (sp_dc sp) S (sp_n sp) m (fun z j => f0 z j + f1 z j) out.
Proof. exact add_sound. Qed.
Print Assumptions C09_add.

Theorem C09_minus : forall sp S m f ts,
  (0 < sp_n sp)%nat -> dom_ok (sp_dom sp) (sp_mode sp) ->
  valid (sp_dom sp) (sp_mode sp) (sp_dc sp) S (sp_n sp) m f ts ->
  exists out, minus sp ts = Ok out /\
    valid (sp_dom sp) (sp_mode sp) (sp_dc sp) S (sp_n sp) m (fun z j => - f z j) out.
Proof. exact minus_sound. Qed.
Print Assumptions C09_minus.

Theorem C09_subtract : forall sp S m f0 f1 in0 in1,
  (0 < sp_n sp)%nat -> dom_ok (sp_dom sp) (sp_mode sp) ->
  valid (sp_dom sp) (sp_mode sp) (sp_dc sp) S (sp_n sp) m f0 in0 ->
  valid (sp_dom sp) (sp_mode sp) (sp_dc sp) S (sp_n sp) m f1 in1 ->
  exists out, subtract sp in0 in1 = Ok out /\
    valid (sp_dom sp) (sp_mode sp) (sp_dc sp) S (sp_n sp) m (fun z j => f0 z j - f1 z j) out.
Proof. exact subtract_sound. Qed.
Print Assumptions C09_subtract.

(** layers, any number of inputs *)
Theorem C09_layer_add : forall sp (S : vec -> Prop) m fs ls,
  (0 < sp_n sp)%nat -> dom_ok (sp_dom sp) (sp_mode sp) -> sp_dc sp = false ->
  Forall2 (valid (sp_dom sp) (sp_mode sp) (sp_dc sp) S (sp_n sp) m) fs ls -> ls <> [] ->
  exists out, decomon_add sp (concat ls) = Ok out /\
    valid (sp_dom sp) (sp_mode sp) (sp_dc sp) S (sp_n sp) m (fun z j => sum_list (vals fs z j)) out.
Proof. exact decomon_add_sound. Qed.
Print Assumptions C09_layer_add.

Theorem C09_layer_average : forall sp (S : vec -> Prop) m fs ls,
  (0 < sp_n sp)%nat -> dom_ok (sp_dom sp) (sp_mode sp) -> sp_dc sp = false ->
  Forall2 (valid (sp_dom sp) (sp_mode sp) (sp_dc sp) S (sp_n sp) m) fs ls -> ls <> [] ->
  exists out, decomon_average sp (concat ls) = Ok out /\
    valid (sp_dom sp) (sp_mode sp) (sp_dc sp) S (sp_n sp) m
      (fun z j => sum_list (vals fs z j) / INR (length fs)) out.
Proof. exact decomon_average_sound. Qed.
Print Assumptions C09_layer_average.

Theorem C09_layer_subtract : forall sp (S : vec -> Prop) m f0 f1 in0 in1,
  (0 < sp_n sp)%nat -> dom_ok (sp_dom sp) (sp_mode sp) -> sp_dc sp = false ->
  valid (sp_dom sp) (sp_mode sp) (sp_dc sp) S (sp_n sp) m f0 in0 ->
  valid (sp_dom sp) (sp_mode sp) (sp_dc sp) S (sp_n sp) m f1 in1 ->
  exists out, decomon_subtract sp (in0 ++ in1) = Ok out /\
    valid (sp_dom sp) (sp_mode sp) (sp_dc sp) S (sp_n sp) m (fun z j => f0 z j - f1 z j) out.
Proof. exact decomon_subtract_sound. Qed.
Print Assumptions C09_layer_subtract.

Theorem C09_layer_subtract_arity : forall sp (S : vec -> Prop) m fs ls,
  sp_dc sp = false -> Forall2 (valid (sp_dom sp) (sp_mode sp) (sp_dc sp) S (sp_n sp) m) fs ls ->
  length ls <> 2%nat -> decomon_subtract sp (concat ls) = Err ValueError.
Proof. exact decomon_subtract_arity. Qed.
Print Assumptions C09_layer_subtract_arity.

Example C09_C10_example :
  Forall2 (valid Box IBP false (fun z => -1 <= z 0%nat <= 3) 1 1)
    [fun z => z; fun z j => 2 * z j; fun z j => - z j] [id_ibp (-1) 3; id_ibp (-2) 6; id_ibp (-3) 1] /\
  (exists o, decomon_add (mk_spec false IBP Box 1) (concat [id_ibp (-1) 3; id_ibp (-2) 6; id_ibp (-3) 1]) = Ok o /\
     nth 0 o empty_tensor 0%nat 0%nat = 10) /\
  (exists o, decomon_maximum 1 (mk_spec false IBP Box 1) (concat [id_ibp (-1) 3; id_ibp (-2) 6; id_ibp (-3) 1]) = Ok o).
Proof. exact ex_merge_layers. Qed.

(** C10: element-wise maximum and minimum. Missing for the full C10: affine modes when the
    difference of the two operands has a crossing interval shorter than epsilon (refuted below). *)
Theorem C10_maximum_partial : forall ke sp ft S m f0 f1 in0 in1,
  0 < ke -> (0 < sp_n sp)%nat -> dom_ok (sp_dom sp) (sp_mode sp) -> ft_ok m ft ->
  valid (sp_dom sp) (sp_mode sp) (sp_dc sp) S (sp_n sp) m f0 in0 ->
  valid (sp_dom sp) (sp_mode sp) (sp_dc sp) S (sp_n sp) m f1 in1 -> max_gaps_ok ke sp m in0 in1 ->
  exists out, maximum ke sp ft in0 in1 = Ok out /\
    valid (sp_dom sp) (sp_mode sp) (sp_dc sp) S (sp_n sp) m (fun z j => Rmax (f0 z j) (f1 z j)) out.
Proof. exact maximum_sound. Qed.
Print Assumptions C10_maximum_partial.

Theorem C10_minimum_partial : forall ke sp ft S m f0 f1 in0 in1,
  0 < ke -> (0 < sp_n sp)%nat -> dom_ok (sp_dom sp) (sp_mode sp) -> ft_ok m ft ->
  valid (sp_dom sp) (sp_mode sp) (sp_dc sp) S (sp_n sp) m f0 in0 ->
  valid (sp_dom sp) (sp_mode sp) (sp_dc sp) S (sp_n sp) m f1 in1 -> min_gaps_ok ke sp m in0 in1 ->
  exists out, minimum ke sp ft in0 in1 = Ok out /\
    valid (sp_dom sp) (sp_mode sp) (sp_dc sp) S (sp_n sp) m (fun z j => Rmin (f0 z j) (f1 z j)) out.
Proof. exact minimum_sound. Qed.
Print Assumptions C10_minimum_partial.

Theorem C10_layer_maximum_partial : forall ke sp (S : vec -> Prop) m f0 fs ls,
  0 < ke -> (0 < sp_n sp)%nat -> dom_ok (sp_dom sp) (sp_mode sp) -> sp_dc sp = false ->
  Forall2 (valid (sp_dom sp) (sp_mode sp) (sp_dc sp) S (sp_n sp) m) (f0 :: fs) ls -> layer_max_gaps ke sp m ls ->
  exists out, decomon_maximum ke sp (concat ls) = Ok out /\
    valid (sp_dom sp) (sp_mode sp) (sp_dc sp) S (sp_n sp) m (fun z j => max_list (f0 z j) (vals fs z j)) out.
Proof. exact decomon_maximum_sound. Qed.
Print Assumptions C10_layer_maximum_partial.

Theorem C10_layer_minimum_partial : forall ke sp (S : vec -> Prop) m f0 fs ls,
  0 < ke -> (0 < sp_n sp)%nat -> dom_ok (sp_dom sp) (sp_mode sp) -> sp_dc sp = false ->
  Forall2 (valid (sp_dom sp) (sp_mode sp) (sp_dc sp) S (sp_n sp) m) (f0 :: fs) ls -> layer_min_gaps ke sp m ls ->
  exists out, decomon_minimum ke sp (concat ls) = Ok out /\
    valid (sp_dom sp) (sp_mode sp) (sp_dc sp) S (sp_n sp) m (fun z j => min_list (f0 z j) (vals fs z j)) out.
Proof. exact decomon_minimum_sound. Qed.
Print Assumptions C10_layer_minimum_partial.

(** the width conditions are void in ibp mode *)
Theorem C10_ibp_unconditional : forall ke sp m ls, sp_mode sp = IBP ->
  layer_max_gaps ke sp m ls /\ layer_min_gaps ke sp m ls.
Proof. exact layer_gaps_ibp. Qed.
Print Assumptions C10_ibp_unconditional.

Theorem C10_maximum_short_refuted : forall ke, 0 < ke ->
  exists sp S f0 f1 in0 in1 out z, sp_mode sp = AFFINE /\ norm_ok (sp_dom sp) /\ (0 < sp_n sp)%nat /\
    valid (sp_dom sp) (sp_mode sp) (sp_dc sp) S (sp_n sp) 1 f0 in0 /\
    valid (sp_dom sp) (sp_mode sp) (sp_dc sp) S (sp_n sp) 1 f1 in1 /\
    maximum ke sp None in0 in1 = Ok out /\ S z /\
    aff (sp_n sp) (nth 1 out empty_tensor) (nth 2 out empty_tensor 0%nat) z 0%nat < Rmax (f0 z 0%nat) (f1 z 0%nat).
Proof. exact maximum_refuted. Qed.
Print Assumptions C10_maximum_short_refuted.
