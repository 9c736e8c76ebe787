(** Interval mode in floating-point arithmetic with BatchNormalization, Maximum, Minimum and Multiply as well. Definitions
    only. [op x y]: y is a result of the operation of exact result x. *)
From Coq Require Import Reals List Arith Bool ZArith.
From Verif Require Import RLib Spec Spec_Layers Spec_Network Spec_Near Spec_Rounding Spec_Float Spec_FloatMerge Spec_FloatNet M_Core M_Utils M_MergeLayers M_Ops M_Layers M_Convert M_Network M_Rounding M_Float M_FloatMerge.
Import ListNotations.
Local Open Scope R_scope.

(** decomon_layers.py:846-850 on one neuron: (a - moving_mean) / sqrt(moving_variance + epsilon) for the two bounds, then
    K.maximum(0, gamma) * a_0 + K.minimum(0, gamma) * b_0 + beta; a, b: upper and lower bounds for the upper bound, and the
    other way for the lower bound *)
Definition fl_bn (op : R -> R -> Prop) (gamma beta mean var eps a b y : R) : Prop :=
  exists da db s t za zb p q r,
    op (a - mean) da /\ op (b - mean) db /\ op (var + eps) s /\ op (sqrt s) t /\ op (da / t) za /\ op (db / t) zb /\
    op (Rmax 0 gamma * za) p /\ op (Rmin 0 gamma * zb) q /\ op (p + q) r /\ op (r + beta) y.
(** decomon_layers.py:815-879 in interval mode *)
Definition float_bn (op : R -> R -> Prop) (s : list nat) (axis : Z) (gamma beta : option vec) (mean var : vec) (eps : R) (ts ts' : list tensor) : Prop :=
  match b_axis s axis, ts, ts' with
  | Ok a, [uc; lc], [uc'; lc'] => forall j, (j < prodn s)%nat ->
      let c := bn_chan s a j in
      let f := fl_bn op (opt_vec 1 gamma c) (opt_vec 0 beta c) (mean c) (var c) eps in
      f (uc 0%nat j) (lc 0%nat j) (uc' 0%nat j) /\ f (lc 0%nat j) (uc 0%nat j) (lc' 0%nat j)
  | _, _, _ => False
  end.

(** a call of a layer; tr: the intermediate results of Maximum, Minimum and Multiply *)
Definition float_call (op : R -> R -> Prop) (dot : nat -> vec -> vec -> R -> Prop) (ke : R) (n : nat) (o : lopts) (L : nlayer)
    (tr : nat -> list (R * R)) (tss : list (list tensor)) (ts' : list tensor) : Prop :=
  match L with
  | NMaximum m _ => float_maximum op m tss tr ts'
  | NMinimum m _ => float_minimum op m tss tr ts'
  | NMultiply m _ => float_multiply op m tss tr ts'
  | NBatchNorm pre k post axis gamma beta mean var eps => float_bn op (pre ++ k :: post) axis gamma beta mean var eps (concat tss) ts'
  | _ =>
      match lin_of L, merge_op op L with
      | Some F, _ => float_linear op dot F (concat tss) ts'
      | None, Some M => float_merge M L tss ts'
      | None, None => decomon_layer ke (mk_spec false IBP Box n) o L (concat tss) = Ok ts'
      end
  end.
(** clone with method forward-ibp on a box, then a call; see float_run of M_Float *)
Definition float_run_all (op : R -> R -> Prop) (dot : nat -> vec -> vec -> R -> Prop) (ke : R) (n : nat) (opts : nat -> lopts) (net : network) (o : nat) (z : tensor) (tr : nat -> nat -> list (R * R)) (r : run) : Prop :=
  get_input_tensors (Some Box) IBP n z = Ok (r_inputs r) /\
  (forall i q ps, nth_error net i = Some (q, ps) ->
     match q with
     | None => r_nodes r i = r_inputs r
     | Some L => float_call op dot ke n (opts i) L (tr i) (map (r_nodes r) ps) (r_nodes r i)
     end) /\
  convert2mode Box n IBP IBP (r_nodes r o) = Ok (r_out r).

(** the layers of M_Float, and the others; curved activations and Dot are left out *)
Definition float_layer_linear (L : nlayer) : Prop :=
  match L with NMaximum _ _ | NMinimum _ _ | NBatchNorm _ _ _ _ _ _ _ _ _ => True | _ => float_layer L end.
Definition float_layer_all (L : nlayer) : Prop := match L with NMultiply _ _ => True | _ => float_layer_linear L end.

(** the rounding error of every layer is at most E. A: size of the numbers added by Dense, Conv2D and the sums (run_size of
    M_Float), and of the numbers computed by Maximum and Minimum *)
Definition errors_within (u eta : R) (k N : nat) (A E : R) (net : network) (tr : nat -> nat -> list (R * R)) (r : run) : Prop :=
  run_size A net r /\ float_error u eta k N A <= E /\
  forall i L ps, nth_error net i = Some (Some L, ps) ->
    match L with
    | NMaximum m _ | NMinimum m _ => sized A m (map (r_nodes r) ps) (tr i) /\ iterated 2 (maximum_error u eta A) (length ps - 1) <= E
    | NBatchNorm pre k post axis gamma beta mean var eps =>
        forall a uc lc j, b_axis (pre ++ k :: post) axis = Ok a -> concat (map (r_nodes r) ps) = [uc; lc] -> (j < prodn (pre ++ k :: post))%nat ->
          let c := bn_chan (pre ++ k :: post) a j in
          let V := var c + eps in
          0 < V /\ eta <= u * V /\ 2 * eta <= u * sqrt V /\
          bn_error u eta (Rmax (Rabs (uc 0%nat j - mean c)) (Rabs (lc 0%nat j - mean c))) (Rabs (opt_vec 1 gamma c)) (sqrt V) (Rabs (opt_vec 0 beta c)) <= E
    | _ => True
    end.
(** the standard deviation of BatchNormalization is not rounded to 0 *)
Definition deviations_positive (net : network) : Prop :=
  forall i ps pre k post axis gamma beta mean var eps c, nth_error net i = Some (Some (NBatchNorm pre k post axis gamma beta mean var eps), ps) -> (c < k)%nat -> 0 < rnd32 (sqrt (rnd32 (var c + eps))).
