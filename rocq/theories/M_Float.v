(** Interval mode in floating-point arithmetic, for the layers without rounding, for inner products (Dense, Conv2D) and for
    sums (Add, Average, Subtract). Definitions only. [op x y]: y is a result of the operation of exact result x.
    [dot d x w y]: y is a result of the inner product of the d first entries of x and w. *)
From Coq Require Import Reals List Arith Bool ZArith.
From Verif Require Import RLib Spec Spec_Layers Spec_Network Spec_Near Spec_Rounding Spec_Float M_Core M_Utils M_MergeLayers M_Ops M_Layers M_Convert M_Network M_Rounding.
Import ListNotations.
Local Open Scope R_scope.

(** a layer computed by inner products: the output j has ln_d products, of the entry ln_src j c of the input (None: the
    padding, read as 0) and of the weight ln_w j c; then the bias of its unit *)
Record lin := mk_lin { ln_out : nat; ln_d : nat; ln_src : nat -> nat -> option nat; ln_w : nat -> nat -> R; ln_bias : option vec; ln_unit : nat -> nat }.
(** Dense: decomon_layers.py:458-459; Conv2D: K.conv of lines 159-177, entries of a window in the order (ky, kx, channel) *)
Definition lin_of (L : nlayer) : option lin :=
  match L with
  | NDense rows d units kernel bias =>
      Some (mk_lin (rows * units) d (fun j c => Some (j / units * d + c)%nat) (fun j c => kernel c (j mod units)%nat) bias (fun j => j mod units)%nat)
  | NConv2D g kernel bias =>
      let o := cg_out g in
      let kw := wn_k (cg_x g) in let ci := cg_cin g in
      Some (mk_lin (im_size o) (wn_k (cg_y g) * (kw * ci))
        (fun j c => px_src (cg_last g) (cg_y g) (cg_x g) ci (im_y o j) (im_x o j) (c / (kw * ci)) (c mod (kw * ci) / ci) (c mod (kw * ci) mod ci))
        (fun j c => kernel (c / (kw * ci)) (c mod (kw * ci) / ci) (c mod (kw * ci) mod ci) (im_ch o j))%nat bias (im_ch o))
  | _ => None
  end.

(** decomon_layers.py:458-459 and 489-490 (Dense), 185-187 and 241-257 (Conv2D): op_dot(a, kernel_pos) + op_dot(b, kernel_neg),
    then + bias. K.maximum and K.minimum (lines 441-442, 162, 172) do not round *)
Definition float_neuron (op : R -> R -> Prop) (dot : nat -> vec -> vec -> R -> Prop) (F : lin) (a b : vec) (j : nat) (y : R) : Prop :=
  exists p q s,
    dot (ln_d F) (fun c => px a (ln_src F j c)) (fun c => Rmax 0 (ln_w F j c)) p /\
    dot (ln_d F) (fun c => px b (ln_src F j c)) (fun c => Rmin 0 (ln_w F j c)) q /\
    op (p + q) s /\ plus_bias op (ln_bias F) (ln_unit F j) s y.
(** DecomonDense.call and DecomonConv2D.call in interval mode: decomon_layers.py:421-509, 139-255 *)
Definition float_linear (op : R -> R -> Prop) (dot : nat -> vec -> vec -> R -> Prop) (F : lin) (ts ts' : list tensor) : Prop :=
  match ts, ts' with
  | [uc; lc], [uc'; lc'] =>
      forall j, (j < ln_out F)%nat ->
        float_neuron op dot F (uc 0%nat) (lc 0%nat) j (uc' 0%nat j) /\ float_neuron op dot F (lc 0%nat) (uc 0%nat) j (lc' 0%nat j)
  | _, _ => False
  end.
(** Keras Dense and Conv2D: the product with the kernel, then the bias *)
Definition float_keras (op : R -> R -> Prop) (dot : nat -> vec -> vec -> R -> Prop) (F : lin) (x y : vec) : Prop :=
  forall j, (j < ln_out F)%nat -> exists p,
    dot (ln_d F) (fun c => px x (ln_src F j c)) (ln_w F j) p /\ plus_bias op (ln_bias F) (ln_unit F j) p (y j).

(** the merges: sums from the first input to the last *)
Fixpoint chain (op : R -> R -> Prop) (s : R) (l : list R) (y : R) : Prop :=
  match l with [] => y = s | x :: q => exists t, op (s + x) t /\ chain op t q y end.
Definition float_sum (op : R -> R -> Prop) (l : list R) (y : R) : Prop :=
  match l with [] => False | x :: q => chain op x q y end.
Definition float_avg (op : R -> R -> Prop) (l : list R) (y : R) : Prop :=
  exists s, float_sum op l s /\ op (s / INR (length l)) y.
(** Add, Average, Subtract of Keras on the entries of one neuron *)
Definition merge_op (op : R -> R -> Prop) (L : nlayer) : option (list R -> R -> Prop) :=
  match L with
  | NAdd _ _ => Some (float_sum op)
  | NAverage _ _ => Some (float_avg op)
  | NSubtract _ => Some (fun l y => match l with [a; b] => op (a - b) y | _ => False end)
  | _ => None
  end.
(** decomon_merge_layers.py:118-157 (Add), 184-228 (Average): Python's sum, whose first addition 0 + x is x, on the upper
    and on the lower bounds; 259-277 (Subtract) with utils.py:295-340 and 404-440: negations do not round *)
Definition merge_ends (L : nlayer) (lo hi : list R) : list R :=
  match L with NSubtract _ => match hi, lo with a :: _, [_; b] => [a; b] | _, _ => [] end | _ => hi end.
Definition uppers (j : nat) (tss : list (list tensor)) : list R := map (fun ts => nth 0 ts empty_tensor 0%nat j) tss.
Definition lowers (j : nat) (tss : list (list tensor)) : list R := map (fun ts => nth 1 ts empty_tensor 0%nat j) tss.
Definition float_merge (M : list R -> R -> Prop) (L : nlayer) (tss : list (list tensor)) (ts' : list tensor) : Prop :=
  match ts' with
  | [uc'; lc'] => forall j, (j < nl_out L)%nat ->
      M (merge_ends L (lowers j tss) (uppers j tss)) (uc' 0%nat j) /\ M (merge_ends L (uppers j tss) (lowers j tss)) (lc' 0%nat j)
  | _ => False
  end.

(** inner products, sums, and the layers whose interval mode copies entries or compares them (the filters of max pooling,
    maxpooling.py:84-90, have one 1 each: these products do not round) *)
Definition float_layer (L : nlayer) : Prop :=
  match L with
  | NDense _ _ _ _ _ | NConv2D _ _ _ | NAdd _ _ | NAverage _ _ | NSubtract _
  | NFlatten _ _ _ | NReshape _ | NPermute _ _ | NDropout _ | NConcatenate _ _ _ _ | NMaxPool _ => True
  | NActivation a _ => a = Alinear \/ a = Arelu
  | _ => False
  end.

(** clone with method forward-ibp on a box, then a call: the input tensors are entries of the box (models/utils.py:97-143)
    and Convert2Mode from ibp to ibp copies its inputs (models/utils.py:313-331) *)
Definition float_run (op : R -> R -> Prop) (dot : nat -> vec -> vec -> R -> Prop) (ke : R) (n : nat) (opts : nat -> lopts) (net : network) (o : nat) (z : tensor) (r : run) : Prop :=
  get_input_tensors (Some Box) IBP n z = Ok (r_inputs r) /\
  (forall i q ps, nth_error net i = Some (q, ps) ->
     match q with
     | None => r_nodes r i = r_inputs r
     | Some L =>
         match lin_of L, merge_op op L with
         | Some F, _ => float_linear op dot F (concat (map (r_nodes r) ps)) (r_nodes r i)
         | None, Some M => float_merge M L (map (r_nodes r) ps) (r_nodes r i)
         | None, None => decomon_layer ke (mk_spec false IBP Box n) (opts i) L (concat (map (r_nodes r) ps)) = Ok (r_nodes r i)
         end
     end) /\
  convert2mode Box n IBP IBP (r_nodes r o) = Ok (r_out r).

(** the Keras model on the input y *)
Definition float_values (op : R -> R -> Prop) (dot : nat -> vec -> vec -> R -> Prop) (net : network) (y : vec) (a : nat -> vec) : Prop :=
  forall i q ps, nth_error net i = Some (q, ps) ->
    match q with
    | None => forall j, a i j = y j
    | Some L =>
        match lin_of L, merge_op op L with
        | Some F, _ => exists x, map a ps = [x] /\ float_keras op dot F x (a i)
        | None, Some M => forall j, (j < nl_out L)%nat -> M (map (fun p => a p j) ps) (a i j)
        | None, None => computes L (map a ps) (a i)
        end
    end.

(** sum of the absolute values of the numbers added by the layers: during a run, and in the Keras model *)
Definition lin_size (F : lin) (m : vec) (j : nat) : R :=
  rsum (ln_d F) (fun c => Rabs (ln_w F j c) * px m (ln_src F j c)) + Rabs (opt_vec 0 (ln_bias F) (ln_unit F j)).
Definition run_size (A : R) (net : network) (r : run) : Prop :=
  forall i L ps, nth_error net i = Some (Some L, ps) ->
    match lin_of L, merge_op (fun _ _ => True) L with
    | Some F, _ => forall uc lc, concat (map (r_nodes r) ps) = [uc; lc] -> forall j, (j < ln_out F)%nat ->
        lin_size F (fun k => Rmax (Rabs (uc 0%nat k)) (Rabs (lc 0%nat k))) j <= A
    | None, Some _ => forall j, (j < nl_out L)%nat ->
        sum_list (map (fun p => Rmax (Rabs (nth 0 (r_nodes r p) empty_tensor 0%nat j)) (Rabs (nth 1 (r_nodes r p) empty_tensor 0%nat j))) ps) <= A
    | None, None => True
    end.
Definition values_size (A : R) (net : network) (a : nat -> vec) : Prop :=
  forall i L ps, nth_error net i = Some (Some L, ps) ->
    match lin_of L, merge_op (fun _ _ => True) L with
    | Some F, _ => forall x, map a ps = [x] -> forall j, (j < ln_out F)%nat -> lin_size F (fun k => Rabs (x k)) j <= A
    | None, Some _ => forall j, (j < nl_out L)%nat -> sum_list (map (fun p => Rabs (a p j)) ps) <= A
    | None, None => True
    end.
(** a merge of m inputs rounds at most m times *)
Definition merges_within (k : nat) (net : network) : Prop :=
  forall i L ps, nth_error net i = Some (Some L, ps) -> merge_op (fun _ _ => True) L <> None -> (length ps <= k)%nat.
(** the weights of every output of every layer have one sign *)
Definition one_sign (net : network) : Prop :=
  forall i L ps F, nth_error net i = Some (Some L, ps) -> lin_of L = Some F ->
    forall j, (j < ln_out F)%nat -> (forall c, (c < ln_d F)%nat -> 0 <= ln_w F j c) \/ (forall c, (c < ln_d F)%nat -> ln_w F j c <= 0).
