(** The methods crown and crown-forward-ibp in interval mode on a box, in floating-point arithmetic: Dense, Conv2D, relu, BatchNormalization, and the layers that copy
    entries. Definitions only. [op x y]: y is a result of the operation of exact result x. [dot d x w y]: y is a result of
    the inner product of the d first entries of x and w. A: bound on the sums of absolute values of the numbers added. *)
From Coq Require Import Reals List Arith Bool ZArith.
From Verif Require Import RLib Spec Spec_Layers Spec_Backward Spec_Network Spec_Near Spec_Rounding Spec_Float Spec_FloatAffine Spec_FloatCrown M_Core M_Utils M_MergeLayers M_Ops M_Layers M_Pool M_Backward M_Crown M_Convert M_Network M_Rounding M_RoundingCrown M_Float M_FloatMerge M_FloatNet M_FloatHull M_FloatAffine.
Import ListNotations.
Local Open Scope R_scope.

(** the layers below *)
Definition crown_layer (L : nlayer) : Prop :=
  match L with
  | NDense _ _ _ _ _ | NConv2D _ _ _ | NFlatten _ _ _ | NReshape _ | NPermute _ _ | NDropout _ => True
  | NActivation a _ => a = Alinear \/ a = Arelu
  | _ => False
  end.
Definition crown_layer_bn (L : nlayer) : Prop :=
  match L with NBatchNorm _ _ _ _ _ _ _ _ _ => True | _ => crown_layer L end.
(** backward_layers.py:593-594: w = gamma / sqrt(moving_variance + epsilon), b = beta - w * moving_mean *)
Definition fl_bn_line (op : R -> R -> Prop) (gamma beta mean var eps w b : R) : Prop :=
  exists s t p, op (var + eps) s /\ op (sqrt s) t /\ op (gamma / t) w /\ op (w * mean) p /\ op (beta - p) b.
(** BackwardXxx.call. The weights of Dense (backward_layers.py:68-97) are entries of the kernel and zeros; so are those of
    Conv2D (utils_conv.py:33-100: of the products of patches of the identity and of the kernel that are added, one at most
    is not 0); Flatten, Reshape, Permute and Dropout: entries of the identity. relu: activations.py:42-87.
    BatchNormalization: the entries of the identity are multiplied by w (backward_layers.py:596-606), without rounding *)
Definition float_backward (op : R -> R -> Prop) (ke : R) (n : nat) (o : bopts) (L : nlayer) (ts : list tensor) (B : bb) : Prop :=
  match L with
  | NActivation Arelu m =>
      match ts with
      | [u; l] => exists hl : nat -> hull, B = hull_bb hl /\
          forall j, (j < m)%nat -> fl_hull_relu op ke (bo_slope o) (option_map (fun v : vec * vec => snd v j) (bo_ft o)) (u 0%nat j) (l 0%nat j) (hl j)
      | _ => False
      end
  | NBatchNorm pre k post axis gamma beta mean var eps =>
      exists w b : vec, (forall c, (c < k)%nat -> fl_bn_line op (opt_vec 1 gamma c) (opt_vec 0 beta c) (mean c) (var c) eps (w c) (b c)) /\
        let s := pre ++ k :: post in
        let w_b : mat := fun i j => (if Nat.eqb i j then 1 else 0) * w (bn_chan s (length pre) i) in
        let b_b : vec := fun j => b (bn_chan s (length pre) j) in
        B = mk_bb w_b b_b w_b b_b
  | _ => backward_call ke (mk_spec false IBP Box n) o L ts = Ok B
  end.

(** size of the numbers of the BatchNormalizations *)
Definition bn_size (u eta A : R) (net : network) : Prop :=
  forall i pre k post axis gamma beta mean var eps ps c, nth_error net i = Some (Some (NBatchNorm pre k post axis gamma beta mean var eps), ps) -> (c < k)%nat ->
    eta <= u * (var c + eps) /\ 2 * eta <= u * sqrt (var c + eps) /\
    let g := Rabs (opt_vec 1 gamma c) / sqrt (var c + eps) in g <= A /\ Rabs (opt_vec 0 beta c) + g * Rabs (mean c) <= A /\ Rabs (mean c) <= A.

(** crown.py:149-186 merge_with_previous: batch_dot(a, w_pos) + batch_dot(b, w_neg), then + b_b for the constant terms *)
Definition merge_lin (n_h k : nat) (w : mat) (b : option vec) : lin := mk_lin k n_h (fun _ c => Some c) (fun j c => w c j) b (fun j => j).
Definition float_merge_bb (op : R -> R -> Prop) (dot : nat -> vec -> vec -> R -> Prop) (n_in n_h k : nat) (B C M : bb) : Prop :=
  forall j, (j < k)%nat ->
    (forall i, (i < n_in)%nat ->
       float_neuron op dot (merge_lin n_h k (bb_wu C) None) (bb_wu B i) (bb_wl B i) j (bb_wu M i j) /\
       float_neuron op dot (merge_lin n_h k (bb_wl C) None) (bb_wl B i) (bb_wu B i) j (bb_wl M i j)) /\
    float_neuron op dot (merge_lin n_h k (bb_wu C) (Some (bb_bu C))) (bb_bu B) (bb_bl B) j (bb_bu M j) /\
    float_neuron op dot (merge_lin n_h k (bb_wl C) (Some (bb_bl C))) (bb_bl B) (bb_bu B) j (bb_bl M j).
Definition merge_size (A : R) (n_in n_h k : nat) (B C : bb) : Prop :=
  forall j, (j < k)%nat ->
    (forall i, (i < n_in)%nat ->
       rsum n_h (fun c => Rabs (bb_wu C c j) * Rmax (Rabs (bb_wu B i c)) (Rabs (bb_wl B i c))) <= A /\
       rsum n_h (fun c => Rabs (bb_wl C c j) * Rmax (Rabs (bb_wu B i c)) (Rabs (bb_wl B i c))) <= A) /\
    rsum n_h (fun c => Rabs (bb_wu C c j) * Rmax (Rabs (bb_bu B c)) (Rabs (bb_bl B c))) + Rabs (bb_bu C j) <= A /\
    rsum n_h (fun c => Rabs (bb_wl C c j) * Rmax (Rabs (bb_bu B c)) (Rabs (bb_bl B c))) + Rabs (bb_bl C j) <= A.

(** backward_cloning.py:82-215 crown_: the backward layer of a node, MergeWithPrevious when bounds are received, then the
    parent; Fuse in ibp mode (crown.py:18-29) copies them *)
Definition float_merged (op : R -> R -> Prop) (dot : nat -> vec -> vec -> R -> Prop) (A : R) (n_in n_h k : nat) (B : bb) (back : option bb) (M : bb) : Prop :=
  match back with
  | None => M = B
  | Some C => float_merge_bb op dot n_in n_h k B C M /\ merge_size A n_in n_h k B C
  end.
Inductive fcrown (op : R -> R -> Prop) (dot : nat -> vec -> vec -> R -> Prop) (ke A : R) (n : nat) (bo : nat -> bopts) (net : network) (imap : nat -> list tensor) (k : nat) :
    nat -> option bb -> bb -> Prop :=
| fc_input : forall i back M, nth_error net i = Some (None, []) -> float_merged op dot A n n k backward_identity back M ->
    fcrown op dot ke A n bo net imap k i back M
| fc_layer : forall i L p back B M F, nth_error net i = Some (Some L, [p]) ->
    float_backward op ke n (bo i) L (imap i) B -> float_merged op dot A (nth 0 (nl_in L) O) (nl_out L) k B back M ->
    fcrown op dot ke A n bo net imap k p (Some M) F -> fcrown op dot ke A n bo net imap k i back F.

(** lines 218-282 get_input_nodes: the relaxation of the node p, then Convert2BackwardMode (crown.py:66-92): the bounds of the
    lines over the box; x: its corners, as concatenated from the input tensors [u; l]; X: bound on their entries *)
Definition box_of (its : list tensor) : tensor := fun c => if Nat.eqb c 0 then nth 1 its empty_tensor 0%nat else nth 0 its empty_tensor 0%nat.
Definition fnode (op : R -> R -> Prop) (dot : nat -> vec -> vec -> R -> Prop) (ke X A : R) (n : nat) (bo : nat -> bopts) (net : network) (imap : nat -> list tensor) (its : list tensor)
    (p : nat) (ts : list tensor) : Prop :=
  exists B u l, fcrown op dot ke A n bo net imap (net_dim n net p) p None B /\ ts = [u; l] /\
    forall j, (j < net_dim n net p)%nat ->
      fl_upper op dot n (box_of its) (bb_wu B) (vt (bb_bu B)) j (u 0%nat j) /\ fl_lower op dot n (box_of its) (bb_wl B) (vt (bb_bl B)) j (l 0%nat j) /\
      line_size n X (bb_wu B) (bb_bu B) j <= A /\ line_size n X (bb_wl B) (bb_bl B) j <= A /\ Rabs (u 0%nat j) <= A /\ Rabs (l 0%nat j) <= A.

(** the forward pass of crown-forward-ibp (convert.py:130-150, M_FloatNet.float_run_all: no Maximum, Minimum or Multiply, hence no
    intermediate results), its sizes, and the fact that the box is made of numbers of the arithmetic: an operation of exact result
    x may return x *)
Definition float_forward (op : R -> R -> Prop) (dot : nat -> vec -> vec -> R -> Prop) (ke A : R) (n : nat) (opts : nat -> lopts) (net : network) (o : nat) (z : tensor) (its : list tensor)
    (f : nat -> list tensor) : Prop :=
  let q := mk_run its f (f o) in
  float_run_all op dot ke n opts net o z (fun _ _ => []) q /\ run_size A net q /\
  (forall i, (i < n)%nat -> op (z 0%nat i) (z 0%nat i) /\ op (z 1%nat i) (z 1%nat i)) /\
  forall p, (p < length net)%nat -> exists u l, f p = [u; l] /\ forall j, (j < net_dim n net p)%nat -> Rabs (u 0%nat j) <= A /\ Rabs (l 0%nat j) <= A.
(** clone with method crown (c_fwd r = None) or crown-forward-ibp in interval mode on a box, then a call (backward_cloning.py:285-463):
    the bounds of every node, in order, or those of the forward pass, then those of the output o; Convert2Mode from ibp to ibp copies them *)
Definition float_crown (op : R -> R -> Prop) (dot : nat -> vec -> vec -> R -> Prop) (ke X A : R) (n : nat) (opts : nat -> lopts) (bo : nat -> bopts) (net : network) (o : nat) (z : tensor) (r : crun) : Prop :=
  (match c_fwd r with None => True | Some f => float_forward op dot ke A n opts net o z (c_inputs r) f end) /\ get_input_tensors (Some Box) IBP n z = Ok (c_inputs r) /\
  (forall i q ps, nth_error net i = Some (q, ps) ->
     match ps with
     | [] => c_nodes r i = c_inputs r
     | [p] => match c_fwd r with Some f => c_nodes r i = f p | None => fnode op dot ke X A n bo net (c_nodes r) (c_inputs r) p (c_nodes r i) end
     | _ => False
     end) /\
  fnode op dot ke X A n bo net (c_nodes r) (c_inputs r) o (c_last r) /\ c_out r = c_last r.
