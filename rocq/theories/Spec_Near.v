(** Bounds that enclose a function up to an error, and how far the layers of a network amplify such an error. Nothing in
    this file depends on the model files. *)
From Coq Require Import Reals List Arith Bool ZArith.
From Verif Require Import RLib Spec Spec_Layers Spec_Network.
Import ListNotations.
Local Open Scope R_scope.

Definition const_near (S : vec -> Prop) (m : nat) (e : R) (f : vec -> vec) (u l : vec) : Prop :=
  forall z j, S z -> (j < m)%nat -> l j - e <= f z j <= u j + e.
Definition affine_near (S : vec -> Prop) (n m : nat) (e : R) (f : vec -> vec) (wu : mat) (bu : vec) (wl : mat) (bl : vec) : Prop :=
  forall z j, S z -> (j < m)%nat -> aff n wl bl z j - e <= f z j <= aff n wu bu z j + e.

(** [valid] up to the error e, without decomposition *)
Definition near (D : domain) (mode : fmode) (S : vec -> Prop) (n m : nat) (e : R) (f : vec -> vec) (ts : list tensor) : Prop :=
  match mode, ts with
  | IBP, [u; l] => const_near S m e f (u 0%nat) (l 0%nat)
  | AFFINE, [x; wu; bu; wl; bl] =>
      (forall z, S z -> in_dom D n x z) /\ affine_near S n m e f wu (bu 0%nat) wl (bl 0%nat)
  | HYBRID, [x; u; wu; bu; l; wl; bl] =>
      (forall z, S z -> in_dom D n x z) /\ const_near S m e f (u 0%nat) (l 0%nat) /\ affine_near S n m e f wu (bu 0%nat) wl (bl 0%nat)
  | _, _ => False
  end.

(** layers that compute a piecewise affine function *)
Definition nl_piecewise (L : nlayer) : Prop :=
  match L with
  | NDense _ _ _ _ _ | NConv2D _ _ _ | NBatchNorm _ _ _ _ _ _ _ _ _ | NFlatten _ _ _ | NReshape _ | NPermute _ _ | NDropout _
  | NMaxPool _ | NAdd _ _ | NAverage _ _ | NSubtract _ | NMaximum _ _ | NMinimum _ _ | NConcatenate _ _ _ _ => True
  | NActivation a _ => a = Alinear \/ a = Arelu
  | _ => False
  end.

(** by how much a layer amplifies an error of its inputs *)
Definition nl_gain (L : nlayer) : R :=
  match L with
  | NDense _ d units kernel _ => rsum d (fun c => rsum units (fun u => Rabs (kernel c u)))
  | NConv2D g kernel _ =>
      rsum (wn_k (cg_y g)) (fun ky => rsum (wn_k (cg_x g)) (fun kx => rsum (cg_cin g) (fun c => rsum (cg_cout g) (fun f => Rabs (kernel ky kx c f)))))
  | NBatchNorm _ k _ _ gamma _ _ var eps => rsum k (fun c => Rabs (opt_vec 1 gamma c) / sqrt (var c + eps))
  | NActivation Arelu _ => 2
  | NMaxPool g => 6 ^ (wn_k (cg_y g) * wn_k (cg_x g))
  | NAdd _ k => INR k
  | NSubtract _ => 2
  | NMaximum _ k | NMinimum _ k => 6 ^ k
  | _ => 1
  end.

(** error of a network in units of epsilon: it only depends on the weights *)
Definition net_slack (net : network) : R :=
  fold_left (fun K nod => match fst nod with None => K | Some L => Rmax 1 (nl_gain L) * (K + 1) end) net 0.
