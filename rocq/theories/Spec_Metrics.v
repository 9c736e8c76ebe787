(** Specification vocabulary for the losses and metrics (C55-C60). *)
From Coq Require Import Reals List Arith Bool ZArith.
From Verif Require Import RLib Spec M_Core M_Metrics Spec_Convert Spec_Wrapper.
Import ListNotations.
Local Open Scope R_scope.

(** M is the largest of k values *)
Definition largest (k : nat) (g : vec) (M : R) : Prop :=
  (forall j, (j < k)%nat -> g j <= M) /\ exists j, (j < k)%nat /\ g j = M.
Definition average (l : list R) : R := sum_list l / INR (length l).

(** labels with entries 0 and 1; t is a wrong class and s a right one *)
Definition mask01 (k : nat) (y : vec) : Prop := forall j, (j < k)%nat -> y j = 0 \/ y j = 1.
Definition label_pair (y : vec) (t s : nat) : Prop := y t = 0 /\ y s = 1.
Definition some_pair (k : nat) (y : vec) : Prop := exists t s, (t < k)%nat /\ (s < k)%nat /\ label_pair y t s.

(** cross-entropy of class i for the logits v *)
Definition cross_entropy (k : nat) (v : vec) (i : nat) : R := - v i + ln (rsum k (fun j => exp (v j))).

(** v is the largest gap between the upper bounds held by ts and the reference; in hybrid mode the smallest of both gaps *)
Definition upper_gap (mode : fmode) (n k : nat) (ref : vec) (ts : list tensor) (v : R) : Prop :=
  let const (u : tensor) := largest k (fun j => u 0%nat j - ref j) in
  let lin (x w b : tensor) v := exists U : vec, (forall j, (j < k)%nat -> is_max (in_box n (x 0%nat) (x 1%nat)) (fun z => aff n w (b 0%nat) z j) (U j)) /\
    largest k (fun j => U j - ref j) v in
  match mode, ts with
  | IBP, [u; l] => const u v
  | AFFINE, [x; wu; bu; wl; bl] => lin x wu bu v
  | HYBRID, [x; u; wu; bu; l; wl; bl] => exists a b, const u a /\ lin x wu bu b /\ v = Rmin a b
  | _, _ => False
  end.
Definition lower_gap (mode : fmode) (n k : nat) (ref : vec) (ts : list tensor) (v : R) : Prop :=
  let const (l : tensor) := largest k (fun j => ref j - l 0%nat j) in
  let lin (x w b : tensor) v := exists L : vec, (forall j, (j < k)%nat -> is_min (in_box n (x 0%nat) (x 1%nat)) (fun z => aff n w (b 0%nat) z j) (L j)) /\
    largest k (fun j => ref j - L j) v in
  match mode, ts with
  | IBP, [u; l] => const l v
  | AFFINE, [x; wu; bu; wl; bl] => lin x wl bl v
  | HYBRID, [x; u; wu; bu; l; wl; bl] => exists a b, const l a /\ lin x wl bl b /\ v = Rmin a b
  | _, _ => False
  end.

(** a slice is the row / the matrix v, with its shape *)
Definition is_row (k : nat) (a : marr) (v : vec) : Prop := m_r a = 1%nat /\ m_c a = k /\ forall j, (j < k)%nat -> m_v a 0%nat j = v j.
Definition is_mat (n k : nat) (a : marr) (v : mat) : Prop := m_r a = n /\ m_c a = k /\ forall i j, (i < n)%nat -> (j < k)%nat -> m_v a i j = v i j.
Definition components (D : domain) : nat := match D with Box => 2 | Ball _ _ => 1 end.
(** the slices are the tensors ts *)
Definition recovered (D : domain) (mode : fmode) (n k : nat) (ts : list tensor) (s : sliced) : Prop :=
  let x_ok (x : tensor) := forall c i, (c < components D)%nat -> (i < n)%nat -> s_x s c i = x c i in
  match mode, ts with
  | IBP, [u; l] => is_row k (s_u s) (u 0%nat) /\ is_row k (s_l s) (l 0%nat)
  | AFFINE, [x; wu; bu; wl; bl] => x_ok x /\ is_mat n k (s_wu s) wu /\ is_row k (s_bu s) (bu 0%nat) /\
      is_mat n k (s_wl s) wl /\ is_row k (s_bl s) (bl 0%nat)
  | HYBRID, [x; u; wu; bu; l; wl; bl] => x_ok x /\ is_row k (s_u s) (u 0%nat) /\ is_mat n k (s_wu s) wu /\ is_row k (s_bu s) (bu 0%nat) /\
      is_row k (s_l s) (l 0%nat) /\ is_mat n k (s_wl s) wl /\ is_row k (s_bl s) (bl 0%nat)
  | _, _ => False
  end.

(** the box of the outputs of an affine model has a point *)
Definition box_ok (mode : fmode) (n : nat) (ts : list tensor) : Prop :=
  match mode, ts with
  | IBP, _ => True
  | _, x :: _ => forall i, (i < n)%nat -> x 0%nat i <= x 1%nat i
  | _, [] => False
  end.
(** the arrays of a batch, built by get_model: reference or label, outputs of the model *)
Definition packed (D : domain) (mode : fmode) (n k : nat) (outs : list (vec * list tensor)) (batch : list sample) : Prop :=
  Forall2 (fun o a => fst a = fst o /\ get_model D mode n k (snd o) = Ok (snd a)) outs batch.

(** the inputs of the metric layers: an ignored tensor, the domain tensor, the bounds and the label *)
Definition metric_inputs (mode : fmode) (ignored z : tensor) (ts : list tensor) (y : tensor) : list tensor :=
  match mode with IBP => ignored :: z :: ts ++ [y] | _ => ignored :: ts ++ [y] end.

(** u and l are the tightest constant bounds that the tensors ts give on the domain *)
Definition tightest (D : domain) (mode : fmode) (n : nat) (ts : list tensor) (u l : tensor) : Prop :=
  match mode, ts with
  | IBP, [u'; l'] => u = u' /\ l = l'
  | AFFINE, [x; wu; bu; wl; bl] => best_upper D n x wu bu None u /\ best_lower D n x wl bl None l
  | HYBRID, [x; u'; wu; bu; l'; wl; bl] => best_upper D n x wu bu (Some u') u /\ best_lower D n x wl bl (Some l') l
  | _, _ => False
  end.
(** the domain of the tensors has a point *)
Definition inhabited_dom (D : domain) (mode : fmode) (n : nat) (ts : list tensor) : Prop :=
  match mode, ts with
  | IBP, _ => True
  | _, x :: _ => match D with Box => forall i, (i < n)%nat -> x 0%nat i <= x 1%nat i | Ball eps _ => 0 <= eps end
  | _, [] => False
  end.
(** the upper bound of output j stays below the lower bound of output c on the whole box *)
Definition separated (n : nat) (x wu bu wl bl : tensor) (j c : nat) : Prop :=
  forall z, in_box n (x 0%nat) (x 1%nat) z -> aff n wu (bu 0%nat) z j < aff n wl (bl 0%nat) z c.
(** the affine bounds held by ts *)
Definition affine_part (mode : fmode) (ts : list tensor) (x wu bu wl bl : tensor) : Prop :=
  match mode with
  | IBP => False
  | AFFINE => ts = [x; wu; bu; wl; bl]
  | HYBRID => exists u l, ts = [x; u; wu; bu; l; wl; bl]
  end.
(** the value of one sample: the score of the pairs, clipped, then through the sigmoid *)
Definition shaped (sigm : bool) (clip : option R) (v : R) : R :=
  let c := match clip with Some c => Rmax v c | None => v end in if sigm then / (1 + exp (- c)) else c.

(** largest value of the k x k entries at positions allowed by pairs, over a domain *)
Definition pair_dom_max (D : domain) (n k : nat) (x : tensor) (pairs : nat -> nat -> Prop) (g : nat -> nat -> vec -> R) (v : R) : Prop :=
  (forall t s z, (t < k)%nat -> (s < k)%nat -> pairs t s -> in_dom D n x z -> g t s z <= v) /\
  exists t s z, (t < k)%nat /\ (s < k)%nat /\ pairs t s /\ in_dom D n x z /\ g t s z = v.
(** sum of the outputs weighted by y *)
Definition weighted (k : nat) (y v : vec) : R := rsum k (fun j => y j * v j).
(** the same inputs with the bounds of a backward pass before the label *)
Definition metric_inputs_b (mode : fmode) (ignored z : tensor) (ts : list tensor) (wub bub wlb blb y : tensor) : list tensor :=
  match mode with IBP => ignored :: z :: ts ++ [wub; bub; wlb; blb; y] | _ => ignored :: ts ++ [wub; bub; wlb; blb; y] end.
(** the domain tensor among the inputs of a metric layer *)
Definition domain_tensor (mode : fmode) (z : tensor) (ts : list tensor) : tensor :=
  match mode, ts with IBP, _ => z | _, x :: _ => x | _, [] => z end.
(** g is the cross-entropy of every class of the logits f, classes on the last axis *)
Definition cross_entropy_of (pre : list nat) (k : nat) (f g : vec -> vec) : Prop :=
  forall z p c, in_shape pre p -> (c < k)%nat ->
    g z (ravel (pre ++ [k]) (p ++ [c])) = cross_entropy k (fun c' => f z (ravel (pre ++ [k]) (p ++ [c']))) c.
