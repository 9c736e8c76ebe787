(** Specification vocabulary for the user functions (C46-C54). *)
From Coq Require Import Reals List Arith Bool ZArith.
From Verif Require Import RLib Spec M_State M_Wrapper.
Import ListNotations.
Local Open Scope R_scope.

(** an array of samples of n values each *)
Definition rows_of {A} (n : nat) (a : arr A) : Prop := Forall (fun r => length r = n) (a_rows a).
(** value j of sample b *)
Definition cell (a : arr R) (b j : nat) : R := nth j (nth b (a_rows a) []) 0.
Definition cellz (a : arr Z) (b j : nat) : Z := nth j (nth b (a_rows a) []) 0%Z.
Definition lvec (l : list R) : vec := fun i => nth i l 0.
(** sample b of the boxes *)
Definition the_box (xmin xmax : arr R) (b : nat) : box := (nth b (a_rows xmin) [], nth b (a_rows xmax) []).
Definition in_sample (n : nat) (p : box) (z : vec) : Prop := in_box n (lvec (fst p)) (lvec (snd p)) z.
(** two arrays of boxes over n inputs *)
Definition boxes_ok (n : nat) (xmin xmax : arr R) : Prop :=
  (0 < n)%nat /\ rows_of n xmin /\ rows_of n xmax /\ alen xmin = alen xmax /\ (0 < alen xmin)%nat.
(** every box is non-empty *)
Definition consistent (n : nat) (xmin xmax : arr R) : Prop :=
  forall b i, (b < alen xmin)%nat -> (i < n)%nat -> cell xmin b i <= cell xmax b i.

(** the mode of the outputs of a DecomonModel *)
Definition wmode (m : wmodel) : option fmode :=
  match wm_ibp m, wm_affine m with
  | true, true => Some HYBRID | false, true => Some AFFINE | true, false => Some IBP | false, false => None
  end.

(** the model bounds f on the box p *)
Definition sound_on (m : wmodel) (f : vec -> vec) (p : box) : Prop :=
  exists mode ts dc, wmode m = Some mode /\ wm_predict m (wm_domain m) (ztensor p) None = Ok ts /\
    valid Box mode dc (in_sample (wm_n m) p) (wm_n m) (wm_k m) f ts.

(** box p' is included in box p *)
Definition sub_of (n : nat) (p' p : box) : Prop :=
  length (fst p') = n /\ length (snd p') = n /\
  forall i, (i < n)%nat -> lvec (fst p) i <= lvec (fst p') i <= lvec (snd p') i /\ lvec (snd p') i <= lvec (snd p) i.

(** sub-box i of sample b in the arrays returned by refine_boxes *)
Definition sub_box (n : nat) (a c : arr R) (b i : nat) : box :=
  (firstn n (skipn (i * n) (nth b (a_rows a) [])), firstn n (skipn (i * n) (nth b (a_rows c) []))).

(** ** Labels *)

(** a 0/1 mask of k classes for each of the samples *)
Definition mask_ok (B k : nat) (a : arr Z) : Prop :=
  alen a = B /\ rows_of k a /\ forall b j, (b < B)%nat -> (j < k)%nat -> cellz a b j = 0%Z \/ cellz a b j = 1%Z.
(** (t, s) is a pair (target, source) of sample b *)
Definition pair_of (src : arr Z) (tgt : option (arr Z)) (b t s : nat) : Prop :=
  cellz src b s = 1%Z /\ match tgt with None => cellz src b t = 0%Z | Some a => cellz a b t = 1%Z end.
(** z is not adversarial for sample b *)
Definition no_attack (k : nat) (pairs : nat -> nat -> Prop) (f : vec -> vec) (z : vec) : Prop :=
  forall t s, (t < k)%nat -> (s < k)%nat -> pairs t s -> f z t < f z s.

(** M is the largest value over the pairs *)
Definition pair_max (k : nat) (pairs : nat -> nat -> Prop) (g : nat -> nat -> R) (M : R) : Prop :=
  (forall t s, (t < k)%nat -> (s < k)%nat -> pairs t s -> g t s <= M) /\
  exists t s, (t < k)%nat /\ (s < k)%nat /\ pairs t s /\ g t s = M.
(** M is the largest value over the pairs and the points of the box x *)
Definition pair_box_max (n k : nat) (x : tensor) (pairs : nat -> nat -> Prop) (g : nat -> nat -> vec -> R) (M : R) : Prop :=
  (forall t s z, (t < k)%nat -> (s < k)%nat -> pairs t s -> in_box n (x 0%nat) (x 1%nat) z -> g t s z <= M) /\
  exists t s z, (t < k)%nat /\ (s < k)%nat /\ pairs t s /\ in_box n (x 0%nat) (x 1%nat) z /\ g t s z = M.

(** the score of one sample, from the outputs of the model *)
Definition is_score (mode : fmode) (n k : nat) (pairs : nat -> nat -> Prop) (ts : list tensor) (M : R) : Prop :=
  let const (u l : tensor) := pair_max k pairs (fun t s => u 0%nat t - l 0%nat s) in
  let lin (x wu bu wl bl : tensor) := pair_box_max n k x pairs (fun t s z => aff n wu (bu 0%nat) z t - aff n wl (bl 0%nat) z s) in
  match mode, ts with
  | IBP, u :: l :: _ => const u l M
  | AFFINE, x :: wu :: bu :: wl :: bl :: _ => lin x wu bu wl bl M
  | HYBRID, x :: u :: wu :: bu :: l :: wl :: bl :: _ => exists a b, const u l a /\ lin x wu bu wl bl b /\ M = Rmin a b
  | _, _ => False
  end.

(** the score of check_adv_box: the largest lower bound of a target minus upper bound of a source *)
Definition is_check (mode : fmode) (n k : nat) (pairs : nat -> nat -> Prop) (p : box) (ts : list tensor) (M : R) : Prop :=
  let lin (wu bu wl bl : tensor) := pair_box_max n k (ztensor p) pairs (fun t s z => aff n wl (bl 0%nat) z t - aff n wu (bu 0%nat) z s) in
  match mode, ts with
  | IBP, u :: l :: _ => pair_max k pairs (fun t s => l 0%nat t - u 0%nat s) M
  | AFFINE, x :: wu :: bu :: wl :: bl :: _ => lin wu bu wl bl M
  | HYBRID, x :: u :: wu :: bu :: l :: wl :: bl :: _ => lin wu bu wl bl M
  | _, _ => False
  end.
(** the first output of an affine model is its input box *)
Definition keeps_box (mode : fmode) (n : nat) (p : box) (ts : list tensor) : Prop :=
  match mode, ts with
  | IBP, _ => True
  | _, x :: _ => forall i, (i < n)%nat -> x 0%nat i = lvec (fst p) i /\ x 1%nat i = lvec (snd p) i
  | _, [] => False
  end.

(** ** Balls *)

(** the DecomonModel with another domain; a Keras model is cloned with it *)
Definition with_domain (a : anymodel) (D : domain) : wmodel :=
  match a with
  | Keras c => c
  | Decomon d => mk_wmodel D (wm_ibp d) (wm_affine d) (wm_bb d) (wm_n d) (wm_out d) (wm_predict d)
  end.
Definition takes_domain (a : anymodel) (D : domain) : Prop :=
  match a with Keras c => wm_domain c = D | Decomon d => same_type D (wm_domain d) = true end.
(** the norms of the documentation *)
Definition known_norm (p : pord) : Prop := p = Pnum 1 \/ p = Pnum 2 \/ p = Pinf.
(** an array of samples over n inputs *)
Definition points_ok (n : nat) (x : arr R) : Prop := (0 < n)%nat /\ rows_of n x /\ (0 < alen x)%nat.
Definition point (x : arr R) (b : nat) : list R := nth b (a_rows x) [].
(** outputs of the model around the point x *)
Definition outputs (m : wmodel) (x : list R) (mode : fmode) (ts : list tensor) : Prop :=
  wmode m = Some mode /\ wm_predict m (wm_domain m) (xtensor x) None = Ok ts /\ exists dc, length ts = spec_nb mode dc.
(** the model bounds f on the set S around the point x *)
Definition sound_around (m : wmodel) (f : vec -> vec) (S : vec -> Prop) (x : list R) : Prop :=
  exists mode ts dc, wmode m = Some mode /\ wm_predict m (wm_domain m) (xtensor x) None = Ok ts /\
    valid (wm_domain m) mode dc S (wm_n m) (wm_k m) f ts.

(** the range of output j: the constant bounds and the extrema of the affine bounds on the ball *)
Definition is_range (mode : fmode) (n : nat) (p : pord) (eps : R) (c : vec) (ts : list tensor) (j : nat) (U L : R) : Prop :=
  let up (w b : tensor) := is_max (in_ball n p eps c) (fun z => aff n w (b 0%nat) z j) in
  let low (w b : tensor) := is_min (in_ball n p eps c) (fun z => aff n w (b 0%nat) z j) in
  match mode, ts with
  | IBP, u :: l :: _ => U = u 0%nat j /\ L = l 0%nat j
  | AFFINE, _ :: wu :: bu :: wl :: bl :: _ => up wu bu U /\ low wl bl L
  | HYBRID, _ :: u :: wu :: bu :: l :: wl :: bl :: _ => exists a b, up wu bu a /\ low wl bl b /\ U = Rmin (u 0%nat j) a /\ L = Rmax (l 0%nat j) b
  | _, _ => False
  end.

(** the largest difference between the constant bounds of a target and of a source *)
Definition is_gap (k : nat) (pairs : nat -> nat -> Prop) (ts : list tensor) (M : R) : Prop :=
  match ts with u :: l :: _ => pair_max k pairs (fun t s => u 0%nat t - l 0%nat s) M | _ => False end.

(** ** Arguments *)

(** the model used: the clone of a Keras model, or the model itself *)
Definition the_model (a : anymodel) : wmodel := match a with Keras c => c | Decomon d => d end.
(** no sub-boxes *)
Definition small (k : Z) : Prop := (k <= 1)%Z.
Definition mask_opt (B k : nat) (tgt : option (arr Z)) : Prop := match tgt with None => True | Some t => mask_ok B k t end.
(** model, arrays and labels accepted by get_adv_box *)
Definition adv_args (a : anymodel) (xmin xmax : arr R) (src : arr Z) (tgt : option (arr Z)) : Prop :=
  let m := the_model a in
  is_box (wm_domain m) = true /\ (0 < wm_k m)%nat /\ boxes_ok (wm_n m) xmin xmax /\ consistent (wm_n m) xmin xmax /\
  mask_ok (alen xmin) (wm_k m) src /\ mask_opt (alen xmin) (wm_k m) tgt.
(** a 0/1 row with exactly one 1 *)
Definition one_hot (k : nat) (r : list Z) (c : nat) : Prop := (c < k)%nat /\ length r = k /\ forall j, (j < k)%nat -> nth j r 0%Z = if (j =? c)%nat then 1%Z else 0%Z.
(** the model called with the back bounds C bounds the outputs sum_i f_i C_ij *)
Definition sound_back (m : wmodel) (f : vec -> vec) (p : box) (C : mat) : Prop :=
  exists mode ts dc, wmode m = Some mode /\ wm_predict m (wm_domain m) (ztensor p) (Some C) = Ok ts /\
    valid Box mode dc (in_sample (wm_n m) p) (wm_n m) (wm_k m) (fun z j => rsum (wm_k m) (fun i => f z i * C i j)) ts.
(** labels given as one integer, or as one integer per sample *)
Definition int_labels (l : labels) (B : nat) : Prop := match l with LInt _ => True | LArr a => rows_of 1 a /\ alen a = B end.
(** the model bounds f, without difference of convex functions, and returns its input box *)
Definition check_ok (m : wmodel) (f : vec -> vec) (p : box) : Prop :=
  exists mode ts, wmode m = Some mode /\ wm_predict m (wm_domain m) (ztensor p) None = Ok ts /\
    valid Box mode false (in_sample (wm_n m) p) (wm_n m) (wm_k m) f ts /\ keeps_box mode (wm_n m) p ts.
(** model, points and labels accepted by get_adv_noise *)
Definition noise_args (d : wmodel) (x : arr R) (src : arr Z) (tgt : option (arr Z)) (eps : R) (p : pord) : Prop :=
  let m := with_domain (Decomon d) (Ball eps p) in
  0 <= eps /\ is_box (wm_domain d) = false /\ (0 < wm_k m)%nat /\ points_ok (wm_n m) x /\ mask_ok (alen x) (wm_k m) src /\ mask_opt (alen x) (wm_k m) tgt /\
  forall b, (b < alen x)%nat -> exists mode ts, outputs m (point x b) mode ts.

(** ** Tuning: whatever the coefficients the model keeps its shape and bounds f on the boxes of the set P *)
Definition tuner_on {C} (T : tuner C) (c : C) (f : vec -> vec) (P : box -> Prop) : Prop :=
  (forall q, let m := tu_ev T q in is_box (wm_domain m) = true /\ wm_bb m = false /\ wm_n m = wm_n (tu_ev T c) /\ wm_out m = wm_out (tu_ev T c) /\
     forall p, P p -> sound_on m f p) /\
  (* resetting restores the initial coefficients *)
  forall q, tu_ev T (tu_reset T q) = tu_ev T c.
Definition tuner_ok {C} (T : tuner C) (c : C) (f : vec -> vec) (xmin xmax : arr R) : Prop :=
  tuner_on T c f (fun p => exists b, (b < alen xmin)%nat /\ p = the_box xmin xmax b).
(** on the sub-boxes too *)
Definition tuner_sub_ok {C} (T : tuner C) (c : C) (f : vec -> vec) (xmin xmax : arr R) : Prop :=
  tuner_on T c f (fun p => exists b, (b < alen xmin)%nat /\ sub_of (wm_n (tu_ev T c)) p (the_box xmin xmax b)).
