(** Model of src/decomon/utils.py. Definitions only.
    [ke] is keras.config.epsilon(). Element-wise code is written per neuron and lifted. *)
From Coq Require Import Reals List Arith Bool.
From Verif Require Import RLib Spec M_Core.
Import ListNotations.
Local Open Scope R_scope.

(** a linear hull of one neuron: [w_u, b_u, w_l, b_l] *)
Record hull := mk_hull { h_wu : R; h_bu : R; h_wl : R; h_bl : R }.

(** src/decomon/utils.py:128-201 get_linear_hull_relu (no "upper_grid" in kwargs).
    [ft] is kwargs["finetune"] for the neuron. *)
Definition index_dead (u : R) : R := - Rclip (Rsgn u - 1) (-1) 0.
Definition index_linear (l : R) : R := Rclip (Rsgn l + 1) 0 1.

Definition hull_relu (ke : R) (sl : slope) (ft : option R) (u l : R) : hull :=
  let alpha := (Rrelu u - Rrelu l) / Rmax ke (u - l) in
  let w_u := alpha in
  let b_u := Rrelu l - alpha * l in
  let '(w_l, b_l) :=
    match sl with
    | V_SLOPE => let index_a := - Rclip (Rsgn (u + l) - 1) (-1) 0 in (1 - index_a, 0 * b_u)
    | A_SLOPE => (Rclip (Rsgn (w_u - 1/2)) 0 1, 0 * b_u)
    | Z_SLOPE => (0 * w_u, 0 * b_u)
    | O_SLOPE => (0 * w_u + 1, 0 * b_u)
    | S_SLOPE => (w_u, 0 * b_u)
    end in
  let gamma := match ft with Some g => g | None => 1 end in
  let w_l := gamma * w_l + (1 - gamma) * (1 - w_l) in
  let d := index_dead u in
  let k := index_linear l in
  mk_hull ((1 - k) * ((1 - d) * w_u) + k) ((1 - k) * ((1 - d) * b_u))
          ((1 - k) * ((1 - d) * w_l) + k) ((1 - k) * ((1 - d) * b_l)).

(** kwargs with "upper_grid": utils.py:175-176 *)
Definition get_linear_hull_relu (ke : R) (sl : slope) (upper_grid : bool) (ft : option R) (u l : R) : result hull :=
  if upper_grid then Err NotImplementedError else Ok (hull_relu ke sl ft u l).

(** src/decomon/utils.py:295-340 add *)
Definition add_full (r0 r1 : full tensor) : full tensor :=
  let p (a b : tensor) : tensor := fun i j => a i j + b i j in
  mk_full (f_x r0) (p (f_uc r0) (f_uc r1)) (p (f_wu r0) (f_wu r1)) (p (f_bu r0) (f_bu r1))
          (p (f_lc r0) (f_lc r1)) (p (f_wl r0) (f_wl r1)) (p (f_bl r0) (f_bl r1))
          (p (f_h r0) (f_h r1)) (p (f_g r0) (f_g r1)).

Definition add (sp : spec) (in0 in1 : list tensor) : result (list tensor) :=
  r0 <- get_fullinputs sp true true in0 ;
  r1 <- get_fullinputs sp true true in1 ;
  Ok (extract (sp_mode sp) (sp_dc sp) (add_full r0 r1)).

(** src/decomon/utils.py:404-440 minus *)
Definition minus_full (r : full tensor) : full tensor :=
  let o (a : tensor) : tensor := fun i j => - a i j in
  mk_full (f_x r) (o (f_lc r)) (o (f_wl r)) (o (f_bl r)) (o (f_uc r)) (o (f_wu r)) (o (f_bu r)) (o (f_g r)) (o (f_h r)).

Definition minus (sp : spec) (ts : list tensor) : result (list tensor) :=
  r <- get_fullinputs sp false false ts ;
  Ok (extract (sp_mode sp) (sp_dc sp) (minus_full r)).

(** src/decomon/utils.py:268-292 subtract *)
Definition subtract (sp : spec) (in0 in1 : list tensor) : result (list tensor) :=
  m1 <- minus sp in1 ;
  add sp in0 m1.

(** src/decomon/utils.py:343-401 relu_ (GridDomain cannot be instantiated: abstract) *)
Definition relu_full (ke : R) (sp : spec) (sl : slope) (ft : option vec) (r : full tensor) : full tensor :=
  let u j := f_uc r 0%nat j in
  let l j := f_lc r 0%nat j in
  let '(h_out, g_out) :=
    if sp_dc sp then
      let h_out : tensor := fun i j => Rmax (f_h r i j) (- f_g r i j) in
      let g_out : tensor := f_g r in
      let h_out : tensor := fun i j => (1 - index_dead (u j)) * h_out i j in
      let g_out : tensor := fun i j => (1 - index_dead (u j)) * g_out i j in
      ((fun i j => (1 - index_linear (l j)) * h_out i j + index_linear (l j) * f_h r i j),
       (fun i j => (1 - index_linear (l j)) * g_out i j + index_linear (l j) * f_g r i j))
    else (empty_tensor, empty_tensor) in
  let '(uc, lc) :=
    if get_ibp (sp_mode sp) then ((fun i j => Rrelu (f_uc r i j)), (fun i j => Rrelu (f_lc r i j)))
    else (empty_tensor, empty_tensor) in
  let '(wu, bu, wl, bl) :=
    if get_affine (sp_mode sp) then
      let hl j := hull_relu ke sl (option_map (fun v => v j) ft) (u j) (l j) in
      ((fun i j => h_wu (hl j) * f_wu r i j), (fun i j => h_wu (hl j) * f_bu r i j + h_bu (hl j)),
       (fun i j => h_wl (hl j) * f_wl r i j), (fun i j => h_wl (hl j) * f_bl r i j + h_bl (hl j)))
    else (empty_tensor, empty_tensor, empty_tensor, empty_tensor) in
  mk_full (f_x r) uc wu bu lc wl bl h_out g_out.

Definition relu_ (ke : R) (sp : spec) (sl : slope) (ft : option vec) (ts : list tensor) : result (list tensor) :=
  r <- get_fullinputs sp true true ts ;
  Ok (extract (sp_mode sp) (sp_dc sp) (relu_full ke sp sl ft r)).

(** src/decomon/utils.py:443-481 maximum: relu_(in1 - in0) + in0, default slope.
    [ft] is kwargs["finetune_params"] when finetune is set. *)
Definition maximum (ke : R) (sp : spec) (ft : option vec) (in0 in1 : list tensor) : result (list tensor) :=
  output_0 <- subtract sp in1 in0 ;
  output_1 <- relu_ ke sp V_SLOPE ft output_0 ;
  add sp output_1 in0.

(** src/decomon/utils.py:484-521 minimum *)
Definition minimum (ke : R) (sp : spec) (ft : option vec) (in0 in1 : list tensor) : result (list tensor) :=
  m0 <- minus sp in0 ;
  m1 <- minus sp in1 ;
  mx <- maximum ke sp ft m0 m1 ;
  minus sp mx.

(** ** s-shaped activations: src/decomon/utils.py:38-75, 204-211, 524-722 *)

(** K.sigmoid, K.tanh, K.softsign and the derivatives of utils.py:38-75 *)
Definition sigmoid (x : R) : R := / (1 + exp (- x)).
Definition softsign (x : R) : R := x / (1 + Rabs x).
Definition sigmoid_prime (x : R) : R := let s := sigmoid x in s * (1 - s).
Definition tanh_prime (x : R) : R := let s := tanh x in 1 - s ^ 2.
Definition softsign_prime (x : R) : R := 1 / (1 + Rabs x) ^ 2.
(** src/decomon/utils.py:24-35 relu_prime *)
Definition relu_prime (x : R) : R := Rclip (Rsgn x) 0 1.

(** K.argmin over 0..k: first index reaching the minimum *)
Fixpoint argmin_to (k : nat) (f : nat -> R) : nat :=
  match k with
  | O => O
  | S k' => let i := argmin_to k' f in if Rlt_dec (f k) (f i) then k else i
  end.

(** np.linspace(0, 1, 100)[k] *)
Definition linspace100 (k : nat) : R := INR k / 99.

(** K.sum(K.where(arange == index_t, t, 0)) *)
Definition pick (t : nat -> R) (index_t : nat) : R :=
  rsum 100 (fun k => if Nat.eqb k index_t then t k else 0).

(** src/decomon/utils.py:610-665 get_t_upper *)
Definition t_upper_value (f fp : R -> R) (u l s_l : R) : R :=
  let t k := linspace100 k * u in
  let score k := Rabs (fp (t k) - (f (t k) - s_l) / (t k - l)) in
  let index := argmin_to 99 score in
  let threshold := rmin 100 score in
  let index_t := if Rlt_dec 0 threshold then index else pred index in
  pick t index_t.

Definition get_t_upper (ke : R) (f fp : R -> R) (u l s_l : R) : R * R :=
  let t_value := t_upper_value f fp u l s_l in
  let s_t := f t_value in
  let w_u := (s_t - s_l) / Rmax ke (t_value - l) in
  (w_u, - w_u * l + s_l).

(** src/decomon/utils.py:668-722 get_t_lower *)
Definition t_lower_value (f fp : R -> R) (u l s_u : R) : R :=
  let t k := linspace100 k * l in
  let score k := Rabs (fp (t k) - (s_u - f (t k)) / (u - t k)) in
  let index := argmin_to 99 score in
  let threshold := rmin 100 score in
  let index_t := if Rlt_dec 0 threshold then index else S index in
  pick t index_t.

Definition get_t_lower (ke : R) (f fp : R -> R) (u l s_u : R) : R * R :=
  let t_value := t_lower_value f fp u l s_u in
  let s_t := f t_value in
  let w_l := (s_u - s_t) / Rmax ke (u - t_value) in
  (w_l, - w_l * u + s_u).

(** src/decomon/utils.py:524-607 get_linear_hull_s_shape, for one neuron *)
Definition hull_s_shape (ke : R) (f fp : R -> R) (u l : R) : hull :=
  let s_u := f u in
  let s_l := f l in
  let coeff := (s_u - s_l) / Rmax ke (u - l) in
  let alpha_u_0 := if Rle_dec coeff (fp u) then 1 else 0 in
  let alpha_u_1 := (1 - alpha_u_0) * ((Rsgn l + 1) / 2) in
  let w_u_0 := coeff in
  let b_u_0 := - w_u_0 * l + s_l in
  let w_u_1 := 0 in
  let b_u_1 := s_u in
  let '(w_u_2, b_u_2) := get_t_upper ke f fp u l s_l in
  let alpha_l_0 := if Rle_dec coeff (fp l) then 1 else 0 in
  let alpha_l_1 := (1 - alpha_l_0) * ((Rsgn (- u) + 1) / 2) in
  let w_l_0 := coeff in
  let b_l_0 := - w_l_0 * u + s_u in
  let w_l_1 := 0 in
  let b_l_1 := s_l in
  let '(w_l_2, b_l_2) := get_t_lower ke f fp u l s_u in
  mk_hull (alpha_u_0 * w_u_0 + alpha_u_1 * w_u_1 + (1 - alpha_u_0 - alpha_u_1) * w_u_2)
          (alpha_u_0 * b_u_0 + alpha_u_1 * b_u_1 + (1 - alpha_u_0 - alpha_u_1) * b_u_2)
          (alpha_l_0 * w_l_0 + alpha_l_1 * w_l_1 + (1 - alpha_l_0 - alpha_l_1) * w_l_2)
          (alpha_l_0 * b_l_0 + alpha_l_1 * b_l_1 + (1 - alpha_l_0 - alpha_l_1) * b_l_2).

(** ** softplus: src/decomon/utils.py:214-265 get_linear_softplus_hull.
    Lines 219-220 evaluate K.softsign, not K.softplus. [ft] = (alpha_u, alpha_l). *)
Definition softplus (x : R) : R := ln (1 + exp x).

Definition hull_softplus (ke : R) (sl : slope) (ft : option (R * R)) (u l : R) : result hull :=
  let u_c := softsign u in
  let l_c := softsign l in
  let alpha := (u_c - l_c) / Rmax ke (u - l) in
  let w_u := alpha in
  let b_u := - alpha * l + l_c in
  lower <- match sl with
           | V_SLOPE => let index_a := - Rclip (Rsgn (u + l) - 1) (-1) 0 in Ok (1 - index_a, 0 * b_u)
           | Z_SLOPE => Ok (0 * w_u, 0 * b_u)
           | O_SLOPE => Ok (0 * w_u + 1, 0 * b_u)
           | S_SLOPE => Ok (w_u, 0 * b_u)
           | A_SLOPE => Err ValueError
           end ;
  let '(w_l, b_l) := lower in
  let d := index_dead u in
  let w_u := (1 - d) * w_u in
  let w_l := (1 - d) * w_l in
  let b_u := (1 - d) * b_u in
  let b_l := (1 - d) * b_l in
  match ft with
  | None => Ok (mk_hull w_u b_u w_l b_l)
  | Some (au, al) =>
      Ok (mk_hull (au * w_u) (au * b_u + (1 - au) * Rmax u 0) (al * w_l) (al * b_l + (1 - al) * Rmax l 0))
  end.
