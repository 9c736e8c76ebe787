(** Model of the operators of src/decomon/layers/utils.py and of the activations of
    src/decomon/layers/activations.py. Definitions only.
    A block of neurons has a shape [s] (without the batch axis) and is indexed by its row-major
    position; weights have shape n :: s. *)
From Coq Require Import Reals List Arith Bool ZArith.
From Verif Require Import RLib Spec M_Core M_Utils M_MergeLayers.
Import ListNotations.
Local Open Scope R_scope.

(** the common end of the operators: "if dc_decomp: raise NotImplementedError" then
    extract_outputsformode_from_fulloutputs *)
Definition finish (sp : spec) (r : full tensor) : result (list tensor) :=
  if sp_dc sp then Err NotImplementedError else Ok (extract (sp_mode sp) (sp_dc sp) r).

(** if ibp: ... else empty *)
Definition when (b : bool) (t : tensor) : tensor := if b then t else empty_tensor.

(** element-wise function *)
Definition ew (f : R -> R) (t : tensor) : tensor := fun i j => f (t i j).
Definition ew2 (f : R -> R -> R) (t t' : tensor) : tensor := fun i j => f (t i j) (t' i j).

(** w_out = expand_dims(w_0, 1) * w ; b_out = w_0 * b + b_0, for upper and lower *)
Definition hull_out (sp : spec) (uc lc : tensor) (hl : nat -> hull) (r : full tensor) : full tensor :=
  let a := get_affine (sp_mode sp) in
  mk_full (f_x r) (when (get_ibp (sp_mode sp)) uc)
    (when a (fun i j => h_wu (hl j) * f_wu r i j)) (when a (fun i j => h_wu (hl j) * f_bu r i j + h_bu (hl j)))
    (when (get_ibp (sp_mode sp)) lc)
    (when a (fun i j => h_wl (hl j) * f_wl r i j)) (when a (fun i j => h_wl (hl j) * f_bl r i j + h_bl (hl j)))
    empty_tensor empty_tensor.

(** ** axes *)

(** normalisation of a Python axis in a tensor of the given rank *)
Definition norm_axis (rank : nat) (axis : Z) : result nat :=
  if (Z.leb 0 axis && Z.ltb axis (Z.of_nat rank))%bool then Ok (Z.to_nat axis)
  else if (Z.ltb axis 0 && Z.leb (- Z.of_nat rank) axis)%bool then Ok (Z.to_nat (axis + Z.of_nat rank))
  else Err ValueError.

(** [axis] on a tensor of shape batch :: s, as a position in s. Acting on the batch axis is not
    modelled. *)
Definition b_axis (s : list nat) (axis : Z) : result nat :=
  a <- norm_axis (length s + 1) axis ;
  match a with O => Err ValueError | S a' => Ok a' end.

(** [axis] on a tensor of shape batch :: n :: s, as a position in s *)
Definition w_axis (s : list nat) (axis : Z) : result nat :=
  a <- norm_axis (length s + 2) axis ;
  match a with S (S a') => Ok a' | _ => Err ValueError end.

(** axis_w of the operators: -1 stays -1, any other axis is shifted by one *)
Definition shift_axis (axis : Z) : Z := if Z.eqb axis (-1) then (-1)%Z else (axis + 1)%Z.

Definition ax_len (s : list nat) (a : nat) : nat := nth a s 1%nat.
Definition ax_inner (s : list nat) (a : nat) : nat := prodn (skipn (S a) s).

(** slice number c along axis position a (K.split(t, k, axis)[c], squeezed) *)
Definition slice (s : list nat) (a c : nat) (t : tensor) : tensor :=
  let k := ax_len s a in let inner := ax_inner s a in
  fun i q => t i (flat k inner (q / inner) c (q mod inner)).

(** K.sum / K.max along axis position a *)
Definition red_axis (op : nat -> (nat -> R) -> R) (s : list nat) (a : nat) (t : tensor) : tensor :=
  fun i q => op (ax_len s a) (fun c => slice s a c t i q).

(** ** layers/utils.py:149-195 sum *)
Definition op_sum (sp : spec) (s : list nat) (axis : Z) (ts : list tensor) : result (list tensor) :=
  r <- get_fullinputs sp false true ts ;
  let ibp := get_ibp (sp_mode sp) in
  let aff_ := get_affine (sp_mode sp) in
  ab <- b_axis s axis ;
  aw <- (if aff_ then w_axis s (shift_axis axis) else Ok O) ;
  finish sp (mk_full (f_x r) (when ibp (red_axis rsum s ab (f_uc r)))
    (when aff_ (red_axis rsum s aw (f_wu r))) (when aff_ (red_axis rsum s ab (f_bu r)))
    (when ibp (red_axis rsum s ab (f_lc r)))
    (when aff_ (red_axis rsum s aw (f_wl r))) (when aff_ (red_axis rsum s ab (f_bl r)))
    empty_tensor empty_tensor).

(** the list of tensors of one slice, all six bounds cut along their axis
    (layers/utils.py:292-350, 689-717) *)
Definition slice_full (s : list nat) (ab aw c : nat) (r : full tensor) : full tensor :=
  mk_full (f_x r) (slice s ab c (f_uc r)) (slice s aw c (f_wu r)) (slice s ab c (f_bu r))
          (slice s ab c (f_lc r)) (slice s aw c (f_wl r)) (slice s ab c (f_bl r)) empty_tensor empty_tensor.

(** same spec without dc_decomp (inputs_outputs_spec_no_dc) *)
Definition no_dc (sp : spec) : spec := mk_spec false (sp_mode sp) (sp_dom sp) (sp_n sp).

(** for i in range(1, max_dim): output_tmp = maximum(output_tmp, output_i, ...) *)
Fixpoint max_loop (ke : R) (sp : spec) (ft : nat -> option vec) (ins : nat -> list tensor) (is : list nat) (o : list tensor) : result (list tensor) :=
  match is with
  | [] => Ok o
  | i :: q => o' <- maximum ke sp (ft i) o (ins i) ; max_loop ke sp ft ins q o'
  end.

(** ** layers/utils.py:246-396 max_. [ft] is kwargs["finetune_params"], a block of shape s. *)
Definition op_max (ke : R) (sp : spec) (s : list nat) (axis : Z) (ft : option vec) (ts : list tensor) : result (list tensor) :=
  r <- get_fullinputs sp false false ts ;
  ab <- b_axis s axis ;
  let k := ax_len s ab in
  if (mode_eqb (sp_mode sp) IBP && negb (sp_dc sp))%bool then
    Ok [red_axis rmax s ab (f_uc r); red_axis rmax s ab (f_lc r)]
  else
    aw <- (if get_affine (sp_mode sp) then w_axis s (shift_axis axis) else Ok ab) ;
    if negb (Nat.eqb (ax_len s aw) k) then Err ValueError else
    let spn := no_dc sp in
    let ins c := extract (sp_mode sp) false (slice_full s ab aw c r) in
    let fts c := if get_affine (sp_mode sp)
                 then option_map (fun v : vec => slice s ab c (vt v) 0%nat) ft else None in
    o <- max_loop ke spn fts ins (seq 1 (k - 1)) (ins 0%nat) ;
    ro <- get_fullinputs spn true (negb (mode_eqb (sp_mode sp) AFFINE)) o ;
    let '(h, g) :=
      if sp_dc sp then
        let g_out := red_axis rsum s ab (f_g r) in
        (ew2 Rminus (red_axis rmax s ab (ew2 Rplus (f_h r) (f_g r))) g_out, g_out)
      else (empty_tensor, empty_tensor) in
    Ok (extract (sp_mode sp) (sp_dc sp)
      (mk_full (f_x r) (f_uc ro) (f_wu ro) (f_bu ro) (f_lc ro) (f_wl ro) (f_bl ro) h g)).

(** ** layers/utils.py:955-991 min_. The two calls to minus use the default dc_decomp=False. *)
Definition op_min (ke : R) (sp : spec) (s : list nat) (axis : Z) (ft : option vec) (ts : list tensor) : result (list tensor) :=
  m <- minus (no_dc sp) ts ;
  o <- op_max ke sp s axis ft m ;
  minus (no_dc sp) o.

(** ** layers/utils.py:430-521 multiply (McCormick) *)
Definition mul_full (sp : spec) (r0 r1 : full tensor) : full tensor :=
  let ibp := get_ibp (sp_mode sp) in
  let a := get_affine (sp_mode sp) in
  let u0 j := f_uc r0 0%nat j in let l0 j := f_lc r0 0%nat j in
  let u1 j := f_uc r1 0%nat j in let l1 j := f_lc r1 0%nat j in
  let u_c_0_out j := Rmax (u0 j * u1 j) (u0 j * l1 j) + Rmax (u0 j * l1 j) (l0 j * l1 j) - u0 j * l1 j in
  let u_c_1_out j := Rmax (u1 j * u0 j) (u1 j * l0 j) + Rmax (u1 j * l0 j) (l1 j * l0 j) - u1 j * l0 j in
  let u_c_out : tensor := fun _ j => Rmin (u_c_0_out j) (u_c_1_out j) in
  let l_c_out : tensor := fun _ j => Rmin (l0 j * l1 j) (l0 j * u1 j) + Rmin (l0 j * l1 j) (u0 j * l1 j) - l0 j * l1 j in
  let cx_u_pos j := Rmax (u0 j) 0 in let cx_u_neg j := Rmin (u0 j) 0 in
  let cy_l_pos j := Rmax (l1 j) 0 in let cy_l_neg j := Rmin (l1 j) 0 in
  let cx_l_pos j := Rmax (l0 j) 0 in let cx_l_neg j := Rmin (l0 j) 0 in
  let w_u : tensor := fun i j => cx_u_pos j * f_wu r1 i j + cx_u_neg j * f_wl r1 i j + cy_l_pos j * f_wu r0 i j + cy_l_neg j * f_wl r0 i j in
  let b_u : tensor := fun i j => cx_u_pos j * f_bu r1 i j + cx_u_neg j * f_bl r1 i j + cy_l_pos j * f_bu r0 i j + cy_l_neg j * f_bl r0 i j - u0 j * l1 j in
  let w_l : tensor := fun i j => cx_l_pos j * f_wl r1 i j + cx_l_neg j * f_wu r1 i j + cy_l_pos j * f_wl r0 i j + cy_l_neg j * f_wu r0 i j in
  let b_l : tensor := fun i j => cx_l_pos j * f_bl r1 i j + cx_l_neg j * f_bu r1 i j + cy_l_pos j * f_bl r0 i j + cy_l_neg j * f_bu r0 i j - l0 j * l1 j in
  mk_full (f_x r0) (when ibp u_c_out) (when a w_u) (when a b_u) (when ibp l_c_out) (when a w_l) (when a b_l) empty_tensor empty_tensor.

Definition multiply (sp : spec) (in0 in1 : list tensor) : result (list tensor) :=
  r0 <- get_fullinputs sp true true in0 ;
  r1 <- get_fullinputs sp true true in1 ;
  finish sp (mul_full sp r0 r1).

(** layers/utils.py:858-878 pow *)
Definition op_pow (sp : spec) (ts : list tensor) : result (list tensor) := multiply sp ts ts.

(** decomon_merge_layers.py:510-537 DecomonMultiply.call *)
Definition decomon_multiply (sp : spec) (ts : list tensor) : result (list tensor) :=
  if sp_dc sp then Err NotImplementedError else
  match split_to_merge (nb_tensors (sp_mode sp) (sp_dc sp)) ts with
  | [] => Err IndexError
  | [_] => Ok ts
  | a :: b :: q => o <- multiply sp a b ; foldR (multiply sp) q o
  end.

(** ** layers/utils.py:720-855 sort: selection sort on the list of slices *)

(** one exchange (lines 777-826): list[j] gets the maximum, list[i] the minimum *)
Definition sort_step (ke : R) (sp : spec) (l : list (full tensor)) (i j : nat) : result (list (full tensor)) :=
  let d := mk_full empty_tensor empty_tensor empty_tensor empty_tensor empty_tensor empty_tensor empty_tensor empty_tensor empty_tensor in
  let input_i := extract (sp_mode sp) (sp_dc sp) (nth i l d) in
  let input_j := extract (sp_mode sp) (sp_dc sp) (nth j l d) in
  output_a <- maximum ke sp None input_i input_j ;
  output_b <- minimum ke sp None input_i input_j ;
  ra <- get_fullinputs sp true true output_a ;
  rb <- get_fullinputs sp true true output_b ;
  Ok (set_nth (set_nth l j ra) i rb).

Fixpoint sort_inner (ke : R) (sp : spec) (l : list (full tensor)) (i : nat) (js : list nat) : result (list (full tensor)) :=
  match js with
  | [] => Ok l
  | j :: q => l' <- sort_step ke sp l i j ; sort_inner ke sp l' i q
  end.

Fixpoint sort_outer (ke : R) (sp : spec) (n : nat) (l : list (full tensor)) (is : list nat) : result (list (full tensor)) :=
  match is with
  | [] => Ok l
  | i :: q => l' <- sort_inner ke sp l i (seq (S i) (n - S i)) ; sort_outer ke sp n l' q
  end.

(** K.concatenate of the slices along axis position a *)
Definition unslice (s : list nat) (a : nat) (ts : list tensor) : tensor :=
  let k := ax_len s a in let inner := ax_inner s a in
  fun i q => nth ((q / inner) mod k) ts empty_tensor i (q / inner / k * inner + q mod inner)%nat.

(** axis of sort: -1 is replaced by the last axis (748-752), then w is cut along axis + 1 *)
Definition op_sort (ke : R) (sp : spec) (s : list nat) (axis : Z) (ts : list tensor) : result (list tensor) :=
  r <- get_fullinputs sp false false ts ;
  let axis := if Z.eqb axis (-1) then Z.of_nat (length s) else axis in
  ab <- b_axis s axis ;
  aw <- (if get_affine (sp_mode sp) then w_axis s (axis + 1) else Ok ab) ;
  let n := ax_len s ab in
  if negb (Nat.eqb (ax_len s aw) n) then Err ValueError else
  if sp_dc sp then Err NotImplementedError else
  l <- sort_outer ke sp n (map (fun c => slice_full s ab aw c r) (seq 0 n)) (seq 0 (n - 1)) ;
  let ibp := get_ibp (sp_mode sp) in
  let a := get_affine (sp_mode sp) in
  Ok (extract (sp_mode sp) (sp_dc sp) (mk_full (f_x r)
    (when ibp (unslice s ab (map f_uc l)))
    (when a (unslice s aw (map f_wu l))) (when a (unslice s ab (map f_bu l)))
    (when ibp (unslice s ab (map f_lc l)))
    (when a (unslice s aw (map f_wl l))) (when a (unslice s ab (map f_bl l))) empty_tensor empty_tensor)).

(** ** layers/utils.py:881-913 abs. The calls to minus use the default dc_decomp=False. *)
Definition op_abs (ke : R) (sp : spec) (ts : list tensor) : result (list tensor) :=
  inputs_0 <- relu_ ke sp V_SLOPE None ts ;
  m <- minus (no_dc sp) ts ;
  rm <- relu_ ke sp V_SLOPE None m ;
  inputs_1 <- minus (no_dc sp) rm ;
  add sp inputs_0 inputs_1.

(** ** layers/utils.py:1110-1170 exp, hull of one neuron *)
Definition hull_exp (ke u l : R) : hull :=
  let y := (u + l) / 2 in
  let w_u_0 := (exp u - exp l) / Rmax (u - l) ke in
  let w_l_0 := exp y in
  mk_hull w_u_0 (exp l - w_u_0 * l) w_l_0 (w_l_0 * (- y + 1)).

Definition op_exp (ke : R) (sp : spec) (ts : list tensor) : result (list tensor) :=
  r <- get_fullinputs sp true true ts ;
  finish sp (hull_out sp (ew exp (f_uc r)) (ew exp (f_lc r))
    (fun j => hull_exp ke (f_uc r 0%nat j) (f_lc r 0%nat j)) r).

(** ** layers/utils.py:1046-1107 log *)
Definition hull_log (ke u l : R) : hull :=
  let y := (u + l) / 2 in
  let w_l_0 := (ln u - ln l) / Rmax (u - l) ke in
  mk_hull (1 / y) (ln y - 1) w_l_0 (ln l - w_l_0 * l).

Definition op_log (ke : R) (sp : spec) (ts : list tensor) : result (list tensor) :=
  r <- get_fullinputs sp true true ts ;
  let l_c : tensor := if mode_eqb (sp_mode sp) AFFINE then ew (Rmax ke) (f_lc r) else f_lc r in
  finish sp (hull_out sp (ew ln (f_uc r)) (ew ln l_c)
    (fun j => hull_log ke (f_uc r 0%nat j) (l_c 0%nat j)) r).

(** ** layers/utils.py:198-242 frac_pos: 1/z *)
Definition frac_full (ke : R) (sp : spec) (r : full tensor) : full tensor :=
  let ibp := get_ibp (sp_mode sp) in
  let a := get_affine (sp_mode sp) in
  let u j := f_uc r 0%nat j in let l j := f_lc r 0%nat j in
  let w_u_0 j := (1 / l j - 1 / u j) / Rmax (u j - l j) ke in
  let b_u_0 j := 1 / u j - w_u_0 j * l j in
  let y j := (u j + l j) / 2 in
  let b_l_0 j := 2 / y j in
  let w_l_0 j := - (1) / (y j) ^ 2 in
  mk_full (f_x r) (when ibp (fun _ j => 1 / l j))
    (when a (fun i j => w_u_0 j * f_wl r i j)) (when a (fun i j => b_u_0 j * f_bl r i j + b_u_0 j))
    (when ibp (fun _ j => 1 / u j))
    (when a (fun i j => w_l_0 j * f_wu r i j)) (when a (fun i j => b_l_0 j * f_bu r i j + b_l_0 j))
    empty_tensor empty_tensor.

Definition frac_pos (ke : R) (sp : spec) (ts : list tensor) : result (list tensor) :=
  r <- get_fullinputs sp true true ts ;
  finish sp (frac_full ke sp r).

(** layers/utils.py:916-951 frac_pos_hull: K.power(z) lacks its exponent *)
Definition frac_pos_hull (sp : spec) (ts : list tensor) : result (list hull) :=
  _ <- get_fullinputs sp true true ts ;
  Err TypeError.

(** ** layers/utils.py:110-146 softplus_ *)
Fixpoint hulls {A} (hl : nat -> result A) (m : nat) : result (list A) :=
  match m with
  | O => Ok []
  | S k => q <- hulls hl k ; a <- hl k ; Ok (q ++ [a])
  end.
Definition zero_hull : hull := mk_hull 0 0 0 0.

Definition op_softplus (ke : R) (sp : spec) (sl : slope) (m : nat) (ts : list tensor) : result (list tensor) :=
  r <- get_fullinputs sp true true ts ;
  hs <- (if get_affine (sp_mode sp)
         then hulls (fun j => hull_softplus ke sl None (f_uc r 0%nat j) (f_lc r 0%nat j)) m else Ok []) ;
  finish sp (hull_out sp (ew softplus (f_uc r)) (ew softplus (f_lc r)) (fun j => nth j hs zero_hull) r).

(** ** layers/activations.py:85-158 linear_hull_s_shape and 42-722 of utils.py.
    get_linear_hull_s_shape (utils.py:524-607) completes the inputs with its own call, lines 548-552. *)
Definition op_s_shape (ke : R) (sp : spec) (f fp : R -> R) (ts : list tensor) : result (list tensor) :=
  r <- get_fullinputs sp false true ts ;
  r' <- (if get_affine (sp_mode sp) then get_fullinputs sp true true ts else Ok r) ;
  finish sp (hull_out sp (ew f (f_uc r)) (ew f (f_lc r))
    (fun j => hull_s_shape ke f fp (f_uc r' 0%nat j) (f_lc r' 0%nat j)) r).

(** ** layers/activations.py:441-501 softmax, axis=-1: blocks of k classes.
    expand_dims + broadcasting in multiply: entry q uses the reduced entry q / k. *)
Definition bcast (k : nat) (r : full tensor) : full tensor :=
  let b (t : tensor) : tensor := fun i q => t i (q / k)%nat in
  mk_full (f_x r) (b (f_uc r)) (b (f_wu r)) (b (f_bu r)) (b (f_lc r)) (b (f_wl r)) (b (f_bl r)) empty_tensor empty_tensor.

Definition softmax (ke : R) (sp : spec) (s : list nat) (ts : list tensor) : result (list tensor) :=
  if sp_dc sp then Err NotImplementedError else
  m <- minus sp ts ;
  outputs_exp <- op_exp ke sp m ;
  sm <- op_sum sp s (-1) outputs_exp ;
  fr <- frac_pos ke sp sm ;
  rf <- get_fullinputs sp false false fr ;
  outputs <- multiply sp outputs_exp (extract (sp_mode sp) false (bcast (ax_len s (length s - 1)) rf)) ;
  r <- get_fullinputs sp false true outputs ;
  if get_ibp (sp_mode sp) then
    Ok (extract (sp_mode sp) (sp_dc sp) (mk_full (f_x r) (ew (fun v => Rmin v 1) (f_uc r)) (f_wu r) (f_bu r)
         (ew (fun v => Rmax v 0) (f_lc r)) (f_wl r) (f_bl r) (f_h r) (f_g r)))
  else Ok (extract (sp_mode sp) (sp_dc sp) r).

(** ** layers/utils.py:994-1043 expand_dims and 590-642 broadcast: row-major positions are unchanged *)
Definition expand_dims (sp : spec) (ts : list tensor) : result (list tensor) :=
  r <- get_fullinputs sp false false ts ;
  finish sp r.

(** ** layers/utils.py:645-717 split *)
Definition op_split (sp : spec) (s : list nat) (axis : Z) (ts : list tensor) : result (list (list tensor)) :=
  let axis := if Z.eqb axis (-1) then Z.of_nat (length s) else axis in
  r <- get_fullinputs sp false false ts ;
  ab <- b_axis s axis ;
  aw <- (if get_affine (sp_mode sp) then w_axis s (axis + 1) else Ok ab) ;
  if negb (Nat.eqb (ax_len s aw) (ax_len s ab)) then Err ValueError else
  if sp_dc sp then Err NotImplementedError else
  Ok (map (fun c => extract (sp_mode sp) (sp_dc sp) (slice_full s ab aw c r)) (seq 0 (ax_len s ab))).
