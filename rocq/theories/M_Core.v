(** Model of src/decomon/core.py. Definitions only. *)
From Coq Require Import Reals List Arith Bool.
From Verif Require Import RLib Spec.
Import ListNotations.
Local Open Scope R_scope.

(** ** Modes: src/decomon/core.py:128-149 *)

(** src/decomon/core.py:128-135 get_mode *)
Definition get_mode (ibp affine : bool) : fmode :=
  if ibp then (if affine then HYBRID else IBP) else AFFINE.

(** src/decomon/core.py:138-142 get_ibp *)
Definition get_ibp (m : fmode) : bool :=
  match m with HYBRID | IBP => true | AFFINE => false end.

(** src/decomon/core.py:145-149 get_affine *)
Definition get_affine (m : fmode) : bool :=
  match m with HYBRID | AFFINE => true | IBP => false end.

Definition mode_eqb (a b : fmode) : bool :=
  match a, b with IBP, IBP | AFFINE, AFFINE | HYBRID, HYBRID => true | _, _ => false end.

(** src/decomon/core.py:82-93 BallDomain.__init__ check on p. The float p is given by
    its numerator/denominator when finite: integral positive values only are accepted. *)
Inductive pfloat := PFinite (num : Z) (den : positive) | PInfinite.
Definition ball_check_p (p : pfloat) : result pord :=
  match p with
  | PInfinite => Ok Pinf
  | PFinite num den =>
      if (Z.eqb (Z.modulo num (Zpos den)) 0 && Z.ltb 0 num)%bool
      then Ok (Pnum (Z.to_nat (Z.div num (Zpos den))))
      else Err ValueError
  end.

(** src/decomon/core.py:46-56, 70-71, 110-111 get_x_input_shape_wo_batchsize *)
Definition get_nb_x_components (D : domain) : nat :=
  match D with Box => 2 | Ball _ _ => 1 end.
Definition get_x_input_shape_wo_batchsize (D : domain) (dim : nat) : list nat :=
  let c := get_nb_x_components D in
  if Nat.eqb c 1 then [dim] else [c; dim].

(** ** Bounds of an affine function on a box: src/decomon/core.py:466-525.
    [same_rank] is the test len(w.shape) == len(b.shape) ("identity function"). *)
Definition get_upper_box (n : nat) (same_rank : bool) (x_min x_max : vec) (w : mat) (b : vec) : vec :=
  if same_rank then x_max
  else fun j => rsum n (fun i => Rmax (w i j) 0 * x_max i + Rmin (w i j) 0 * x_min i) + b j.

Definition get_lower_box (n : nat) (same_rank : bool) (x_min x_max : vec) (w : mat) (b : vec) : vec :=
  if same_rank then x_min
  else fun j => rsum n (fun i => Rmax (w i j) 0 * x_min i + Rmin (w i j) 0 * x_max i) + b j.

(** ** Bounds on a ball: src/decomon/core.py:528-722 *)

(** src/decomon/core.py:528-546 get_lq_norm along the input axis *)
Definition get_lq_norm (n : nat) (p : pord) (w : mat) : result vec :=
  match p with
  | Pnum 1 => Ok (fun j => rmax n (fun i => Rabs (w i j)))
  | Pnum 2 => Ok (fun j => sqrt (rsum n (fun i => (w i j) ^ 2)))
  | _ => Err NotImplementedError
  end.

(** keyword arguments of the fine-tuned versions *)
Record bkw := mk_bkw {
  k_ft_upper : option mat;   (* kwargs["finetune_upper"] *)
  k_ft_lower : option mat;   (* kwargs["finetune_lower"] *)
  k_upper : option vec;      (* kwargs["upper"], flattened *)
  k_lower : option vec       (* kwargs["lower"], flattened *)
}.
Definition no_kw : bkw := mk_bkw None None None None.

Definition is_some {A} (o : option A) : bool := match o with Some _ => true | None => false end.
Definition kw_nonempty (k : bkw) : bool :=
  is_some (k_ft_upper k) || is_some (k_ft_lower k) || is_some (k_upper k) || is_some (k_lower k).

(** kwargs[key] *)
Definition kget {A} (o : option A) : result A :=
  match o with Some a => Ok a | None => Err KeyError end.

(** src/decomon/core.py:549-583 get_upper_ball without kwargs *)
Definition get_upper_ball0 (n : nat) (same_rank : bool) (x_0 : vec) (eps : R) (p : pord) (w : mat) (b : vec) : result vec :=
  if same_rank then Ok (fun j => x_0 j + eps)
  else match p with
  | Pinf => Ok (get_upper_box n same_rank (fun i => x_0 i - eps) (fun i => x_0 i + eps) w b)
  | _ =>
      q <- get_lq_norm n p w ;
      Ok (fun j => rsum n (fun i => w i j * x_0 i) + (eps * q j + b j))
  end.

(** src/decomon/core.py:586-620 get_lower_ball without kwargs *)
Definition get_lower_ball0 (n : nat) (same_rank : bool) (x_0 : vec) (eps : R) (p : pord) (w : mat) (b : vec) : result vec :=
  if same_rank then Ok (fun j => x_0 j - eps)
  else match p with
  | Pinf => Ok (get_lower_box n same_rank (fun i => x_0 i - eps) (fun i => x_0 i + eps) w b)
  | _ =>
      q <- get_lq_norm n p w ;
      Ok (fun j => rsum n (fun i => w i j * x_0 i) + (- eps * q j + b j))
  end.

(** score_box + score_ball *)
Definition add_score (n : nat) (box : vec) (ball : result vec) : result vec :=
  s <- ball ; Ok (fun j => box j + s j).

(** src/decomon/core.py:623-671 get_lower_ball_finetune. Note the Python conditions:
    [a and b or c] is [(a and b) or c] and ["upper" and "lower" in kwargs] is
    ["lower" in kwargs]. *)
Definition get_lower_ball_finetune (n : nat) (x_0 : vec) (eps : R) (p : pord) (w : mat) (b : vec) (k : bkw) : result vec :=
  if (is_some (k_ft_lower k) && is_some (k_upper k)) || is_some (k_lower k) then
    alpha <- kget (k_ft_lower k) ;
    if is_some (k_lower k) then
      upper <- kget (k_upper k) ;
      lower <- kget (k_lower k) ;
      let w_alpha : mat := fun i j => w i j * alpha i j in
      let w_bar : mat := fun i j => w i j * (1 - alpha i j) in
      let score_box : vec := fun j =>
        rsum n (fun i => Rmax 0 (w_bar i j) * lower i) + rsum n (fun i => Rmin 0 (w_bar i j) * upper i) in
      add_score n score_box (get_lower_ball0 n false x_0 eps p w_alpha b)
    else if is_some (k_upper k) then
      upper <- kget (k_upper k) ;
      let w_alpha : mat := fun i j => Rmin 0 (w i j) * alpha i j + Rmax 0 (w i j) in
      let w_bar : mat := fun i j => Rmin 0 (w i j) * (1 - alpha i j) in
      let score_box : vec := fun j => rsum n (fun i => Rmin 0 (w_bar i j) * upper i) in
      add_score n score_box (get_lower_ball0 n false x_0 eps p w_alpha b)
    else get_lower_ball0 n false x_0 eps p w b
  else get_lower_ball0 n false x_0 eps p w b.

(** src/decomon/core.py:674-722 get_upper_ball_finetune: score_ball is computed with
    get_lower_ball (lines 693, 706, 719) *)
Definition get_upper_ball_finetune (n : nat) (x_0 : vec) (eps : R) (p : pord) (w : mat) (b : vec) (k : bkw) : result vec :=
  if (is_some (k_ft_upper k) && is_some (k_upper k)) || is_some (k_lower k) then
    alpha <- kget (k_ft_upper k) ;
    if is_some (k_lower k) then
      upper <- kget (k_upper k) ;
      lower <- kget (k_lower k) ;
      let w_alpha : mat := fun i j => w i j * alpha i j in
      let w_bar : mat := fun i j => w i j * (1 - alpha i j) in
      let score_box : vec := fun j =>
        rsum n (fun i => Rmax 0 (w_bar i j) * upper i) + rsum n (fun i => Rmin 0 (w_bar i j) * lower i) in
      add_score n score_box (get_lower_ball0 n false x_0 eps p w_alpha b)
    else if is_some (k_upper k) then
      upper <- kget (k_upper k) ;
      let w_alpha : mat := fun i j => Rmin 0 (w i j) * alpha i j + Rmax 0 (w i j) in
      let w_bar : mat := fun i j => Rmin 0 (w i j) * (1 - alpha i j) in
      let score_box : vec := fun j => rsum n (fun i => Rmax 0 (w_bar i j) * upper i) in
      add_score n score_box (get_lower_ball0 n false x_0 eps p w_alpha b)
    else get_upper_ball0 n false x_0 eps p w b
  else get_upper_ball0 n false x_0 eps p w b.

(** src/decomon/core.py:549-583 / 586-620 with kwargs *)
Definition get_upper_ball (n : nat) (same_rank : bool) (x_0 : vec) (eps : R) (p : pord) (w : mat) (b : vec) (k : bkw) : result vec :=
  if same_rank then Ok (fun j => x_0 j + eps)
  else match p with
  | Pinf => get_upper_ball0 n same_rank x_0 eps p w b
  | _ => if kw_nonempty k then get_upper_ball_finetune n x_0 eps p w b k
         else get_upper_ball0 n same_rank x_0 eps p w b
  end.

Definition get_lower_ball (n : nat) (same_rank : bool) (x_0 : vec) (eps : R) (p : pord) (w : mat) (b : vec) (k : bkw) : result vec :=
  if same_rank then Ok (fun j => x_0 j - eps)
  else match p with
  | Pinf => get_lower_ball0 n same_rank x_0 eps p w b
  | _ => if kw_nonempty k then get_lower_ball_finetune n x_0 eps p w b k
         else get_lower_ball0 n same_rank x_0 eps p w b
  end.

(** ** PerturbationDomain.get_upper / get_lower: src/decomon/core.py:59-71, 104-108.
    x is indexed by (component, coordinate). *)
Definition get_upper (D : domain) (n : nat) (same_rank : bool) (x : tensor) (w : mat) (b : vec) (k : bkw) : result vec :=
  match D with
  | Box => Ok (get_upper_box n same_rank (x 0%nat) (x 1%nat) w b)
  | Ball eps p => get_upper_ball n same_rank (x 0%nat) eps p w b k
  end.

Definition get_lower (D : domain) (n : nat) (same_rank : bool) (x : tensor) (w : mat) (b : vec) (k : bkw) : result vec :=
  match D with
  | Box => Ok (get_lower_box n same_rank (x 0%nat) (x 1%nat) w b)
  | Ball eps p => get_lower_ball n same_rank (x 0%nat) eps p w b k
  end.

(** ** InputsOutputsSpec: src/decomon/core.py:152-463 *)

(** attributes of the spec; [sp_n] is the input dimension, read in the code from the
    shapes of the weights *)
Record spec := mk_spec {
  sp_dc : bool;
  sp_mode : fmode;
  sp_dom : domain;
  sp_n : nat
}.

(** src/decomon/core.py:181-194 nb_tensors *)
Definition nb_tensors (mode : fmode) (dc : bool) : nat :=
  let nb := match mode with HYBRID => 7 | IBP => 2 | AFFINE => 5 end%nat in
  if dc then (nb + 2)%nat else nb.

(** the nine tensors [x, u_c, w_u, b_u, l_c, w_l, b_l, h, g] *)
Record full (A : Type) := mk_full {
  f_x : A; f_uc : A; f_wu : A; f_bu : A; f_lc : A; f_wl : A; f_bl : A; f_h : A; f_g : A
}.
Arguments mk_full {A}.
Arguments f_x {A}. Arguments f_uc {A}. Arguments f_wu {A}. Arguments f_bu {A}.
Arguments f_lc {A}. Arguments f_wl {A}. Arguments f_bl {A}. Arguments f_h {A}. Arguments f_g {A}.

(** src/decomon/core.py:293-331: unpacking of inputsformode[:nb_tensors]; Python raises
    ValueError when there are not enough values to unpack *)
Definition unpack {A} (none : A) (mode : fmode) (dc : bool) (l : list A) : result (full A) :=
  match dc, mode, l with
  | true, HYBRID, x :: uc :: wu :: bu :: lc :: wl :: bl :: h :: g :: _ =>
      Ok (mk_full x uc wu bu lc wl bl h g)
  | true, IBP, uc :: lc :: h :: g :: _ =>
      Ok (mk_full none uc none none lc none none h g)
  | true, AFFINE, x :: wu :: bu :: wl :: bl :: h :: g :: _ =>
      Ok (mk_full x none wu bu none wl bl h g)
  | false, HYBRID, x :: uc :: wu :: bu :: lc :: wl :: bl :: _ =>
      Ok (mk_full x uc wu bu lc wl bl none none)
  | false, IBP, uc :: lc :: _ =>
      Ok (mk_full none uc none none lc none none none none)
  | false, AFFINE, x :: wu :: bu :: wl :: bl :: _ =>
      Ok (mk_full x none wu bu none wl bl none none)
  | _, _, _ => Err ValueError
  end.

(** src/decomon/core.py:426-438 extract_inputsformode_from_fullinputs (also 457-458
    extract_outputsformode_from_fulloutputs) *)
Definition extract {A} (mode : fmode) (dc : bool) (r : full A) : list A :=
  (match mode with
   | HYBRID => [f_x r; f_uc r; f_wu r; f_bu r; f_lc r; f_wl r; f_bl r]
   | IBP => [f_uc r; f_lc r]
   | AFFINE => [f_x r; f_wu r; f_bu r; f_wl r; f_bl r]
   end) ++ (if dc then [f_h r; f_g r] else []).

(** get_empty_tensor (core.py:460-463) *)
Definition empty_tensor : tensor := fun _ _ => 0.

(** a vector as a tensor *)
Definition vt (v : vec) : tensor := fun _ => v.

(** src/decomon/core.py:333-347: completion with constant bounds *)
Definition complete (sp : spec) (compute_ibp_from_affine tight : bool) (r : full tensor) : result (full tensor) :=
  if (compute_ibp_from_affine && mode_eqb (sp_mode sp) AFFINE) || (tight && mode_eqb (sp_mode sp) HYBRID) then
    ua <- get_upper (sp_dom sp) (sp_n sp) false (f_x r) (f_wu r) (f_bu r 0%nat) no_kw ;
    la <- get_lower (sp_dom sp) (sp_n sp) false (f_x r) (f_wl r) (f_bl r 0%nat) no_kw ;
    let '(uc, lc) :=
      if mode_eqb (sp_mode sp) AFFINE then (vt ua, vt la)
      else (vt (fun j => Rmin (f_uc r 0%nat j) (ua j)), vt (fun j => Rmax (f_lc r 0%nat j) (la j))) in
    Ok (mk_full (f_x r) uc (f_wu r) (f_bu r) lc (f_wl r) (f_bl r) (f_h r) (f_g r))
  else Ok r.

(** src/decomon/core.py:278-347 get_fullinputs_from_inputsformode *)
Definition get_fullinputs (sp : spec) (compute_ibp_from_affine tight : bool) (ts : list tensor) : result (full tensor) :=
  r <- unpack empty_tensor (sp_mode sp) (sp_dc sp) ts ;
  complete sp compute_ibp_from_affine tight r.

(** src/decomon/core.py:422-424 split_inputsformode_to_merge *)
Definition split_to_merge {A} (nb : nat) (l : list A) : list (list A) :=
  map (fun i => firstn nb (skipn (nb * i) l)) (seq 0 (length l / nb)).

(** Python slice l[skip::stride] (stride >= 1) *)
Fixpoint strided {A} (skip stride : nat) (l : list A) : list A :=
  match l with
  | [] => []
  | a :: q => match skip with
              | O => a :: strided (pred stride) stride q
              | S s => strided s stride q
              end
  end.

(** src/decomon/core.py:349-420 get_fullinputs_by_type_from_inputsformode_to_merge.
    Lists are Python objects updated in place (inputs_u_c[i] = ...): a store maps object
    identities to their content. Object 0 is [nonelike_tensor_list], the one shared by all the absent
    types; objects 1.. are the fresh slices. *)
Definition store (A : Type) := list (list A).

Definition sread {A} (s : store A) (o : nat) : list A := nth o s [].
Fixpoint set_nth {A} (l : list A) (i : nat) (a : A) : list A :=
  match l, i with
  | [], _ => []
  | _ :: q, O => a :: q
  | b :: q, S k => b :: set_nth q k a
  end.
(** store[o][i] = a *)
Definition swrite {A} (s : store A) (o i : nat) (a : A) : store A :=
  set_nth s o (set_nth (sread s o) i a).

(** the object holding each type: core.py:371-401 *)
Definition merge_refs (mode : fmode) (dc : bool) : full nat :=
  let hr := if dc then 8%nat else 0%nat in
  let gr := if dc then 9%nat else 0%nat in
  match mode with
  | HYBRID => mk_full 1 2 3 4 5 6 7 hr gr
  | IBP => mk_full 0 2 0 0 5 0 0 hr gr
  | AFFINE => mk_full 1 0 3 4 0 6 7 hr gr
  end%nat.

(** initial content of the objects *)
Definition merge_store {A} (none : A) (mode : fmode) (dc : bool) (l : list A) : store A :=
  let nb := nb_tensors mode dc in
  let k := (length l / nb)%nat in
  let nonelike := repeat none k in
  let sl o := strided o nb l in
  let h := sl (nb - 2)%nat in
  let g := sl (nb - 1)%nat in
  match mode with
  | HYBRID => [nonelike; sl 0; sl 1; sl 2; sl 3; sl 4; sl 5; sl 6; h; g]
  | IBP => [nonelike; []; sl 0; []; []; sl 1; []; []; h; g]
  | AFFINE => [nonelike; sl 0; []; sl 1; sl 2; []; sl 3; sl 4; h; g]
  end%nat.

(** one iteration of the loop core.py:408-418 *)
Definition merge_step (sp : spec) (refs : full nat) (s : store tensor) (i : nat) : result (store tensor) :=
  let get r := nth i (sread s (r refs)) empty_tensor in
  ua <- get_upper (sp_dom sp) (sp_n sp) false (get f_x) (get f_wu) (get f_bu 0%nat) no_kw ;
  la <- get_lower (sp_dom sp) (sp_n sp) false (get f_x) (get f_wl) (get f_bl 0%nat) no_kw ;
  if mode_eqb (sp_mode sp) AFFINE then
    let s1 := swrite s (f_uc refs) i (vt ua) in
    Ok (swrite s1 (f_lc refs) i (vt la))
  else
    let s1 := swrite s (f_uc refs) i (vt (fun j => Rmin (get f_uc 0%nat j) (ua j))) in
    Ok (swrite s1 (f_lc refs) i (vt (fun j => Rmax (nth i (sread s1 (f_lc refs)) empty_tensor 0%nat j) (la j)))).

Fixpoint merge_loop (sp : spec) (refs : full nat) (s : store tensor) (is : list nat) : result (store tensor) :=
  match is with
  | [] => Ok s
  | i :: q => s' <- merge_step sp refs s i ; merge_loop sp refs s' q
  end.

Definition deref {A} (s : store A) (refs : full nat) : full (list A) :=
  mk_full (sread s (f_x refs)) (sread s (f_uc refs)) (sread s (f_wu refs)) (sread s (f_bu refs))
          (sread s (f_lc refs)) (sread s (f_wl refs)) (sread s (f_bl refs)) (sread s (f_h refs)) (sread s (f_g refs)).

Definition get_fullinputs_by_type (sp : spec) (compute_ibp_from_affine tight : bool) (ts : list tensor) : result (full (list tensor)) :=
  let mode := sp_mode sp in
  let dc := sp_dc sp in
  let refs := merge_refs mode dc in
  let s := merge_store empty_tensor mode dc ts in
  if (compute_ibp_from_affine && mode_eqb mode AFFINE) || (tight && mode_eqb mode HYBRID) then
    s' <- merge_loop sp refs s (seq 0 (length (sread s (f_x refs)))) ;
    Ok (deref s' refs)
  else Ok (deref s refs).
