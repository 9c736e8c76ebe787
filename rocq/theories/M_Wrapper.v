(** Model of the user functions: src/decomon/wrapper.py and src/decomon/wrapper_with_tuning.py.
    Arrays keep their batch axis here: the functions reshape, split and concatenate along it. *)
From Coq Require Import Reals List Arith Bool ZArith.
From Verif Require Import RLib Spec M_State.
Import ListNotations.
Local Open Scope R_scope.

(** ** numpy arrays: the rows along the first axis (each flattened, row-major) and the other axes.
    Simplification: arrays have at least one axis. *)
Record arr (A : Type) := mk_arr { a_tail : list nat; a_rows : list (list A) }.
Arguments mk_arr {A} _ _. Arguments a_tail {A} _. Arguments a_rows {A} _.
Definition alen {A} (a : arr A) : nat := length (a_rows a).
Definition flatten {A} (a : arr A) : list A := concat (a_rows a).

(** c consecutive blocks of length k *)
Fixpoint chunks {A} (c k : nat) (l : list A) : list (list A) :=
  match c with O => [] | S c' => firstn k l :: chunks c' k (skipn k l) end.

(** np.reshape(a, [-1] + t) *)
Definition reshape {A} (a : arr A) (t : list nat) : result (arr A) :=
  let k := prodn t in let s := length (flatten a) in
  if (k =? 0)%nat then Err ValueError
  else if (s mod k =? 0)%nat then Ok (mk_arr t (chunks (s / k) k (flatten a))) else Err ValueError.

(** np.reshape(a, (c, -1)) *)
Definition reshape_first {A} (a : arr A) (c : nat) : result (arr A) :=
  let s := length (flatten a) in
  if (c =? 0)%nat then Err ValueError
  else if (s mod c =? 0)%nat then Ok (mk_arr [s / c]%nat (chunks c (s / c) (flatten a))) else Err ValueError.

(** [rows[b * i : b * (i + 1)] for i in range(len // b + r)] with r = 1 when b does not divide len *)
Definition slices {A} (b : nat) (l : list A) : list (list A) :=
  map (fun i => firstn b (skipn (b * i) l)) (seq 0 (length l / b + (if (0 <? length l mod b)%nat then 1 else 0))%nat).

(** np.concatenate along the first axis *)
Fixpoint nat_list_eqb (a b : list nat) : bool :=
  match a, b with
  | [], [] => true
  | x :: p, y :: q => ((x =? y)%nat && nat_list_eqb p q)%bool
  | _, _ => false
  end.
Definition np_concat {A} (l : list (arr A)) : result (arr A) :=
  match l with
  | [] => Err ValueError
  | a :: _ => if forallb (fun b => nat_list_eqb (a_tail b) (a_tail a)) l then Ok (mk_arr (a_tail a) (concat (map a_rows l))) else Err ValueError
  end.

(** ** DecomonModel seen from the outside (models.py:19-119): flags, input_dim, shape of the outputs without
    the batch axis, and the outputs for one sample as a function of the current domain, of the input and of
    the optional back bounds *)
Record wmodel := mk_wmodel { wm_domain : domain; wm_ibp : bool; wm_affine : bool; wm_bb : bool; wm_n : nat; wm_out : list nat;
  wm_predict : domain -> tensor -> option mat -> result (list tensor) }.
Definition wm_k (m : wmodel) : nat := prodn (wm_out m).
(** the clone with the domain D0 of a sequence of Dense and relu layers, with k outputs, as a wmodel (M_State) *)
Definition seq_model (ke : R) (D0 : domain) (mode : fmode) (n k : nat) (ops : list dop) : wmodel :=
  mk_wmodel D0 (match mode with AFFINE => false | _ => true end) (match mode with IBP => false | _ => true end) false n [k]
    (fun D z _ => m <- set_domain (new_model D0 mode n ops) D ; predict ke m z).

(** the argument "model": a Keras model, given by the result of clone, or a DecomonModel *)
Inductive anymodel := Keras (c : wmodel) | Decomon (d : wmodel).
Definition is_box (D : domain) : bool := match D with Box => true | _ => false end.
(** wrapper.py:72-77 *)
Definition box_model (a : anymodel) : result wmodel :=
  match a with
  | Keras c => Ok c
  | Decomon d => if is_box (wm_domain d) then Ok d else Err AssertionError
  end.

(** models.py:66-71, 122-128 *)
Definition wset_domain (m : wmodel) (D : domain) : result wmodel :=
  if same_type D (wm_domain m)
  then Ok (mk_wmodel D (wm_ibp m) (wm_affine m) (wm_bb m) (wm_n m) (wm_out m) (wm_predict m)) else Err NotImplementedError.

(** wrapper.py:68 if np.min(x_max - x_min) < 0: raise UserWarning. Simplification: arrays of different shapes
    are refused here, numpy refuses them here or in the concatenation of line 102 *)
Definition check_box (xmin xmax : arr R) : result unit :=
  if negb (nat_list_eqb (map (@length R) (a_rows xmin)) (map (@length R) (a_rows xmax))) then Err ValueError
  else if (length (flatten xmin) =? 0)%nat then Err ValueError
  else if existsb (fun p => if Rlt_dec (snd p - fst p) 0 then true else false) (combine (flatten xmin) (flatten xmax)) then Err UserWarning
  else Ok tt.

(** one sample of z = np.concatenate([x_min, x_max], 1), a (2, input_dim) array *)
Definition ztensor (p : list R * list R) : tensor := fun c i => nth i (if (c =? 0)%nat then fst p else snd p) 0.

(** wrapper.py:92-102: input_shape, reshapes. With back bounds input_shape is a list of two shapes,
    input_shape[2:] is empty and np.prod([]) is the float 1.0: refused as a dimension *)
Definition to_samples (m : wmodel) (bb_aware : bool) (xmin xmax : arr R) : result (list (list R * list R)) :=
  if (wm_bb m && negb bb_aware)%bool then Err TypeError
  else
    lo <- reshape xmin [1; wm_n m]%nat ;
    hi <- reshape xmax [1; wm_n m]%nat ;
    Ok (combine (a_rows lo) (a_rows hi)).

(** ** refine_boxes, wrapper.py:758-804 *)

(** np.argmax: first index of the maximum *)
Fixpoint argmax_from (best : R) (bi i : nat) (l : list R) : nat :=
  match l with
  | [] => bi
  | x :: q => if Rlt_dec best x then argmax_from x i (S i) q else argmax_from best bi (S i) q
  end.
Definition argmax (l : list R) : nat := match l with [] => O | x :: q => argmax_from x O 1 q end.

Fixpoint set_nth (j : nat) (v : R) (l : list R) : list R :=
  match l, j with
  | [], _ => []
  | _ :: q, O => v :: q
  | x :: q, S j' => x :: set_nth j' v q
  end.

Notation box := (list R * list R)%type.
Definition widths (b : box) : list R := map (fun p => snd p - fst p) (combine (fst b) (snd b)).
(** wrapper.py:776-794 split, for one box: the widest coordinate is cut in the middle *)
Definition middle (b : box) (j : nat) : R := (nth j (fst b) 0 + nth j (snd b) 0) / 2.
Definition half0 (b : box) (j : nat) : box := (fst b, set_nth j (middle b j) (snd b)).
Definition half1 (b : box) (j : nat) : box := (set_nth j (middle b j) (fst b), snd b).
Definition split_boxes (l : list box) : list box :=
  map (fun b => half0 b (argmax (widths b))) l ++ map (fun b => half1 b (argmax (widths b))) l.

(** wrapper.py:797-801 while 2 * n_sub <= n_sub_boxes *)
Fixpoint refine_loop (fuel n_sub n_sub_boxes : nat) (bs : list (list box)) : nat * list (list box) :=
  match fuel with
  | O => (n_sub, bs)
  | S fuel' =>
      if (2 * n_sub <=? n_sub_boxes)%nat then refine_loop fuel' (2 * n_sub) n_sub_boxes (map split_boxes bs) else (n_sub, bs)
  end.

(** an array (None, n, ...) with a second axis of length one is a batch of boxes: lines 760-768.
    Line 765: x_max = np.reshape(x_min, ...) when there are several axes. Simplification: arrays of rank 1 are refused *)
Definition refine_boxes (xmin xmax : arr R) (n_sub_boxes : Z) : result (arr R * arr R) :=
  let shape := a_tail xmin in
  match shape with
  | [] => Err ValueError
  | _ =>
    let xmax' := if (1 <? length shape)%nat then a_rows xmin else a_rows xmax in
    let bs := map (fun p => [p]) (combine (a_rows xmin) xmax') in
    let N := Z.to_nat n_sub_boxes in
    let '(n_sub, bs') := refine_loop N 1 N bs in
    Ok (mk_arr (n_sub :: shape) (map (fun l => concat (map fst l)) bs'), mk_arr (n_sub :: shape) (map (fun l => concat (map snd l)) bs'))
  end.

(** wrapper.py:82-88: the sub-boxes become samples *)
Definition sub_boxes (xmin xmax : arr R) (n_sub_boxes : Z) : result (nat * arr R * arr R) :=
  if (1 <? n_sub_boxes)%Z then
    r <- refine_boxes xmin xmax n_sub_boxes ;
    let '(a, b) := r in
    match a_tail a with
    | n_split :: shape => a' <- reshape a shape ; b' <- reshape b shape ; Ok (n_split, a', b')
    | [] => Err ValueError
    end
  else Ok (1%nat, xmin, xmax).

(** ** get_range_box, wrapper.py:468-594 *)

(** np.sum(np.maximum(w, 0) * x_max) + np.sum(np.minimum(w, 0) * x_min) + b *)
Definition box_up (n : nat) (lo hi : vec) (w : vec) (b : R) : R := rsum n (fun i => Rpos (w i) * hi i) + rsum n (fun i => Rneg (w i) * lo i) + b.
Definition box_low (n : nat) (lo hi : vec) (w : vec) (b : R) : R := rsum n (fun i => Rpos (w i) * lo i) + rsum n (fun i => Rneg (w i) * hi i) + b.

(** lines 533-583 for one sample: (u_out, l_out) *)
Definition range_sample (m : wmodel) (p : list R * list R) : result (list R * list R) :=
  out <- wm_predict m (wm_domain m) (ztensor p) None ;
  let n := wm_n m in let k := wm_k m in
  let lo := fun i => nth i (fst p) 0 in let hi := fun i => nth i (snd p) 0 in
  let tab (f : nat -> R) := map f (seq 0 k) in
  match wm_ibp m, wm_affine m, out with
  | true, true, _ :: u :: wu :: bu :: l :: wl :: bl :: _ =>
      Ok (tab (fun j => Rmin (u 0%nat j) (box_up n lo hi (fun i => wu i j) (bu 0%nat j))),
          tab (fun j => Rmax (l 0%nat j) (box_low n lo hi (fun i => wl i j) (bl 0%nat j))))
  | false, true, _ :: wu :: bu :: wl :: bl :: _ =>
      Ok (tab (fun j => box_up n lo hi (fun i => wu i j) (bu 0%nat j)), tab (fun j => box_low n lo hi (fun i => wl i j) (bl 0%nat j)))
  | true, false, u :: l :: _ => Ok (tab (u 0%nat), tab (l 0%nat))
  | false, false, _ => Err NotImplementedError
  | _, _, _ => Err ValueError
  end.

Definition range_eval (m : wmodel) (samples : list (list R * list R)) : result (arr R * arr R) :=
  r <- mapR (range_sample m) samples ;
  Ok (mk_arr (wm_out m) (map fst r), mk_arr (wm_out m) (map snd r)).

(** a recursive call, on a slice: arrays of shape (len, 1, input_dim), batch_size = -1 *)
Definition range_call (m : wmodel) (samples : list (list R * list R)) : result (arr R * arr R) :=
  let xmin := mk_arr [1; wm_n m]%nat (map fst samples) in
  let xmax := mk_arr [1; wm_n m]%nat (map snd samples) in
  _ <- check_box xmin xmax ;
  m' <- box_model (Decomon m) ;
  s <- to_samples m' false xmin xmax ;
  range_eval m' s.

(** np.max(np.reshape(u, (-1, n_split)), -1): a rank 1 array *)
Definition row_max (r : list R) : R := match r with [] => 0 | x :: q => max_list x q end.
Definition row_min (r : list R) : R := match r with [] => 0 | x :: q => min_list x q end.
Definition reduce_split (red : list R -> R) (n_split : nat) (u : arr R) : result (arr R) :=
  if (1 <? n_split)%nat then
    v <- reshape u [n_split] ;
    Ok (mk_arr [] (map (fun r => [red r]) (a_rows v)))
  else Ok u.

Definition get_range_box (a : anymodel) (xmin xmax : arr R) (batch_size n_sub_boxes : Z) : result (arr R * arr R) :=
  _ <- check_box xmin xmax ;
  m <- box_model a ;
  sb <- sub_boxes xmin xmax n_sub_boxes ;
  let '(n_split, xmin', xmax') := sb in
  samples <- to_samples m false xmin' xmax' ;
  r <- (if (0 <? batch_size)%Z then
          rs <- mapR (range_call m) (slices (Z.to_nat batch_size) samples) ;
          u <- np_concat (map fst rs) ;
          l <- np_concat (map snd rs) ;
          Ok (u, l)
        else range_eval m samples) ;
  u <- reduce_split row_max n_split (fst r) ;
  l <- reduce_split row_min n_split (snd r) ;
  Ok (u, l).

(** get_upper_box and get_lower_box, wrapper.py:421-465 *)
Definition api_upper_box (a : anymodel) (xmin xmax : arr R) (batch_size n_sub_boxes : Z) : result (arr R) :=
  r <- get_range_box a xmin xmax batch_size n_sub_boxes ; Ok (fst r).
Definition api_lower_box (a : anymodel) (xmin xmax : arr R) (batch_size n_sub_boxes : Z) : result (arr R) :=
  r <- get_range_box a xmin xmax batch_size n_sub_boxes ; Ok (snd r).

(** ** labels, wrapper.py:30-37 *)
Inductive labels := LInt (c : Z) | LArr (a : arr Z).
Definition prepare_labels (l : labels) (n_batch : nat) : result (arr Z) :=
  match l with
  | LInt c => Ok (mk_arr [1%nat] (repeat [c] n_batch))
  | LArr a => reshape_first a n_batch
  end.
Definition prepare_opt (l : option labels) (n_batch : nat) : result (option (arr Z)) :=
  match l with None => Ok None | Some t => r <- prepare_labels t n_batch ; Ok (Some r) end.

(** wrapper.py:108-112: repeat every row n_split times; the target is reshaped with the shape of the source *)
Definition repeat_rows {A} (n_split : nat) (a : arr A) (shape : list nat) : result (arr A) :=
  if (1 <? n_split)%nat then reshape (mk_arr (n_split :: a_tail a) (map (fun r => concat (repeat r n_split)) (a_rows a))) shape else Ok a.

(** ** the scores, wrapper.py:158-230 *)

(** numpy broadcasting of two batch axes *)
Definition bcast {A B} (l1 : list A) (l2 : list B) : result (list (A * B)) :=
  if (length l1 =? length l2)%nat then Ok (combine l1 l2)
  else match l1, l2 with
       | [a], _ => Ok (map (fun b => (a, b)) l2)
       | _, [b] => Ok (map (fun a => (a, b)) l1)
       | _, _ => Err ValueError
       end.

Definition zat (r : list Z) (i : nat) : R := IZR (nth i r 0%Z).
(** t_tensor_reshaped[:, :, None] * s_tensor_reshaped[:, None, :] *)
Definition pair_mask (p : list Z * list Z) (t s : nat) : R := zat (fst p) t * zat (snd p) s.

Definition block_max (k : nat) (up : mat) : R := rmax k (fun s => rmax k (fun t => up t s)).
Definition block_min (k : nat) (up : mat) : R := rmin k (fun s => rmin k (fun t => up t s)).
Definition batch_max (k : nat) (ups : list mat) : R := row_max (map (block_max k) ups).
Definition batch_min (k : nat) (ups : list mat) : R := row_min (map (block_min k) ups).

(** const = upper.max() - upper.min(); upper -= (1 - mask) * (const + 0.1); np.max(np.max(upper, -2), -1).
    The subtraction is in place: the mask must have the batch axis of upper, or length 1 *)
Definition penalised (k : nat) (ups : list mat) (source : arr Z) (target : option (arr Z)) : result (list R) :=
  let target' := match target with Some t => t | None => mk_arr (a_tail source) (map (map (fun v => 1 - v)%Z) (a_rows source)) end in
  t <- reshape target' [k] ;
  s <- reshape source [k] ;
  mask <- bcast (a_rows t) (a_rows s) ;
  if (negb (length mask =? length ups)%nat && negb (length mask =? 1)%nat)%bool then Err ValueError
  else
    let const := batch_max k ups - batch_min k ups in
    pairs <- bcast ups mask ;
    Ok (map (fun q => block_max k (fun t s => fst q t s - (1 - pair_mask (snd q) t s) * (const + 1 / 10))) pairs).

(** wrapper.py:157-182 get_ibp_score *)
Definition ibp_upper (u l : tensor) : mat := fun t s => u 0%nat t - l 0%nat s.
(** wrapper.py:184-230 get_affine_score *)
Definition affine_upper (n : nat) (x wu bu wl bl : tensor) : mat := fun t s =>
  rsum n (fun i => Rpos (wu i t - wl i s) * x 1%nat i) + rsum n (fun i => Rneg (wu i t - wl i s) * x 0%nat i) + (bu 0%nat t - bl 0%nat s).
Definition affine_back (n : nat) (x wu bu : tensor) : vec := fun j =>
  rsum n (fun i => Rpos (wu i j) * x 1%nat i) + rsum n (fun i => Rneg (wu i j) * x 0%nat i) + bu 0%nat j.

(** C = np.diag([1] * n_label)[None] - source_labels[:, :, None] *)
Definition back_matrix (r : list Z) : mat := fun i j => (if (i =? j)%nat then 1 else 0) - zat r i.

(** the bounds of the outputs for one sample: x, u_c, w_u, b_u, l_c, w_l, b_l, the absent ones are zero (wrapper.py:232-239) *)
Record bnds := mk_bnds { bn_x : tensor; bn_u : tensor; bn_wu : tensor; bn_bu : tensor; bn_l : tensor; bn_wl : tensor; bn_bl : tensor }.
Definition zero_t : tensor := fun _ _ => 0.
Definition unpack_output (ibp affine : bool) (out : list tensor) : result bnds :=
  match ibp, affine, out with
  | true, true, x :: u :: wu :: bu :: l :: wl :: bl :: _ => Ok (mk_bnds x u wu bu l wl bl)
  | false, true, x :: wu :: bu :: wl :: bl :: _ => Ok (mk_bnds x zero_t wu bu zero_t wl bl)
  | true, false, u :: l :: _ => Ok (mk_bnds zero_t u zero_t zero_t l zero_t zero_t)
  | false, false, _ => Err NotImplementedError
  | _, _, _ => Err ValueError
  end.

(** np.minimum of two score vectors *)
Definition min_rows (a b : list R) : list R := map (fun p => Rmin (fst p) (snd p)) (combine a b).

(** wrapper.py:143-256, batch_size <= 0. Simplification: outputs of rank 1. With back bounds, C has the shape
    (None, n_label, n_label): the model refuses another size than its number of outputs *)
Definition adv_eval (m : wmodel) (samples : list (list R * list R)) (source : arr Z) (target : option (arr Z)) : result (list R) :=
  let n := wm_n m in let k := wm_k m in
  outs <- (if wm_bb m
           then if negb (forallb (fun r => (length r =? k)%nat) (a_rows source)) then Err ValueError else
                sc <- bcast samples (a_rows source) ;
                mapR (fun q => wm_predict m (wm_domain m) (ztensor (fst q)) (Some (back_matrix (snd q)))) sc
           else mapR (fun p => wm_predict m (wm_domain m) (ztensor p) None) samples) ;
  bs <- mapR (unpack_output (wm_ibp m) (wm_affine m)) outs ;
  (* lines 169-170 and 204-205, also evaluated with back bounds *)
  _ <- (if wm_bb m then match target with Some t => r <- reshape t [k] ; Ok tt | None => Ok tt end else Ok tt) ;
  si <- (if wm_ibp m
         then if wm_bb m then Ok (map (fun b => rmax k (bn_u b 0%nat)) bs)
              else penalised k (map (fun b => ibp_upper (bn_u b) (bn_l b)) bs) source target
         else Ok []) ;
  sa <- (if wm_affine m
         then if wm_bb m then Ok (map (fun b => rmax k (affine_back n (bn_x b) (bn_wu b) (bn_bu b))) bs)
              else penalised k (map (fun b => affine_upper n (bn_x b) (bn_wu b) (bn_bu b) (bn_wl b) (bn_bl b)) bs) source target
         else Ok []) ;
  match wm_ibp m, wm_affine m with
  | true, true => Ok (min_rows si sa)
  | true, false => Ok si
  | false, true => Ok sa
  | false, false => Err NotImplementedError
  end.

(** recursive call on a slice *)
Definition adv_call (m : wmodel) (samples : list (list R * list R)) (source : arr Z) (target : option (arr Z)) : result (list R) :=
  let xmin := mk_arr [1; wm_n m]%nat (map fst samples) in
  let xmax := mk_arr [1; wm_n m]%nat (map snd samples) in
  _ <- check_box xmin xmax ;
  m' <- box_model (Decomon m) ;
  s <- to_samples m' true xmin xmax ;
  src <- prepare_labels (LArr source) (alen xmin) ;
  tgt <- prepare_opt (option_map LArr target) (alen xmin) ;
  adv_eval m' s src tgt.

Definition arr_slices {A} (b : nat) (a : arr A) (c : nat) : list (arr A) :=
  map (fun i => mk_arr (a_tail a) (firstn b (skipn (b * i) (a_rows a)))) (seq 0 c).

(** get_adv_box, wrapper.py:41-260 *)
Definition get_adv_box (a : anymodel) (xmin xmax : arr R) (source : labels) (target : option labels) (batch_size n_sub_boxes : Z) : result (list R) :=
  _ <- check_box xmin xmax ;
  m <- box_model a ;
  let n_batch := alen xmin in
  sb <- sub_boxes xmin xmax n_sub_boxes ;
  let '(n_split, xmin', xmax') := sb in
  samples <- to_samples m true xmin' xmax' ;
  src0 <- prepare_labels source n_batch ;
  tgt0 <- prepare_opt target n_batch ;
  src <- repeat_rows n_split src0 (a_tail src0) ;
  tgt <- match tgt0 with None => Ok None | Some t => r <- repeat_rows n_split t (a_tail src0) ; Ok (Some r) end ;
  score <- (if (0 <? batch_size)%Z then
              let b := Z.to_nat batch_size in
              let xs := slices b samples in
              let c := length xs in
              rs <- mapR (fun q => adv_call m (fst q) (fst (snd q)) (snd (snd q)))
                      (combine xs (combine (arr_slices b src c)
                         (match tgt with None => repeat None c | Some t => map Some (arr_slices b t c) end))) ;
              match rs with [] => Err ValueError | _ => Ok (concat rs) end
            else adv_eval m samples src tgt) ;
  if (1 <? n_split)%nat then r <- reduce_split row_max n_split (mk_arr [] (map (fun v => [v]) score)) ; Ok (concat (a_rows r))
  else Ok score.

(** ** check_adv_box, wrapper.py:263-418. The batch has to be given: n_split stays 1 *)
Definition check_eval (m : wmodel) (samples : list (list R * list R)) (source : arr Z) : result (list R) :=
  let n := wm_n m in let k := wm_k m in
  ups <- mapR (fun p =>
           out <- wm_predict m (wm_domain m) (ztensor p) None ;
           b <- (if wm_affine m then unpack_output (wm_ibp m) true out
                 else match out with
                      | u :: _ => Ok (mk_bnds (ztensor p) zero_t zero_t u zero_t zero_t (last out zero_t))
                      | [] => Err IndexError
                      end) ;
           (* line 418: get_affine_sample(z, w_l_f, b_l_f, w_u_f, b_u_f, source_labels) *)
           Ok (affine_upper n (bn_x b) (bn_wl b) (bn_bl b) (bn_wu b) (bn_bu b))) samples ;
  penalised k ups source None.

Definition check_call (m : wmodel) (samples : list (list R * list R)) (source : arr Z) (target : option (arr Z)) : result (list R) :=
  let xmin := mk_arr [1; wm_n m]%nat (map fst samples) in
  let xmax := mk_arr [1; wm_n m]%nat (map snd samples) in
  _ <- check_box xmin xmax ;
  m' <- box_model (Decomon m) ;
  s <- to_samples m' false xmin xmax ;
  src <- prepare_labels (LArr source) (alen xmin) ;
  _ <- prepare_opt (option_map LArr target) (alen xmin) ;
  check_eval m' s src.

(** the targets are arrays of integers after line 325, so lines 344-353 always gives all of them to every call *)
Definition check_adv_box (a : anymodel) (xmin xmax : arr R) (source : labels) (target : option labels) (batch_size : Z) : result (list R) :=
  _ <- check_box xmin xmax ;
  m <- box_model a ;
  let n_batch := alen xmin in
  samples <- to_samples m false xmin xmax ;
  src <- prepare_labels source n_batch ;
  (* line 324: target_labels.reshape, an integer has no such method *)
  tgt <- match target with Some (LInt _) => Err AttributeError | _ => prepare_opt target n_batch end ;
  if (0 <? batch_size)%Z then
    let b := Z.to_nat batch_size in
    let xs := slices b samples in
    rs <- mapR (fun q => check_call m (fst q) (snd q) tgt) (combine xs (arr_slices b src (length xs))) ;
    match rs with [] => Err ValueError | _ => Ok (concat rs) end
  else check_eval m samples src.

(** ** refine_box, wrapper.py:807-908 *)

(** state for one sample: the boxes and the widths used to choose *)
Definition rstate := list (box * list R).
(** random choices: np.random.randint(k) raises ValueError for k <= 0, else any value below k *)
Definition randint (k draw : nat) : result nat := if (k =? 0)%nat then Err ValueError else Ok (draw mod k)%nat.

(** lines 871-897, one pass of the loop *)
Definition rpick (random : option (nat * nat)) (n : nat) (st : rstate) : result (nat * nat) :=
  match random with
  | None =>
      let i := argmax (map (fun q => row_max (snd q)) st) in
      Ok (i, argmax (snd (nth i st (([], []), []))))
  | Some (d1, d2) => i <- randint (length st - 1) d1 ; j <- randint n d2 ; Ok (i, j)
  end.
Fixpoint replace_nth {A} (i : nat) (v : A) (l : list A) : list A :=
  match l, i with
  | [], _ => []
  | _ :: q, O => v :: q
  | x :: q, S i' => x :: replace_nth i' v q
  end.
Definition rstep (random : option (nat * nat)) (n : nat) (st : rstate) : result rstate :=
  ij <- rpick random n st ;
  let '(i, j) := ij in
  let '(b, w) := nth i st (([], []), []) in
  let w' := set_nth j (nth j w 0 / 2) w in
  Ok (replace_nth i (half0 b j, w') st ++ [(half1 b j, w')]).
Fixpoint rloop (draws : option (nat -> nat * nat)) (n count steps : nat) (st : rstate) : result rstate :=
  match steps with
  | O => Ok st
  | S q => st' <- rstep (option_map (fun f => f count) draws) n st ; rloop draws n (S count) q st'
  end.
Definition rsplit (draws : option (nat -> nat * nat)) (n n_split : nat) (b : box) : result (list box) :=
  st <- rloop draws n 1 (n_split - 1) [(b, widths b)] ; Ok (map fst st).

Inductive rfunc := FUpper | FLower | FRange | FAdv | FCheck | FOther.

(** lines 848-870 priv_func followed by lines 902-908. Adversarial scores: the labels are those of the initial samples *)
Definition refine_box (f : rfunc) (a : anymodel) (xmin xmax : arr R) (n_split : nat) (source target : option labels) (batch_size : Z)
    (draws : option (nat -> nat -> nat * nat)) : result (arr R) :=
  match f with
  | FOther => Err NotImplementedError
  | _ =>
    m <- box_model a ;
    if wm_bb m then Err TypeError else
    lo <- reshape xmin [wm_n m] ;
    hi <- reshape xmax [wm_n m] ;
    if negb (alen lo =? alen hi)%nat then Err ValueError else
    if (n_split =? 0)%nat then Err IndexError else
    let samples := combine (a_rows lo) (a_rows hi) in
    bss <- mapR (fun q => rsplit (option_map (fun d => d (fst q)) draws) (wm_n m) n_split (snd q)) (combine (seq 0 (length samples)) samples) ;
    let xmin' := mk_arr [wm_n m] (map fst (concat bss)) in
    let xmax' := mk_arr [wm_n m] (map snd (concat bss)) in
    let agg (red : list R -> R) (u : arr R) :=
      (* results.reshape((n_x, n_split, -1)) reduced along axis 1 *)
      v <- reshape_first u (length samples * n_split) ;
      let k := prodn (a_tail v) in
      Ok (mk_arr [k] (map (fun rows => map (fun j => red (map (fun r => nth j r 0) rows)) (seq 0 k)) (chunks (length samples) n_split (a_rows v)))) in
    match f with
    | FUpper => u <- api_upper_box (Decomon m) xmin' xmax' batch_size 1 ; agg row_max u
    | FLower => l <- api_lower_box (Decomon m) xmin' xmax' batch_size 1 ; agg row_min l
    | FRange => _ <- get_range_box (Decomon m) xmin' xmax' batch_size 1 ; Err NotImplementedError
    | FAdv | FCheck =>
        match source with
        | None => Err TypeError
        | Some s =>
            r <- match f with
                 | FAdv => get_adv_box (Decomon m) xmin' xmax' s target batch_size 1
                 | _ => check_adv_box (Decomon m) xmin' xmax' s target batch_size
                 end ;
            v <- reshape_first (mk_arr [] (map (fun x => [x]) r)) (length samples) ;
            if negb (prodn (a_tail v) =? n_split)%nat then Err ValueError
            else Ok (mk_arr [] (map (fun r => [row_max r]) (a_rows v)))
        end
    | FOther => Err NotImplementedError
    end
  end.

(** ** Lp balls *)

(** _get_dual_ord, wrapper.py:19-27 *)
Definition get_dual_ord (p : pord) : result pord :=
  match p with
  | Pinf => Ok (Pnum 1)
  | Pnum 1 => Ok Pinf
  | Pnum 2 => Ok (Pnum 2)
  | _ => Err ValueError
  end.
(** np.linalg.norm(w, ord, axis=1) *)
Definition lin_norm (ord : pord) (n : nat) (w : vec) : R :=
  match ord with
  | Pinf => rmax n (fun i => Rabs (w i))
  | Pnum 1 => rsum n (fun i => Rabs (w i))
  | _ => sqrt (rsum n (fun i => w i * w i))
  end.

Definition xtensor (x : list R) : tensor := fun c i => if (c =? 0)%nat then nth i x 0 else 0.

(** get_range_noise, wrapper.py:699-755, for one sample *)
Definition noise_sample (m : wmodel) (eps : R) (ord : pord) (x : list R) : result (list R * list R) :=
  out <- wm_predict m (wm_domain m) (xtensor x) None ;
  let n := wm_n m in let k := wm_k m in
  let tab (f : nat -> R) := map f (seq 0 k) in
  let up (w : mat) (b : vec) j := eps * lin_norm ord n (fun i => w i j) + rsum n (fun i => w i j * nth i x 0) + b j in
  let low (w : mat) (b : vec) j := - eps * lin_norm ord n (fun i => w i j) + rsum n (fun i => w i j * nth i x 0) + b j in
  match wm_ibp m, wm_affine m, out with
  | true, true, _ :: u :: wu :: bu :: l :: wl :: bl :: _ =>
      Ok (tab (fun j => Rmin (u 0%nat j) (up wu (bu 0%nat) j)), tab (fun j => Rmax (l 0%nat j) (low wl (bl 0%nat) j)))
  | false, true, _ :: wu :: bu :: wl :: bl :: _ => Ok (tab (up wu (bu 0%nat)), tab (low wl (bl 0%nat)))
  | true, false, u :: l :: _ => Ok (tab (u 0%nat), tab (l 0%nat))
  | false, false, _ => Err NotImplementedError
  | _, _, _ => Err ValueError
  end.

Definition noise_eval (m : wmodel) (eps : R) (p : pord) (xs : list (list R)) : result (arr R * arr R) :=
  ord <- get_dual_ord p ;
  r <- mapR (noise_sample m eps ord) xs ;
  Ok (mk_arr (wm_out m) (map fst r), mk_arr (wm_out m) (map snd r)).

(** lines 672-691: the model, its domain *)
Definition noise_model (a : anymodel) (eps : R) (p : pord) : result wmodel :=
  match a with
  | Keras c => Ok c
  | Decomon d => if Rle_dec 0 eps then wset_domain d (Ball (Rmax 0 eps) p) else Ok d
  end.

Definition noise_call (m : wmodel) (eps : R) (p : pord) (xs : list (list R)) : result (arr R * arr R) :=
  m' <- noise_model (Decomon m) eps p ;
  x <- reshape (mk_arr [wm_n m'] xs) [wm_n m'] ;
  noise_eval m' eps p (a_rows x).

(** wrapper.py:650-755. Simplification: the model has no back bounds *)
Definition get_range_noise (a : anymodel) (x : arr R) (eps : R) (p : pord) (batch_size : Z) : result (arr R * arr R) :=
  m <- noise_model a eps p ;
  xr <- reshape x [wm_n m] ;
  if (0 <? batch_size)%Z then
    rs <- mapR (noise_call m eps p) (slices (Z.to_nat batch_size) (a_rows xr)) ;
    u <- np_concat (map fst rs) ;
    l <- np_concat (map snd rs) ;
    Ok (u, l)
  else noise_eval m eps p (a_rows xr).

(** wrapper.py:598-646 *)
Definition get_upper_noise (a : anymodel) (x : arr R) (eps : R) (p : pord) (batch_size : Z) : result (arr R) :=
  r <- get_range_noise a x eps p batch_size ; Ok (fst r).
Definition get_lower_noise (a : anymodel) (x : arr R) (eps : R) (p : pord) (batch_size : Z) : result (arr R) :=
  r <- get_range_noise a x eps p batch_size ; Ok (snd r).

(** ** get_adv_noise, wrapper.py:912-1112 *)

(** lines 1080-1087: the else belongs to the third if *)
Definition adv_noise_eval (m : wmodel) (xs : list (list R)) (source : arr Z) (target : option (arr Z)) : result (list R) :=
  outs <- mapR (fun x => wm_predict m (wm_domain m) (xtensor x) None) xs ;
  if wm_affine m then
    if wm_ibp m then _ <- mapR (unpack_output true true) outs ; Err NotImplementedError
    else _ <- mapR (unpack_output false true) outs ; Err NotImplementedError
  else if wm_ibp m then
    bs <- mapR (unpack_output true false) outs ;
    penalised (wm_k m) (map (fun b => ibp_upper (bn_u b) (bn_l b)) bs) source target
  else Err NotImplementedError.

(** lines 953-958: an integer target is replaced by the source *)
Definition noise_source (l : labels) (n_batch : nat) : result (arr Z) := prepare_labels l n_batch.
Definition noise_target (l : option labels) (source : arr Z) (n_batch : nat) : result (option (arr Z)) :=
  match l with
  | None => Ok None
  | Some (LInt _) => r <- reshape_first source n_batch ; Ok (Some r)
  | Some (LArr t) => r <- reshape_first t n_batch ; Ok (Some r)
  end.

Definition adv_noise_call (m : wmodel) (eps : R) (p : pord) (xs : list (list R)) (source : arr Z) (target : option (arr Z)) : result (list R) :=
  m' <- noise_model (Decomon m) eps p ;
  x <- reshape (mk_arr [wm_n m'] xs) [wm_n m'] ;
  src <- noise_source (LArr source) (alen x) ;
  tgt <- noise_target (option_map LArr target) src (alen x) ;
  adv_noise_eval m' (a_rows x) src tgt.

Definition get_adv_noise (a : anymodel) (x : arr R) (source : labels) (eps : R) (p : pord) (target : option labels) (batch_size : Z) : result (list R) :=
  m <- noise_model a eps p ;
  (* line 948: eps = model.perturbation_domain.eps, on the argument *)
  e <- match a with
       | Keras _ => Err AttributeError
       | Decomon _ => match wm_domain m with Ball e _ => Ok e | Box => Err AttributeError end
       end ;
  xr <- reshape x [wm_n m] ;
  src <- noise_source source (alen xr) ;
  tgt <- noise_target target src (alen xr) ;
  if (0 <? batch_size)%Z then
    let b := Z.to_nat batch_size in
    let xs := slices b (a_rows xr) in
    (* the target is an array of integers: line 1003 gives all of it to every call *)
    rs <- mapR (fun q => adv_noise_call m e p (fst q) (snd q) tgt) (combine xs (arr_slices b src (length xs))) ;
    match rs with [] => Err ValueError | _ => Ok (concat rs) end
  else adv_noise_eval m (a_rows xr) src tgt.

(** ** wrapper_with_tuning.py *)

(** A model with finetuning coefficients of type P: [ev p] is the model under coefficients p. [fit] stands for the
    training of decomon_model_concat.fit (any update of the coefficients), [reset] for reset_finetuning. *)
Record tuner (P : Type) := mk_tuner { tu_ev : P -> wmodel; tu_fit : P -> list (list R * list R) -> arr R -> P; tu_reset : P -> P }.
Arguments mk_tuner {P} _ _ _. Arguments tu_ev {P} _ _. Arguments tu_fit {P} _ _ _ _. Arguments tu_reset {P} _ _.

(** np.minimum of two arrays; Simplification: no broadcasting *)
Definition np_minimum (a b : arr R) : result (arr R) :=
  if (nat_list_eqb (a_tail a) (a_tail b) && (alen a =? alen b)%nat)%bool
  then Ok (mk_arr (a_tail a) (map (fun p => min_rows (fst p) (snd p)) (combine (a_rows a) (a_rows b)))) else Err ValueError.

(** fit refuses data of different lengths *)
Definition tune_fit {P} (T : tuner P) (p : P) (z : list (list R * list R)) (baseline : arr R) : result P :=
  if (length z =? alen baseline)%nat then Ok (tu_fit T p z baseline) else Err ValueError.

(** lines 81-96 and 168-183: the bound to improve, the tuned one, the final coefficients *)
Definition tune_last {P} (get : anymodel -> arr R -> arr R -> Z -> Z -> result (arr R)) (T : tuner P) (p : P) (baseline : arr R)
    (samples : list (list R * list R)) (batch_size n_sub_boxes : Z) : result (arr R * P) :=
  p' <- tune_fit T p samples baseline ;
  let m := tu_ev T p' in
  let xmin := mk_arr [1; wm_n m]%nat (map fst samples) in
  let xmax := mk_arr [1; wm_n m]%nat (map snd samples) in
  v <- get (Decomon m) xmin xmax batch_size n_sub_boxes ;
  r <- np_minimum baseline v ;
  Ok (r, tu_reset T p').

Definition tune_call {P} (get : anymodel -> arr R -> arr R -> Z -> Z -> result (arr R)) (T : tuner P) (p : P) (samples : list (list R * list R)) : result (arr R * P) :=
  let m := tu_ev T p in
  let xmin := mk_arr [1; wm_n m]%nat (map fst samples) in
  let xmax := mk_arr [1; wm_n m]%nat (map snd samples) in
  _ <- check_box xmin xmax ;
  baseline <- get (Decomon m) xmin xmax (-1)%Z 1%Z ;
  s <- to_samples m false xmin xmax ;
  tune_last get T p baseline s (-1)%Z 1%Z.

Fixpoint tune_calls {P} (get : anymodel -> arr R -> arr R -> Z -> Z -> result (arr R)) (T : tuner P) (p : P) (l : list (list (list R * list R))) : result (list (arr R) * P) :=
  match l with
  | [] => Ok ([], p)
  | s :: q => r <- tune_call get T p s ; rs <- tune_calls get T (snd r) q ; Ok (fst r :: fst rs, snd rs)
  end.

(** get_upper_box_tuning (14-96) splits when batch_size > 1, get_lower_box_tuning (100-183) when
    batch_size > 0 and batch_size != len(x_min); the latter resets once more after its calls *)
Definition box_tuning {P} (lower : bool) (T : tuner P) (p : P) (xmin xmax : arr R) (batch_size n_sub_boxes : Z) : result (arr R * P) :=
  let get := if lower then api_lower_box else api_upper_box in
  let m := tu_ev T p in
  _ <- check_box xmin xmax ;
  baseline <- get (Decomon m) xmin xmax batch_size n_sub_boxes ;
  sb <- sub_boxes xmin xmax n_sub_boxes ;
  let '(_, xmin', xmax') := sb in
  s <- to_samples m false xmin' xmax' ;
  if (if lower then (0 <? batch_size)%Z && negb (batch_size =? Z.of_nat (length s))%Z else (1 <? batch_size)%Z)%bool then
    rs <- tune_calls get T p (slices (Z.to_nat batch_size) s) ;
    r <- np_concat (fst rs) ;
    Ok (r, if lower then tu_reset T (snd rs) else snd rs)
  else tune_last get T p baseline s batch_size n_sub_boxes.
