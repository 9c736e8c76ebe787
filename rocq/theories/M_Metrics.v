(** Model of src/decomon/metrics: loss.py, metric.py and utils.py, sample by sample.
    Simplification: the outputs of the network are vectors (one axis after the batch axis). *)
From Coq Require Import Reals List Arith Bool ZArith String.
From Verif Require Import RLib Spec M_Core M_Utils M_Ops M_Backward M_Convert.
Import ListNotations.
Local Open Scope R_scope.

(** ** Two-dimensional arrays: numbers of rows and columns, entries *)
Record marr := mk_marr { m_r : nat; m_c : nat; m_v : mat }.
(** K.concatenate([a, b], 1) and K.concatenate([a, b], -1), the batch axis being axis 0 *)
Definition vcat (a b : marr) : result marr :=
  if Nat.eqb (m_c a) (m_c b)
  then Ok (mk_marr (m_r a + m_r b) (m_c a) (fun i j => if (i <? m_r a)%nat then m_v a i j else m_v b (i - m_r a)%nat j))
  else Err ValueError.
Definition hcat (a b : marr) : result marr :=
  if Nat.eqb (m_r a) (m_r b)
  then Ok (mk_marr (m_r a) (m_c a + m_c b) (fun i j => if (j <? m_c a)%nat then m_v a i j else m_v b i (j - m_c a)%nat))
  else Err ValueError.
(** v[:, None]: one row *)
Definition row_of_vec (k : nat) (v : vec) : marr := mk_marr 1 k (fun _ => v).
(** K.expand_dims(v, -1): one column *)
Definition col_of_vec (k : nat) (v : vec) : marr := mk_marr k 1 (fun j _ => v j).
(** y[:, :-c], y[:, -c], y[:, :, lo:hi] *)
Definition drop_rows (c : nat) (a : marr) : marr := mk_marr (m_r a - c) (m_c a) (m_v a).
Definition row_from_end (c : nat) (a : marr) : result marr :=
  if (c <=? m_r a)%nat then Ok (mk_marr 1 (m_c a) (fun _ => m_v a (m_r a - c)%nat)) else Err IndexError.
Definition cols (lo hi : nat) (a : marr) : marr := mk_marr (m_r a) (Nat.min hi (m_c a) - lo) (fun i j => m_v a i (lo + j)%nat).

(** ** loss.py:24-97 get_model: one array from the outputs of a model.
    Lines 47-50, 67-70: x has two axes (ball) or three (box); in both cases entry (i, c) is component c of coordinate i. *)
Definition x_reshaped (D : domain) (n : nat) (x : tensor) : marr :=
  match D with
  | Ball _ _ => mk_marr n 1 (fun i _ => x 0%nat i)
  | Box => mk_marr n 2 (fun i c => x c i)
  end.
Definition x_fake (x : marr) : marr := row_of_vec (m_c x) (fun c => rsum (m_r x) (fun i => m_v x i c)).
Definition w_b_of (n k : nat) (w b : tensor) : result marr := vcat (mk_marr n k w) (row_of_vec k (b 0%nat)).
Definition get_model (D : domain) (mode : fmode) (n k : nat) (ts : list tensor) : result marr :=
  match mode, ts with
  | IBP, [u; l] => hcat (col_of_vec k (u 0%nat)) (col_of_vec k (l 0%nat))
  | AFFINE, [x; wu; bu; wl; bl] =>
      x0 <- vcat (x_reshaped D n x) (x_fake (x_reshaped D n x)) ;
      wbu <- w_b_of n k wu bu ;
      wbl <- w_b_of n k wl bl ;
      wb <- hcat wbu wbl ;
      hcat x0 wb
  | HYBRID, [x; u; wu; bu; l; wl; bl] =>
      x0 <- vcat (x_reshaped D n x) (x_fake (x_reshaped D n x)) ;
      x1 <- vcat x0 (x_fake (x_reshaped D n x)) ;
      wbu <- w_b_of n k wu bu ;
      wbl <- w_b_of n k wl bl ;
      wb <- hcat wbu wbl ;
      ul <- hcat (row_of_vec k (u 0%nat)) (row_of_vec k (l 0%nat)) ;
      wbul <- vcat wb ul ;
      hcat x1 wbul
  | _, _ => Err ValueError
  end.

(** ** The slices of the losses: loss.py:119-140, 181-202, 275-314. [c]: number of rows below the weights,
    1 in affine mode and 2 in hybrid mode; the array always has three axes with the batch axis. *)
Definition below (mode : fmode) : nat := match mode with AFFINE => 1 | _ => 2 end.
Definition sl_x (mode : fmode) (n_comp : nat) (y : marr) : tensor := fun c i => m_v (cols 0 n_comp (drop_rows (below mode) y)) i c.
Definition sl_w (mode : fmode) (lo hi : nat) (y : marr) : marr := cols lo hi (drop_rows (below mode) y).
Definition sl_b (mode : fmode) (lo hi : nat) (y : marr) : result marr := r <- row_from_end (below mode) y ; Ok (cols lo hi r).
Definition sl_c (lo hi : nat) (y : marr) : result marr := r <- row_from_end 1 y ; Ok (cols lo hi r).
Definition sl_upper (D : domain) (k : nat) : nat * nat := (get_nb_x_components D, get_nb_x_components D + k)%nat.
Definition sl_lower (D : domain) (k : nat) (y : marr) : nat * nat := (get_nb_x_components D + k, m_c y)%nat.
(** [x; u; wu; bu; l; wl; bl] *)
Record sliced := mk_sliced { s_x : tensor; s_u : marr; s_wu : marr; s_bu : marr; s_l : marr; s_wl : marr; s_bl : marr }.
Definition none_marr : marr := mk_marr 0 0 (fun _ _ => 0).
Definition slices (D : domain) (mode : fmode) (k : nat) (y : marr) : result sliced :=
  let '(ulo, uhi) := sl_upper D k in
  let '(llo, lhi) := sl_lower D k y in
  match mode with
  | IBP => Ok (mk_sliced (fun _ _ => 0) (mk_marr 1 (m_r y) (fun _ j => m_v y j 0%nat)) none_marr none_marr
                 (mk_marr 1 (m_r y) (fun _ j => m_v y j 1%nat)) none_marr none_marr)
  | AFFINE =>
      bu <- sl_b AFFINE ulo uhi y ; bl <- sl_b AFFINE llo lhi y ;
      Ok (mk_sliced (sl_x AFFINE (get_nb_x_components D) y) none_marr (sl_w AFFINE ulo uhi y) bu none_marr (sl_w AFFINE llo lhi y) bl)
  | HYBRID =>
      bu <- sl_b HYBRID ulo uhi y ; bl <- sl_b HYBRID llo lhi y ;
      u <- sl_c ulo uhi y ; l <- sl_c llo lhi y ;
      Ok (mk_sliced (sl_x HYBRID (get_nb_x_components D) y) u (sl_w HYBRID ulo uhi y) bu l (sl_w HYBRID llo lhi y) bl)
  end.

(** ** perturbation_domain.get_upper / get_lower on the slice x_0 (core.py:466-583). For a box x_0 has its usual shape
    (batch, 2, n). For a ball it has shape (batch, 1, n) instead of (batch, n) and is broadcast against w of shape
    (batch, n, k1, k2): its last axis meets the axis of k1 values. Result: number of values of that axis, values
    (row-major when k2 is not 1). *)
Definition rank3_lterm (eps : R) (p : pord) (w x : R) : R :=
  match p with Pinf => Rmax w 0 * (x - eps) + Rmin w 0 * (x + eps) | _ => w * x end.
Definition loss_bound (up : bool) (D : domain) (n k1 k2 : nat) (x : tensor) (w : mat) (b : vec) : result (nat * vec) :=
  match D with
  | Box => v <- (if up then get_upper Box n false x w b no_kw else get_lower Box n false x w b no_kw) ; Ok (k1, v)
  | Ball eps p =>
      q <- rank3_radius eps p n w ;
      let term := if up then rank3_term eps p else rank3_lterm eps p in
      let q' : vec := if up then q else (fun j => - q j) in
      if Nat.eqb n 1 then Ok (k1, fun j => rsum n (fun i => term (w i j) (x 0%nat 0%nat)) + (q' j + b j))
      else if Nat.eqb n k1 then Ok (k1, fun j => rsum n (fun i => term (w i j) (x 0%nat (j / k2)%nat)) + (q' j + b j))
      else if Nat.eqb k1 1 then Ok (n, fun j => rsum n (fun i => term (w i (j mod k2)%nat) (x 0%nat (j / k2)%nat)) + (q' (j mod k2)%nat + b (j mod k2)%nat))
      else Err ValueError
  end.

(** K.mean *)
Definition mean (l : list R) : R := sum_list l / INR (List.length l).
(** a sample: reference or label y_true, array y_pred *)
Definition sample := (vec * marr)%type.

(** ** loss.py:100-159 get_upper_loss *)
Definition upper_sample (D : domain) (mode : fmode) (k : nat) (a : sample) : result R :=
  s <- slices D mode k (snd a) ;
  let score_ibp := rmax k (fun j => m_v (s_u s) 0%nat j - fst a j) in
  score_affine <- (if get_affine mode then
      r <- loss_bound true D (m_r (s_wu s)) k 1 (s_x s) (m_v (s_wu s)) (m_v (s_bu s) 0%nat) ;
      Ok (rmax (fst r) (fun j => snd r j - fst a (if Nat.eqb (fst r) k then j else O)))
    else Ok 0) ;
  Ok (match mode with IBP => score_ibp | AFFINE => score_affine | HYBRID => Rmin score_ibp score_affine end).
Definition upper_loss (D : domain) (mode : fmode) (k : nat) (batch : list sample) : result R :=
  vs <- mapR (upper_sample D mode k) batch ; Ok (mean vs).

(** ** loss.py:162-221 get_lower_loss *)
Definition lower_sample (D : domain) (mode : fmode) (k : nat) (a : sample) : result R :=
  s <- slices D mode k (snd a) ;
  let score_ibp := rmax k (fun j => fst a j - m_v (s_l s) 0%nat j) in
  score_affine <- (if get_affine mode then
      r <- loss_bound false D (m_r (s_wl s)) k 1 (s_x s) (m_v (s_wl s)) (m_v (s_bl s) 0%nat) ;
      Ok (rmax (fst r) (fun j => fst a (if Nat.eqb (fst r) k then j else O) - snd r j))
    else Ok 0) ;
  Ok (match mode with IBP => score_ibp | AFFINE => score_affine | HYBRID => Rmin score_ibp score_affine end).
Definition lower_loss (D : domain) (mode : fmode) (k : nat) (batch : list sample) : result R :=
  vs <- mapR (lower_sample D mode k) batch ; Ok (mean vs).

(** ** loss.py:224-346 get_adv_loss *)
Definition max2 (r c : nat) (up : mat) : R := rmax r (fun t => rmax c (fun s => up t s)).
Definition min2 (r c : nat) (up : mat) : R := rmin r (fun t => rmin c (fun s => up t s)).
(** lines 237-246, 264-273: pairs outside the mask are lowered below all the others; [r] rows (targets), k columns *)
Definition adv_max (r k : nat) (up : mat) (y : vec) : R :=
  let M : mat := fun t s => (1 - y (if Nat.eqb r k then t else O)) * y s in
  let const := max2 r k up - min2 r k up in
  max2 r k (fun t s => up t s - (const + 1) * (1 - M t s)).
Definition adv_ibp (k : nat) (u l : vec) (y : vec) : R := adv_max k k (fun t s => u t - l s) y.
Definition adv_affine (D : domain) (n k : nat) (x : tensor) (wu : mat) (bu : vec) (wl : mat) (bl : vec) (y : vec) : result R :=
  r <- loss_bound true D n k k x (fun i q => wu i (q / k)%nat - wl i (q mod k)%nat) (fun q => bu (q / k)%nat - bl (q mod k)%nat) ;
  Ok (adv_max (fst r) k (fun t s => snd r (t * k + s)%nat) y).
Definition clip_score (clip : option R) (v : R) : R := match clip with Some c => Rmax v c | None => v end.
(** lines 280-281, 294-297, 312-314. In hybrid mode softmax is always applied.
    Not modelled: softmax of a ball in affine and hybrid mode (its x_0 has one axis too many): an error here. *)
Definition loss_softmax (ke : R) (D : domain) (mode : fmode) (n k : nat) (softmax_ : bool) (s : sliced) : result sliced :=
  if (softmax_ || mode_eqb mode HYBRID)%bool then
    match D, mode with
    | Ball _ _, (AFFINE | HYBRID) => Err ValueError
    | _, _ =>
      o <- softmax ke (mk_spec false mode D n) [k]
             (match mode with
              | IBP => [m_v (s_u s); m_v (s_l s)]
              | AFFINE => [s_x s; m_v (s_wu s); m_v (s_bu s); m_v (s_wl s); m_v (s_bl s)]
              | HYBRID => [s_x s; m_v (s_u s); m_v (s_wu s); m_v (s_bu s); m_v (s_l s); m_v (s_wl s); m_v (s_bl s)]
              end) ;
      match mode, o with
      | IBP, [u; l] => Ok (mk_sliced (s_x s) (mk_marr 1 k u) none_marr none_marr (mk_marr 1 k l) none_marr none_marr)
      | AFFINE, [x; wu; bu; wl; bl] => Ok (mk_sliced (s_x s) none_marr (mk_marr n k wu) (mk_marr 1 k bu) none_marr (mk_marr n k wl) (mk_marr 1 k bl))
      | HYBRID, [x; u; wu; bu; l; wl; bl] => Ok (mk_sliced (s_x s) (mk_marr 1 k u) (mk_marr n k wu) (mk_marr 1 k bu) (mk_marr 1 k l) (mk_marr n k wl) (mk_marr 1 k bl))
      | _, _ => Err ValueError
      end
    end
  else Ok s.
Definition adv_sample (ke : R) (D : domain) (mode : fmode) (k : nat) (sigm : bool) (clip : option R) (softmax_ : bool) (a : sample) : result R :=
  s <- slices D mode k (snd a) ;
  let n := (m_r (snd a) - below mode)%nat in
  s <- loss_softmax ke D mode n k softmax_ s ;
  let score_ibp := clip_score clip (adv_ibp k (m_v (s_u s) 0%nat) (m_v (s_l s) 0%nat) (fst a)) in
  score_affine <- (if get_affine mode then
      v <- adv_affine D n k (s_x s) (m_v (s_wu s)) (m_v (s_bu s) 0%nat) (m_v (s_wl s)) (m_v (s_bl s) 0%nat) (fst a) ;
      Ok (clip_score clip v)
    else Ok 0) ;
  let v := match mode with IBP => score_ibp | AFFINE => score_affine | HYBRID => Rmin score_ibp score_affine end in
  Ok (if sigm then sigmoid v else v).
Definition adv_loss (ke : R) (D : domain) (mode : fmode) (k : nat) (sigm : bool) (clip : option R) (softmax_ : bool) (batch : list sample) : result R :=
  vs <- mapR (adv_sample ke D mode k sigm clip softmax_) batch ; Ok (mean vs).

(** ** loss.py:349-352 _create_identity_tensor_like: the batch size must be known when the layer is called *)
Definition identity_like (batch : option nat) : result mat :=
  match batch with Some _ => Ok id_mat | None => Err TypeError end.

(** ** loss.py:356-439 DecomonLossFusion; [D]: domain of the layer *)
Definition fusion_bounds (D : domain) (n : nat) (mode : fmode) (ts : list tensor) : result (vec * vec) :=
  c <- convert2mode D n mode IBP ts ;
  match c with [u; l] => Ok (u 0%nat, l 0%nat) | _ => Err ValueError end.
(** line 402 *)
Definition ce_bound (k : nat) (u l : vec) : vec := fun i =>
  - l i + ln (rsum k (fun j => exp (u j - rmax k u))) + rmax k u.
(** lines 405-425 *)
Definition asymptotic_bound (k : nat) (source : mat) (u l : vec) : vec := fun i =>
  Rmax (adv_ibp k u l (source i)) (-1).
Definition loss_fusion (D : domain) (n k : nat) (mode : fmode) (asymptotic backward : bool) (batch : option nat) (ts : list tensor) : result vec :=
  if backward then
    if asymptotic then Err NotImplementedError
    else b <- fusion_bounds D n mode ts ; Ok (fun i => exp (fst b i) / rsum k (fun j => exp (fst b j)))
  else
    b <- fusion_bounds D n mode ts ;
    if asymptotic then source <- identity_like batch ; Ok (asymptotic_bound k source (fst b) (snd b))
    else Ok (ce_bound k (fst b) (snd b)).
(** what BoxDomain reads in the tensor x of a domain: x[:, 0] and x[:, 1], which are two coordinates of the centre of a ball *)
Definition read_as_box (D : domain) (n : nat) (x : tensor) : result tensor :=
  match D with
  | Box => Ok x
  | Ball _ _ => if (n <? 2)%nat then Err IndexError else Ok (fun c _ => x 0%nat c)
  end.
Definition with_box_x (D : domain) (n : nat) (mode : fmode) (ts : list tensor) : result (list tensor) :=
  match mode, ts with
  | IBP, _ => Ok ts
  | _, x :: q => x' <- read_as_box D n x ; Ok (x' :: q)
  | _, [] => Err ValueError
  end.
(** loss.py:595-615, 619-639 build_crossentropy_model and build_asymptotic_crossentropy_model: the layer is created
    without the domain [D] of the model *)
Definition build_crossentropy (D : domain) (n k : nat) (mode : fmode) (backward_bounds : bool) (batch : option nat) (ts : list tensor) : result vec :=
  ts <- with_box_x D n mode ts ; loss_fusion Box n k mode false backward_bounds batch ts.
Definition build_asymptotic_crossentropy (D : domain) (n k : nat) (mode : fmode) (batch : option nat) (ts : list tensor) : result vec :=
  ts <- with_box_x D n mode ts ; loss_fusion Box n k mode true false batch ts.

(** ** loss.py:449-566 DecomonRadiusRobust *)
Definition radius_new (D : domain) (mode : fmode) : result unit :=
  if mode_eqb mode IBP then Err NotImplementedError
  else match D with Box => Ok tt | Ball _ _ => Err NotImplementedError end.
(** lines 512-522, 543-552: largest volume for weights W, biases b *)
Definition adv_volume (ke : R) (n k : nat) (x_0 radius : vec) (W : mat) (b : vec) (y : vec) : R :=
  rmax k (fun j =>
    let score := rsum n (fun i => W i j * x_0 i) + b j in
    let denum := Rmax (rsum n (fun i => Rabs (W i j * radius i))) ke in
    let eps_adv := Rmin (- score / denum + y j) 2 in
    1 - eps_adv).
Definition radius_label (ke : R) (n k : nat) (x_0 radius : vec) (wu : mat) (bu : vec) (wl : mat) (bl : vec) (y : vec) : R :=
  let W_adv : mat := fun i j => rsum k (fun c => - wl i c * y c) + wu i j * (1 - y j) + wl i j * y j in
  let b_adv : vec := fun j => rsum k (fun c => - bl c * y c) + bu j * (1 - y j) + (bl j - 1000000) * y j in
  adv_volume ke n k x_0 radius W_adv b_adv y.
Definition radius_label_backward (ke : R) (n k : nat) (x_0 radius : vec) (wu : mat) (bu : vec) (y : vec) : R :=
  adv_volume ke n k x_0 radius wu (fun j => bu j - 1000000 * y j) y.
Definition radius_robust (ke : R) (D : domain) (n k : nat) (mode : fmode) (backward : bool) (batch : option nat) (ts : list tensor) : result vec :=
  _ <- radius_new D mode ;
  r <- match mode, ts with
       | HYBRID, [x; _; wu; bu; _; wl; bl] => Ok (x, wu, bu, wl, bl)
       | AFFINE, [x; wu; bu; wl; bl] => Ok (x, wu, bu, wl, bl)
       | _, _ => Err ValueError
       end ;
  let '(x, wu, bu, wl, bl) := r in
  let x_0 : vec := fun i => (x 0%nat i + x 1%nat i) / 2 in
  let radius : vec := fun i => Rmax ((x 1%nat i - x 0%nat i) / 2) ke in
  source <- identity_like batch ;
  Ok (fun i => if backward then radius_label_backward ke n k x_0 radius wu (bu 0%nat) (source i)
               else radius_label ke n k x_0 radius wu (bu 0%nat) wl (bl 0%nat) (source i)).

(** ** metric.py:380-454 *)
Definition target_of (src : vec) (tgt : option vec) : vec := match tgt with Some t => t | None => fun j => 1 - src j end.
Definition get_ibp_score (k : nat) (u l : vec) (src : vec) (tgt : option vec) : R :=
  let t := target_of src tgt in
  rmax k (fun j => l j * t j - rmin k (fun c => u c * src c) - 1000000 * (1 - t j)).
(** entry (a, b) of the k x k array is neuron a * k + b *)
Definition get_affine_score (D : domain) (n k : nat) (z : tensor) (wu : mat) (bu : vec) (wl : mat) (bl : vec) (src : vec) (tgt : option vec) : result R :=
  let t := target_of src tgt in
  upper <- get_upper D n false z (fun i q => wl i (q mod k)%nat - wu i (q / k)%nat)
             (fun q => bl (q mod k)%nat - bu (q / k)%nat - 1000000 * (1 - t (q mod k)%nat) - 1000000 * (1 - src (q / k)%nat)) no_kw ;
  Ok (max2 k k (fun a b => upper (a * k + b)%nat)).

(** ** metric.py:76-239 AdversarialCheck ([swap] = false) and AdversarialScore ([swap] = true) *)
Inductive metric_mode := FORWARD | BACKWARD.
(** inputs[:c], unpacked in c variables *)
Definition first_n {A} (c : nat) (l : list A) : result (list A) :=
  if (c <=? List.length l)%nat then Ok (firstn c l) else Err ValueError.
(** inputs[-5:], unpacked in 5 variables *)
Definition last_5 {A} (l : list A) : result (list A) :=
  if (5 <=? List.length l)%nat then Ok (skipn (List.length l - 5) l) else Err ValueError.
Definition y_of (inputs : list tensor) : result vec :=
  match rev inputs with y :: _ => Ok (y 0%nat) | [] => Err IndexError end.
Definition adv_metric (swap : bool) (ibp affine : bool) (mm : metric_mode) (D : domain) (n k : nat) (inputs : list tensor) : result R :=
  y <- y_of inputs ;
  let iscore u l := if swap then get_ibp_score k l u y None else get_ibp_score k u l y None in
  let ascore z wu bu wl bl := if swap then get_affine_score D n k z wl bl wu bu y None else get_affine_score D n k z wu bu wl bl y None in
  r <- match ibp, affine with
       | true, true =>
           p <- first_n 8 inputs ;
           match p with
           | [_; z; u; wu; bu; l; wl; bl] =>
               a <- ascore z wu (bu 0%nat) wl (bl 0%nat) ; Ok (z, Rmin (iscore (u 0%nat) (l 0%nat)) a)
           | _ => Err ValueError
           end
       | false, true =>
           p <- first_n 6 inputs ;
           match p with
           | [_; z; wu; bu; wl; bl] => a <- ascore z wu (bu 0%nat) wl (bl 0%nat) ; Ok (z, a)
           | _ => Err ValueError
           end
       | true, false =>
           p <- first_n 4 inputs ;
           match p with
           | [_; z; u; l] => Ok (z, iscore (u 0%nat) (l 0%nat))
           | _ => Err ValueError
           end
       | false, false => Err NotImplementedError
       end ;
  let '(z, score) := r in
  match mm with
  | FORWARD => Ok score
  | BACKWARD =>
      p <- last_5 inputs ;
      match p with
      | [wub; bub; wlb; blb; _] =>
          b <- get_affine_score D n k z wub (bub 0%nat) wlb (blb 0%nat) y None ; Ok (Rmin score b)
      | _ => Err ValueError
      end
  end.

(** ** metric.py:288-354 UpperScore *)
Definition linear_upper (D : domain) (n k : nat) (z : tensor) (y : vec) (wu : mat) (bu : vec) : result R :=
  upper <- get_upper D n false z (fun i j => wu i j * y j) (fun j => bu j * y j) no_kw ;
  Ok (rsum k upper).
Definition upper_metric (ibp affine : bool) (mm : metric_mode) (D : domain) (n k : nat) (inputs : list tensor) : result R :=
  y <- y_of inputs ;
  z <- match inputs with _ :: z :: _ => Ok z | _ => Err IndexError end ;
  score <- match ibp, affine with
       | true, true =>
           p <- first_n 8 inputs ;
           match p with
           | [_; _; u; wu; bu; _; _; _] =>
               a <- linear_upper D n k z y wu (bu 0%nat) ; Ok (Rmin (rsum k (fun j => u 0%nat j * y j)) a)
           | _ => Err ValueError
           end
       | false, true =>
           (* line 341: six values for four variables *)
           p <- first_n 6 inputs ;
           match p with
           | [_; _; wu; bu] => linear_upper D n k z y wu (bu 0%nat)
           | _ => Err ValueError
           end
       | true, false =>
           p <- first_n 4 inputs ;
           match p with
           | [_; _; u; l] => Ok (rsum k (fun j => u 0%nat j * y j))
           | _ => Err ValueError
           end
       | false, false => Err NotImplementedError
       end ;
  match mm with
  | FORWARD => Ok score
  | BACKWARD =>
      p <- last_5 inputs ;
      match p with
      | [wub; bub; _; _; _] => b <- linear_upper D n k z y wub (bub 0%nat) ; Ok (Rmin score b)
      | _ => Err ValueError
      end
  end.

(** ** metric.py:242-285, 357-377 build_formal_adv_check_model, build_formal_adv_model, build_formal_upper_model.
    They read decomon_model.mode; the attributes of a DecomonModel are set in models/models.py:35-45. *)
Local Open Scope string_scope.
Definition decomon_attributes : list string :=
  ["perturbation_domain"; "dc_decomp"; "method"; "ibp"; "affine"; "finetune"; "backward_bounds"; "shared"].
Definition get_attr (l : list string) (a : string) : result unit :=
  if existsb (String.eqb a) l then Ok tt else Err AttributeError.
Definition build_formal_layer : result unit :=
  _ <- get_attr decomon_attributes "perturbation_domain" ;
  _ <- get_attr decomon_attributes "ibp" ;
  _ <- get_attr decomon_attributes "affine" ;
  get_attr decomon_attributes "mode".
Local Close Scope string_scope.

(** ** metrics/utils.py:11-36 categorical_cross_entropy; s: shape of the logits, classes on the last axis.
    The call to sum (line 22) does not receive the domain: in hybrid mode it tightens the constant bounds with a
    BoxDomain (layers/utils.py:157-166). *)
Definition sum_default (sp : spec) (s : list nat) (ts : list tensor) : result (list tensor) :=
  match sp_mode sp, ts with
  | HYBRID, x :: _ =>
      ts' <- with_box_x (sp_dom sp) (sp_n sp) HYBRID ts ;
      o <- op_sum (mk_spec false HYBRID Box (sp_n sp)) s (-1) ts' ;
      Ok (x :: tl o)
  | _, _ => op_sum (mk_spec false (sp_mode sp) Box (sp_n sp)) s (-1) ts
  end.
Definition categorical_cross_entropy (ke : R) (sp : spec) (s : list nat) (ts : list tensor) : result (list tensor) :=
  e <- op_exp ke sp ts ;
  o <- sum_default sp s e ;
  o <- op_log ke sp o ;
  o <- expand_dims sp o ;
  m <- minus sp ts ;
  r0 <- get_fullinputs sp true true m ;
  r1 <- get_fullinputs sp true true o ;
  Ok (extract (sp_mode sp) (sp_dc sp) (add_full r0 (bcast (ax_len s (List.length s - 1)) r1))).
