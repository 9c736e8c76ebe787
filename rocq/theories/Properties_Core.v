(** Theorems C01-C06: perturbation domains, tensor layout, completion of inputs. *)
From Coq Require Import Reals List Arith Bool ZArith.
From Verif Require Import RLib Spec M_Core P_Core P_Merge P_CoreThm.
Import ListNotations.
Local Open Scope R_scope.

(** C01: on a non-empty box, get_upper / get_lower are the exact extrema of w.z+b. *)
Theorem C01_box_extrema : forall n x w b k,
  (forall i, (i < n)%nat -> x 0%nat i <= x 1%nat i) ->
  exists ru rl, get_upper Box n false x w b k = Ok ru /\ get_lower Box n false x w b k = Ok rl /\
    forall j, is_max (in_box n (x 0%nat) (x 1%nat)) (fun z => aff n w b z j) (ru j) /\
              is_min (in_box n (x 0%nat) (x 1%nat)) (fun z => aff n w b z j) (rl j).
Proof. exact box_extrema. Qed.
Print Assumptions C01_box_extrema.

Example C01_example : (forall i, (i < 2)%nat -> ex_x 0%nat i <= ex_x 1%nat i) /\
  exists r, get_upper Box 2 false ex_x ex_w (fun _ => 3) no_kw = Ok r /\ r 0%nat = 4 /\
  exists r', get_lower Box 2 false ex_x ex_w (fun _ => 3) no_kw = Ok r' /\ r' 0%nat = -2.
Proof. exact ex_box. Qed.

(** C02: same on a p-ball, for the supported orders 1, 2 and inf. *)
Theorem C02_ball_extrema : forall n eps p x w b,
  (0 < n)%nat -> 0 <= eps -> norm_ok (Ball eps p) ->
  exists ru rl, get_upper (Ball eps p) n false x w b no_kw = Ok ru /\
                get_lower (Ball eps p) n false x w b no_kw = Ok rl /\
    forall j, is_max (in_ball n p eps (x 0%nat)) (fun z => aff n w b z j) (ru j) /\
              is_min (in_ball n p eps (x 0%nat)) (fun z => aff n w b z j) (rl j).
Proof. exact ball_extrema. Qed.
Print Assumptions C02_ball_extrema.

Example C02_example : exists r1 r2 rinf,
  get_upper (Ball 2 (Pnum 1)) 2 false ex_x ex_w (fun _ => 3) no_kw = Ok r1 /\ r1 0%nat = 6 /\
  get_upper (Ball 2 (Pnum 2)) 2 false ex_x ex_w (fun _ => 3) no_kw = Ok r2 /\ r2 0%nat = 2 + 2 * sqrt 5 /\
  get_upper (Ball 2 Pinf) 2 false ex_x ex_w (fun _ => 3) no_kw = Ok rinf /\ rinf 0%nat = 8.
Proof. exact ex_ball. Qed.

(** C02: every other order is refused. *)
Theorem C02_ball_unsupported : forall n eps p x w b,
  ~ norm_ok (Ball eps p) ->
  get_upper (Ball eps p) n false x w b no_kw = Err NotImplementedError /\
  get_lower (Ball eps p) n false x w b no_kw = Err NotImplementedError.
Proof. exact ball_unsupported. Qed.
Print Assumptions C02_ball_unsupported.

(** C02: the constructor accepts exactly the positive integers (and inf). *)
Theorem C02_ball_constructor : forall num den,
  (exists k, (0 < k)%nat /\ num = (Z.of_nat k * Zpos den)%Z /\ ball_check_p (PFinite num den) = Ok (Pnum k)) \/
  ((forall k, (0 < k)%nat -> num <> (Z.of_nat k * Zpos den)%Z) /\ ball_check_p (PFinite num den) = Err ValueError).
Proof. exact ball_check_p_spec. Qed.
Print Assumptions C02_ball_constructor.

(** C03, lower side: fine-tuned lower bounds never exceed the affine function on the points
    of the ball lying in the bounding box. Missing for the full C03: the upper side, refuted below. *)
Theorem C03_ball_finetune_lower_partial : forall n x_0 eps p w b k r z j,
  (0 < n)%nat ->
  (forall a i j, k_ft_lower k = Some a -> (i < n)%nat -> 0 <= a i j <= 1) ->
  (forall u i, k_upper k = Some u -> (i < n)%nat -> z i <= u i) ->
  (forall l i, k_lower k = Some l -> (i < n)%nat -> l i <= z i) ->
  in_ball n p eps x_0 z ->
  get_lower_ball n false x_0 eps p w b k = Ok r ->
  r j <= aff n w b z j.
Proof. exact ft_lower_sound. Qed.
Print Assumptions C03_ball_finetune_lower_partial.

Example C03_example : exists r r0,
  get_lower_ball 1 false (fun _ => 0) 2 (Pnum 1) (fun _ _ => 1) (fun _ => 0)
    (mk_bkw None (Some (fun _ _ => 1/2)) (Some (fun _ => 1)) (Some (fun _ => -1))) = Ok r /\ r 0%nat = - 3 / 2 /\
  get_lower_ball 1 false (fun _ => 0) 2 (Pnum 1) (fun _ _ => 1) (fun _ => 0) no_kw = Ok r0 /\ r0 0%nat = -2.
Proof. exact ex_ft_lower. Qed.

(** C03, upper side: the fine-tuned "upper bound" can be below the function. *)
Theorem C03_ball_finetune_upper_refuted : exists n x_0 eps p w b k r z,
  (0 < n)%nat /\ norm_ok (Ball eps p) /\ in_ball n p eps x_0 z /\
  (forall a i j, k_ft_upper k = Some a -> 0 <= a i j <= 1) /\
  (forall u i, k_upper k = Some u -> z i <= u i) /\ (forall l i, k_lower k = Some l -> l i <= z i) /\
  get_upper_ball n false x_0 eps p w b k = Ok r /\ r 0%nat < aff n w b z 0%nat.
Proof. exact ft_upper_refuted. Qed.
Print Assumptions C03_ball_finetune_upper_refuted.

Theorem C03_ball_finetune_upper_single_refuted : exists n x_0 eps p w b k r z,
  (0 < n)%nat /\ norm_ok (Ball eps p) /\ in_ball n p eps x_0 z /\
  (forall a i j, k_ft_upper k = Some a -> 0 <= a i j <= 1) /\
  k_lower k = None /\
  (forall u i, k_upper k = Some u -> z i <= u i) /\
  get_upper_ball n false x_0 eps p w b k = Ok r /\ r 0%nat < aff n w b z 0%nat.
Proof. exact ft_upper_single_refuted. Qed.
Print Assumptions C03_ball_finetune_upper_single_refuted.

Theorem C03_ball_finetune_keyerror : forall n x_0 eps k0 w b k,
  is_some (k_lower k) = true -> (k_upper k = None \/ k_ft_lower k = None) ->
  get_lower_ball n false x_0 eps (Pnum k0) w b k = Err KeyError.
Proof. exact ft_lower_keyerror. Qed.
Print Assumptions C03_ball_finetune_keyerror.

(** C04: sizes and round trips of the per-mode layout. *)
Theorem C04_nb_tensors : forall mode dc, nb_tensors mode dc = spec_nb mode dc.
Proof. exact nb_tensors_spec. Qed.
Print Assumptions C04_nb_tensors.

Theorem C04_extract_length : forall A mode dc (r : full A), length (extract mode dc r) = spec_nb mode dc.
Proof. exact extract_length. Qed.
Print Assumptions C04_extract_length.

Theorem C04_unpack_then_pack : forall A (none : A) mode dc l,
  length l = spec_nb mode dc ->
  exists r, unpack none mode dc l = Ok r /\ extract mode dc r = l.
Proof. exact extract_unpack. Qed.
Print Assumptions C04_unpack_then_pack.

Theorem C04_pack_then_unpack : forall A (none : A) mode dc r,
  exists r', unpack none mode dc (extract mode dc r) = Ok r' /\
  ((get_ibp mode = true -> f_uc r = f_uc r' /\ f_lc r = f_lc r') /\
   (get_affine mode = true -> f_x r = f_x r' /\ f_wu r = f_wu r' /\ f_bu r = f_bu r' /\
                              f_wl r = f_wl r' /\ f_bl r = f_bl r') /\
   (dc = true -> f_h r = f_h r' /\ f_g r = f_g r')).
Proof. exact unpack_extract. Qed.
Print Assumptions C04_pack_then_unpack.

Theorem C04_unpack_short : forall A (none : A) mode dc l,
  (length l < spec_nb mode dc)%nat -> unpack none mode dc l = Err ValueError.
Proof. exact unpack_short. Qed.
Print Assumptions C04_unpack_short.

(** cutting the concatenation of any number of inputs gives them back, in order *)
Theorem C04_split_to_merge : forall A nb (ls : list (list A)),
  (0 < nb)%nat -> (forall l, In l ls -> length l = nb) -> split_to_merge nb (concat ls) = ls.
Proof. exact split_to_merge_concat. Qed.
Print Assumptions C04_split_to_merge.

(** the strided slice o::nb of the concatenation is the list of the o-th tensors *)
Theorem C04_by_type_slices : forall A (d : A) nb o (ls : list (list A)),
  (o < nb)%nat -> (forall l, In l ls -> length l = nb) ->
  strided o nb (concat ls) = map (fun l => nth o l d) ls.
Proof. exact strided_concat. Qed.
Print Assumptions C04_by_type_slices.

Example C04_example : split_to_merge (nb_tensors IBP true) [1;2;3;4;5;6;7;8]%nat = [[1;2;3;4];[5;6;7;8]]%nat /\
  extract AFFINE true (mk_full 1 2 3 4 5 6 7 8 9)%nat = [1;3;4;6;7;8;9]%nat.
Proof. exact ex_layout. Qed.

(** C05: completion keeps bounds valid ... *)
Theorem C05_complete_valid : forall sp ca ti S m f ts,
  (0 < sp_n sp)%nat -> dom_ok (sp_dom sp) (sp_mode sp) ->
  valid (sp_dom sp) (sp_mode sp) (sp_dc sp) S (sp_n sp) m f ts ->
  exists r, get_fullinputs sp ca ti ts = Ok r /\
    ((sp_mode sp <> AFFINE \/ ca = true) -> const_ok S m f (f_uc r 0%nat) (f_lc r 0%nat)) /\
    (sp_mode sp <> IBP -> (forall z, S z -> in_dom (sp_dom sp) (sp_n sp) (f_x r) z) /\
       affine_ok S (sp_n sp) m f (f_wu r) (f_bu r 0%nat) (f_wl r) (f_bl r 0%nat)).
Proof. exact complete_valid. Qed.
Print Assumptions C05_complete_valid.

(** ... in hybrid mode it returns the tightest of the received constant bounds and of the exact
    extrema of the affine bounds ... *)
Theorem C05_complete_tightest : forall dc D n ca x u wu bu l wl bl rest r j,
  (0 < n)%nat -> dom_nonempty D n x ->
  get_fullinputs (mk_spec dc HYBRID D n) ca true (x :: u :: wu :: bu :: l :: wl :: bl :: rest) = Ok r ->
  (exists M, is_max (in_dom D n x) (fun z => aff n wu (bu 0%nat) z j) M /\ f_uc r 0%nat j = Rmin (u 0%nat j) M) /\
  (exists M, is_min (in_dom D n x) (fun z => aff n wl (bl 0%nat) z j) M /\ f_lc r 0%nat j = Rmax (l 0%nat j) M).
Proof. exact complete_tightest. Qed.
Print Assumptions C05_complete_tightest.

(** ... and with tight=False nothing is changed. *)
Theorem C05_complete_untight : forall sp ts,
  sp_mode sp <> AFFINE ->
  get_fullinputs sp true false ts = unpack empty_tensor (sp_mode sp) (sp_dc sp) ts.
Proof. exact complete_untight. Qed.
Print Assumptions C05_complete_untight.

Example C05_example : valid Box HYBRID false (fun z => 0 <= z 0%nat <= 1) 1 1 (fun z => z) ex_hyb /\
  exists r, get_fullinputs (mk_spec false HYBRID Box 1) true true ex_hyb = Ok r /\
    f_uc r 0%nat 0%nat = 1 /\ f_lc r 0%nat 0%nat = 0.
Proof. exact ex_complete. Qed.

(** C06: completing merged inputs by type agrees with completing each input, except in
    affine mode with compute_ibp_from_affine=True (missing case, refuted below). *)
Theorem C06_merge_by_type_partial : forall sp ca ti ls,
  norm_ok (sp_dom sp) ->
  (forall l, In l ls -> length l = spec_nb (sp_mode sp) (sp_dc sp)) ->
  (sp_mode sp = AFFINE -> ca = false) ->
  exists R, get_fullinputs_by_type sp ca ti (concat ls) = Ok R /\ all_len R (length ls) /\
    forall i l, nth_error ls i = Some l ->
      exists r, get_fullinputs sp ca ti l = Ok r /\ row_is R i r.
Proof. exact merge_by_type_ok. Qed.
Print Assumptions C06_merge_by_type_partial.

Example C06_example : exists R, get_fullinputs_by_type (mk_spec false HYBRID Box 1) false true (concat [ex_hyb; ex_hyb]) = Ok R /\
  length (f_uc R) = 2%nat /\ exists u, nth_error (f_uc R) 1 = Some u /\ u 0%nat 0%nat = 1.
Proof. exact ex_merge. Qed.

(** C06, affine mode with the flag: upper and lower lists are always identical ... *)
Theorem C06_merge_affine_aliases : forall D n dc ti ts R,
  get_fullinputs_by_type (mk_spec dc AFFINE D n) true ti ts = Ok R -> f_uc R = f_lc R.
Proof. exact merge_by_type_affine_alias. Qed.
Print Assumptions C06_merge_affine_aliases.

(** ... so that the returned upper bound can be exceeded. *)
Theorem C06_merge_affine_refuted : exists sp ts R S f,
  sp_mode sp = AFFINE /\ norm_ok (sp_dom sp) /\
  valid (sp_dom sp) AFFINE false S (sp_n sp) 1 f ts /\
  get_fullinputs_by_type sp true true ts = Ok R /\
  (exists u, nth_error (f_uc R) 0 = Some u /\ exists z, S z /\ u 0%nat 0%nat < f z 0%nat).
Proof. exact merge_affine_refuted. Qed.
Print Assumptions C06_merge_affine_refuted.
