(** Theorems C46-C54: the functions of wrapper.py and wrapper_with_tuning.py. *)
From Coq Require Import Reals List Arith Bool ZArith.
From Verif Require Import RLib Spec Spec_State M_Core M_State M_Wrapper Spec_Wrapper.
From Verif Require Import P_Core P_StateDomain P_Wrapper P_WrapperRefine P_WrapperAdv P_WrapperAdvBox P_WrapperLabels P_WrapperBox P_WrapperNoise P_WrapperTune P_WrapperThm.
Import ListNotations.
Local Open Scope R_scope.

(** C46: the score of a sample is the largest difference between the upper bound of a target and the lower bound of a source, constant or affine, and the smallest of both in hybrid mode *)
Theorem C46_score : forall a f xmin xmax src tgt bs ns, let m := the_model a in
  adv_args a xmin xmax src tgt -> wm_bb m = false -> small ns -> (forall b, (b < alen xmin)%nat -> sound_on m f (the_box xmin xmax b)) ->
  exists r, get_adv_box a xmin xmax (LArr src) (option_map LArr tgt) bs ns = Ok r /\ length r = alen xmin /\
    forall b mode ts, (b < alen xmin)%nat -> wmode m = Some mode -> wm_predict m (wm_domain m) (ztensor (the_box xmin xmax b)) None = Ok ts ->
      (exists t s, (t < wm_k m)%nat /\ (s < wm_k m)%nat /\ pair_of src tgt b t s) ->
      is_score mode (wm_n m) (wm_k m) (pair_of src tgt b) ts (nth b r 0).
Proof. exact adv_box_score. Qed.
Print Assumptions C46_score.

(** a negative score excludes any adversarial point of the box, whatever the batch size *)
Theorem C46_certificate : forall a f xmin xmax src tgt bs ns, let m := the_model a in
  adv_args a xmin xmax src tgt -> wm_bb m = false -> small ns -> (forall b, (b < alen xmin)%nat -> sound_on m f (the_box xmin xmax b)) ->
  exists r, get_adv_box a xmin xmax (LArr src) (option_map LArr tgt) bs ns = Ok r /\ length r = alen xmin /\
    forall b z, (b < alen xmin)%nat -> in_sample (wm_n m) (the_box xmin xmax b) z ->
      (forall t s, (t < wm_k m)%nat -> (s < wm_k m)%nat -> pair_of src tgt b t s -> f z t - f z s <= nth b r 0) /\
      (nth b r 0 < 0 -> no_attack (wm_k m) (pair_of src tgt b) f z).
Proof. exact adv_box_sound. Qed.
Print Assumptions C46_certificate.

(** the scores do not depend on the batch size *)
Theorem C46_batch : forall a f xmin xmax src tgt bs bs' ns ns', let m := the_model a in
  adv_args a xmin xmax src tgt -> wm_bb m = false -> small ns -> small ns' -> (forall b, (b < alen xmin)%nat -> sound_on m f (the_box xmin xmax b)) ->
  (forall b, (b < alen xmin)%nat -> exists t s, (t < wm_k m)%nat /\ (s < wm_k m)%nat /\ pair_of src tgt b t s) ->
  get_adv_box a xmin xmax (LArr src) (option_map LArr tgt) bs ns = get_adv_box a xmin xmax (LArr src) (option_map LArr tgt) bs' ns'.
Proof. exact adv_box_batch. Qed.
Print Assumptions C46_batch.

(** the same with sub-boxes. Missing: inputs with several axes *)
Theorem C46_sub_boxes_partial : forall a f xmin xmax src tgt bs ns, let m := the_model a in
  adv_args a xmin xmax src tgt -> wm_bb m = false -> (1 < ns)%Z -> a_tail xmin = [wm_n m] ->
  (forall b p, (b < alen xmin)%nat -> sub_of (wm_n m) p (the_box xmin xmax b) -> sound_on m f p) ->
  exists r, get_adv_box a xmin xmax (LArr src) (option_map LArr tgt) bs ns = Ok r /\ length r = alen xmin /\
    forall b z, (b < alen xmin)%nat -> in_sample (wm_n m) (the_box xmin xmax b) z ->
      (forall t s, (t < wm_k m)%nat -> (s < wm_k m)%nat -> pair_of src tgt b t s -> f z t - f z s <= nth b r 0) /\
      (nth b r 0 < 0 -> no_attack (wm_k m) (pair_of src tgt b) f z).
Proof. exact adv_box_sub_sound. Qed.
Print Assumptions C46_sub_boxes_partial.

(** sub-boxes, inputs with several axes: a negative score and an adversarial point *)
Theorem C46_sub_boxes_refuted : exists r z, let m := M2 IBP (1/2) in let lo := boxes [1%nat; 1%nat] [0] in let hi := boxes [1%nat; 1%nat] [1] in let src := lab [[0; 1]]%Z in
  adv_args (Keras m) lo hi src None /\ (forall p, sound_on m (ops_fn (two (1/2))) p) /\ get_adv_box (Keras m) lo hi (LArr src) None (-1) 2 = Ok r /\ nth 0 r 0 < 0 /\
  in_sample 1 (the_box lo hi 0) z /\ pair_of src None 0 0 1 /\ ops_fn (two (1/2)) z 1%nat < ops_fn (two (1/2)) z 0%nat.
Proof. exact adv_axes_refuted. Qed.
Print Assumptions C46_sub_boxes_refuted.

(** an empty box is rejected *)
Theorem C46_reject : forall a xmin xmax source target bs ns n, boxes_ok n xmin xmax -> ~ consistent n xmin xmax -> get_adv_box a xmin xmax source target bs ns = Err UserWarning.
Proof. exact adv_box_reject. Qed.
Print Assumptions C46_reject.

(** models with back bounds: valid for one-hot sources, but the score is never negative so it certifies nothing. Missing: negative scores *)
Theorem C46_back_partial : forall a f xmin xmax src tgt bs ns cls, let m := the_model a in
  adv_args a xmin xmax src tgt -> wm_bb m = true -> small ns ->
  (forall b, (b < alen xmin)%nat -> one_hot (wm_k m) (nth b (a_rows src) []) (cls b)) ->
  (forall b, (b < alen xmin)%nat -> sound_back m f (the_box xmin xmax b) (back_matrix (nth b (a_rows src) []))) ->
  exists r, get_adv_box a xmin xmax (LArr src) (option_map LArr tgt) bs ns = Ok r /\ length r = alen xmin /\
    forall b, (b < alen xmin)%nat -> 0 <= nth b r 0 /\ forall z t, in_sample (wm_n m) (the_box xmin xmax b) z -> (t < wm_k m)%nat -> f z t - f z (cls b) <= nth b r 0.
Proof. exact adv_box_back. Qed.
Print Assumptions C46_back_partial.

(** from end to end on clones of Dense and relu layers, in ibp mode *)
Theorem C46_sequence : forall ke n k ops xmin xmax src tgt bs ns, let a := Keras (seq_model ke Box IBP n k ops) in
  0 < ke -> ops_dim n ops k -> adv_args a xmin xmax src tgt -> small ns ->
  exists r, get_adv_box a xmin xmax (LArr src) (option_map LArr tgt) bs ns = Ok r /\ length r = alen xmin /\
    forall b z, (b < alen xmin)%nat -> in_sample n (the_box xmin xmax b) z -> nth b r 0 < 0 -> no_attack k (pair_of src tgt b) (ops_fn ops) z.
Proof. exact seq_adv_box. Qed.
Print Assumptions C46_sequence.

(** the clones of Dense and relu layers meet the hypothesis of the theorems above and below *)
Theorem C46_sequence_bounds : forall ke mode n k ops p, 0 < ke -> (0 < n)%nat -> ops_dim n ops k -> input_gaps ke (new_model Box mode n ops) (ztensor p) ->
  sound_on (seq_model ke Box mode n k ops) (ops_fn ops) p.
Proof. exact seq_sound_on. Qed.
Print Assumptions C46_sequence_bounds.

Example C46_example : let m := M2 HYBRID 2 in let lo := boxes [1%nat] [0; 1/2] in let hi := boxes [1%nat] [1; 3] in let src := lab [[0; 1]; [0; 1]]%Z in
  adv_args (Keras m) lo hi src None /\ wm_bb m = false /\ (forall p, sound_on m (ops_fn (two 2)) p) /\ a_tail lo = [wm_n m] /\
  (forall b, (b < 2)%nat -> pair_of src None b 0 1).
Proof. exact ex_adv. Qed.

Example C46_certificate_example : exists r, get_adv_box (Keras (M2 IBP 2)) (boxes [1%nat] [0]) (boxes [1%nat] [1]) (LArr (lab [[0; 1]]%Z)) None (-1) 1 = Ok r /\ nth 0 r 0 = -1.
Proof. exact ex_certificate. Qed.

Example C46_back_example : let f : vec -> vec := fun _ j => INR j in let src := lab [[0; 1]]%Z in
  adv_args (Keras bmodel) (boxes [1%nat] [0]) (boxes [1%nat] [1]) src None /\ one_hot 2 (nth 0 (a_rows src) []) 1 /\
  sound_back bmodel f (the_box (boxes [1%nat] [0]) (boxes [1%nat] [1]) 0) (back_matrix (nth 0 (a_rows src) [])).
Proof. exact ex_back. Qed.

(** C47: integer labels are refused unless the number of samples of a batch is the number of classes *)
Theorem C47_error_refuted : forall a f xmin xmax lab bs ns, let m := the_model a in
  is_box (wm_domain m) = true -> wm_bb m = false -> (2 <= wm_k m)%nat -> boxes_ok (wm_n m) xmin xmax -> consistent (wm_n m) xmin xmax -> small ns ->
  (forall b, (b < alen xmin)%nat -> sound_on m f (the_box xmin xmax b)) -> int_labels lab (alen xmin) ->
  (if (0 <? bs)%Z then Nat.min (Z.to_nat bs) (alen xmin) else alen xmin) <> wm_k m ->
  get_adv_box a xmin xmax lab None bs ns = Err ValueError.
Proof. exact adv_box_int_error. Qed.
Print Assumptions C47_error_refuted.

(** then two different labels have the same scores *)
Theorem C47_ignored_refuted : forall a f xmin xmax bs ns, let m := the_model a in
  is_box (wm_domain m) = true -> wm_bb m = false -> (2 <= wm_k m)%nat -> boxes_ok (wm_n m) xmin xmax -> consistent (wm_n m) xmin xmax -> small ns -> (bs <= 0)%Z ->
  (forall b, (b < alen xmin)%nat -> sound_on m f (the_box xmin xmax b)) -> alen xmin = wm_k m ->
  exists r, get_adv_box a xmin xmax (LInt 0) None bs ns = Ok r /\ get_adv_box a xmin xmax (LInt 1) None bs ns = Ok r.
Proof. exact adv_box_int_ignored. Qed.
Print Assumptions C47_ignored_refuted.

(** a negative score for a class which is predicted nowhere *)
Theorem C47_certificate_refuted : exists r, let m := M2 IBP 2 in let lo := boxes [1%nat] [0; 0] in let hi := boxes [1%nat] [1; 1] in
  boxes_ok 1 lo hi /\ consistent 1 lo hi /\ (forall p, sound_on m (ops_fn (two 2)) p) /\ get_adv_box (Keras m) lo hi (LInt 0) None (-1) 1 = Ok r /\
  forall b z, (b < 2)%nat -> in_sample 1 (the_box lo hi b) z -> nth b r 0 < 0 /\ ops_fn (two 2) z 0%nat < ops_fn (two 2) z 1%nat.
Proof. exact int_label_refuted. Qed.
Print Assumptions C47_certificate_refuted.

(** C48: the score is the largest lower bound of a target minus upper bound of a source: a lower bound of the margin of some point of the box *)
Theorem C48_score : forall a f xmin xmax src bs, let m := the_model a in
  adv_args a xmin xmax src None -> wm_bb m = false -> (forall b, (b < alen xmin)%nat -> check_ok m f (the_box xmin xmax b)) ->
  exists r, check_adv_box a xmin xmax (LArr src) None bs = Ok r /\ length r = alen xmin /\
    forall b, (b < alen xmin)%nat -> (exists t s, (t < wm_k m)%nat /\ (s < wm_k m)%nat /\ pair_of src None b t s) ->
      (forall mode ts, wmode m = Some mode -> wm_predict m (wm_domain m) (ztensor (the_box xmin xmax b)) None = Ok ts -> is_check mode (wm_n m) (wm_k m) (pair_of src None b) (the_box xmin xmax b) ts (nth b r 0)) /\
      (exists z t s, in_sample (wm_n m) (the_box xmin xmax b) z /\ (t < wm_k m)%nat /\ (s < wm_k m)%nat /\ pair_of src None b t s /\ nth b r 0 <= f z t - f z s).
Proof. exact check_box_score. Qed.
Print Assumptions C48_score.

(** a negative score and an adversarial point, in the three modes *)
Theorem C48_refuted : forall mode, exists r z, let m := loose mode in let lo := boxes [1%nat] [0] in let hi := boxes [1%nat] [1] in let src := lab [[0; 1]]%Z in
  adv_args (Keras m) lo hi src None /\ check_ok m (ops_fn (two (1/2))) (the_box lo hi 0) /\ check_adv_box (Keras m) lo hi (LArr src) None (-1) = Ok r /\ nth 0 r 0 < 0 /\
  in_sample 1 (the_box lo hi 0) z /\ pair_of src None 0 0 1 /\ ops_fn (two (1/2)) z 1%nat < ops_fn (two (1/2)) z 0%nat.
Proof. exact check_refuted. Qed.
Print Assumptions C48_refuted.

(** the target labels are ignored *)
Theorem C48_target_refuted : forall a xmin xmax source t bs, (bs <= 0)%Z -> (exists c, reshape_first t (alen xmin) = Ok c) ->
  check_adv_box a xmin xmax source (Some (LArr t)) bs = check_adv_box a xmin xmax source None bs.
Proof. exact check_box_target. Qed.
Print Assumptions C48_target_refuted.

Theorem C48_reject : forall a xmin xmax source target bs n, boxes_ok n xmin xmax -> ~ consistent n xmin xmax -> check_adv_box a xmin xmax source target bs = Err UserWarning.
Proof. exact check_box_reject. Qed.
Print Assumptions C48_reject.

(** C49 *)
Theorem C49_range : forall a f xmin xmax bs ns, let m := the_model a in
  is_box (wm_domain m) = true -> wm_bb m = false -> boxes_ok (wm_n m) xmin xmax -> consistent (wm_n m) xmin xmax -> small ns ->
  (forall b, (b < alen xmin)%nat -> sound_on m f (the_box xmin xmax b)) ->
  exists u l, get_range_box a xmin xmax bs ns = Ok (u, l) /\ a_tail u = wm_out m /\ a_tail l = wm_out m /\ alen u = alen xmin /\ alen l = alen xmin /\
    forall b z j, (b < alen xmin)%nat -> in_sample (wm_n m) (the_box xmin xmax b) z -> (j < wm_k m)%nat -> cell l b j <= f z j <= cell u b j.
Proof. exact range_box_sound. Qed.
Print Assumptions C49_range.

(** the batch size does not matter *)
Theorem C49_batch : forall a xmin xmax bs ns, let m := the_model a in
  is_box (wm_domain m) = true -> wm_bb m = false -> boxes_ok (wm_n m) xmin xmax -> consistent (wm_n m) xmin xmax -> (ns <= 1)%Z \/ a_tail xmin = [wm_n m] ->
  get_range_box a xmin xmax bs ns = get_range_box a xmin xmax (-1) ns.
Proof. exact range_box_batch. Qed.
Print Assumptions C49_batch.

Theorem C49_reject : forall a xmin xmax bs ns n, boxes_ok n xmin xmax -> ~ consistent n xmin xmax -> get_range_box a xmin xmax bs ns = Err UserWarning.
Proof. exact range_box_reject. Qed.
Print Assumptions C49_reject.

(** a model with back bounds is refused *)
Theorem C49_back : forall a xmin xmax bs ns, let m := the_model a in
  is_box (wm_domain m) = true -> wm_bb m = true -> boxes_ok (wm_n m) xmin xmax -> consistent (wm_n m) xmin xmax -> (ns <= 1)%Z -> get_range_box a xmin xmax bs ns = Err TypeError.
Proof. exact range_box_back. Qed.
Print Assumptions C49_back.

(** sub-boxes, one output, inputs with one axis. Missing: the other cases, see below *)
Theorem C49_sub_boxes_partial : forall a f xmin xmax bs ns, let m := the_model a in
  is_box (wm_domain m) = true -> wm_bb m = false -> boxes_ok (wm_n m) xmin xmax -> consistent (wm_n m) xmin xmax -> a_tail xmin = [wm_n m] -> (1 < ns)%Z -> wm_k m = 1%nat ->
  (forall b p, (b < alen xmin)%nat -> sub_of (wm_n m) p (the_box xmin xmax b) -> sound_on m f p) ->
  exists u l, get_range_box a xmin xmax bs ns = Ok (u, l) /\ alen u = alen xmin /\ alen l = alen xmin /\
    forall b z, (b < alen xmin)%nat -> in_sample (wm_n m) (the_box xmin xmax b) z -> cell l b 0 <= f z 0%nat <= cell u b 0.
Proof. exact range_box_sub_sound. Qed.
Print Assumptions C49_sub_boxes_partial.

(** two outputs *)
Theorem C49_sub_boxes_refuted : exists u l z, let m := M2 IBP (-10) in
  (forall p, sound_on m (ops_fn (two (-10))) p) /\ get_range_box (Keras m) (boxes [1%nat] [0]) (boxes [1%nat] [1]) (-1) 2 = Ok (u, l) /\
  in_sample 1 (the_box (boxes [1%nat] [0]) (boxes [1%nat] [1]) 0) z /\ cell u 0 0 < ops_fn (two (-10)) z 0%nat.
Proof. exact range_sub_refuted. Qed.
Print Assumptions C49_sub_boxes_refuted.

(** inputs with several axes *)
Theorem C49_sub_boxes_axes_refuted : exists u l z, 
  (forall p, sound_on (M1 IBP) (ops_fn one) p) /\ get_range_box (Keras (M1 IBP)) (boxes [1%nat; 1%nat] [0]) (boxes [1%nat; 1%nat] [1]) (-1) 2 = Ok (u, l) /\
  in_sample 1 (the_box (boxes [1%nat; 1%nat] [0]) (boxes [1%nat; 1%nat] [1]) 0) z /\ cell u 0 0 < ops_fn one z 0%nat.
Proof. exact range_axes_refuted. Qed.
Print Assumptions C49_sub_boxes_axes_refuted.

(** from end to end on clones of Dense and relu layers, in ibp mode *)
Theorem C49_sequence : forall ke n k ops xmin xmax bs ns, 0 < ke -> ops_dim n ops k -> boxes_ok n xmin xmax -> consistent n xmin xmax -> small ns ->
  exists u l, get_range_box (Keras (seq_model ke Box IBP n k ops)) xmin xmax bs ns = Ok (u, l) /\ alen u = alen xmin /\ alen l = alen xmin /\
    forall b z j, (b < alen xmin)%nat -> in_sample n (the_box xmin xmax b) z -> (j < k)%nat -> cell l b j <= ops_fn ops z j <= cell u b j.
Proof. exact seq_range_box. Qed.
Print Assumptions C49_sequence.

Example C49_example : exists u l, get_range_box (Keras (M1 IBP)) (boxes [1%nat] [0]) (boxes [1%nat] [1]) (-1) 2 = Ok (u, l) /\ cell u 0 0 = 1 /\ cell l 0 0 = 0.
Proof. exact ex_range_sub. Qed.

(** C50, inputs with one axis. Missing: several axes, see below *)
Theorem C50_refine_partial : forall n xmin xmax N, boxes_ok n xmin xmax -> consistent n xmin xmax -> a_tail xmin = [n] ->
  exists q a c, refine_boxes xmin xmax N = Ok (a, c) /\ a_tail a = [2 ^ q; n]%nat /\ a_tail c = [2 ^ q; n]%nat /\ alen a = alen xmin /\ alen c = alen xmin /\
    (q = 0%nat \/ (2 ^ q <= Z.to_nat N)%nat) /\ (Z.to_nat N < 2 * 2 ^ q)%nat /\
    forall b, (b < alen xmin)%nat ->
      (forall i, (i < 2 ^ q)%nat -> sub_of n (sub_box n a c b i) (the_box xmin xmax b)) /\
      (forall z, in_sample n (the_box xmin xmax b) z -> exists i, (i < 2 ^ q)%nat /\ in_sample n (sub_box n a c b i) z).
Proof. exact refine_boxes_sound. Qed.
Print Assumptions C50_refine_partial.

(** with several axes x_max is not used *)
Theorem C50_axes : forall xmin xmax N, (2 <= length (a_tail xmin))%nat -> refine_boxes xmin xmax N = refine_boxes xmin xmin N.
Proof. exact refine_boxes_axes. Qed.
Print Assumptions C50_axes.

Theorem C50_axes_refuted : exists a c z, let lo := boxes [1%nat; 1%nat] [0] in let hi := boxes [1%nat; 1%nat] [1] in
  boxes_ok 1 lo hi /\ consistent 1 lo hi /\ refine_boxes lo hi 2 = Ok (a, c) /\ a_tail a = [2; 1; 1]%nat /\
  in_sample 1 (the_box lo hi 0) z /\ forall i, (i < 2)%nat -> ~ in_sample 1 (sub_box 1 a c 0 i) z.
Proof. exact refine_axes_refuted. Qed.
Print Assumptions C50_axes_refuted.

Example C50_example : let lo := mk_arr [2%nat] [[0; 0]] in let hi := mk_arr [2%nat] [[4; 1]] in boxes_ok 2 lo hi /\ consistent 2 lo hi /\ a_tail lo = [2%nat].
Proof. exact ex_refine. Qed.

(** C51: splitting by the largest width *)
Theorem C51_upper : forall (a : anymodel) (f : vec -> vec) (xmin xmax : arr R) (ns : nat) (bs : Z), let m := the_model a in
  is_box (wm_domain m) = true -> wm_bb m = false -> (0 < wm_k m)%nat -> boxes_ok (wm_n m) xmin xmax -> consistent (wm_n m) xmin xmax -> (0 < ns)%nat ->
  (forall b p, (b < alen xmin)%nat -> sub_of (wm_n m) p (the_box xmin xmax b) -> sound_on m f p) ->
  exists u, refine_box FUpper a xmin xmax ns None None bs None = Ok u /\ a_tail u = [wm_k m] /\ alen u = alen xmin /\
  forall b z j, (b < alen xmin)%nat -> in_sample (wm_n m) (the_box xmin xmax b) z -> (j < wm_k m)%nat -> f z j <= cell u b j.
Proof. exact refine_box_upper. Qed.
Print Assumptions C51_upper.

Theorem C51_lower : forall (a : anymodel) (f : vec -> vec) (xmin xmax : arr R) (ns : nat) (bs : Z), let m := the_model a in
  is_box (wm_domain m) = true -> wm_bb m = false -> (0 < wm_k m)%nat -> boxes_ok (wm_n m) xmin xmax -> consistent (wm_n m) xmin xmax -> (0 < ns)%nat ->
  (forall b p, (b < alen xmin)%nat -> sub_of (wm_n m) p (the_box xmin xmax b) -> sound_on m f p) ->
  exists l, refine_box FLower a xmin xmax ns None None bs None = Ok l /\ a_tail l = [wm_k m] /\ alen l = alen xmin /\
  forall b z j, (b < alen xmin)%nat -> in_sample (wm_n m) (the_box xmin xmax b) z -> (j < wm_k m)%nat -> cell l b j <= f z j.
Proof. exact refine_box_lower. Qed.
Print Assumptions C51_lower.

(** get_range_box is never supported *)
Theorem C51_range_refuted : forall (a : anymodel) (f : vec -> vec) (xmin xmax : arr R) (ns : nat) (bs : Z), let m := the_model a in
  is_box (wm_domain m) = true -> wm_bb m = false -> (0 < wm_k m)%nat -> boxes_ok (wm_n m) xmin xmax -> consistent (wm_n m) xmin xmax -> (0 < ns)%nat ->
  (forall b p, (b < alen xmin)%nat -> sub_of (wm_n m) p (the_box xmin xmax b) -> sound_on m f p) ->
  forall source target, refine_box FRange a xmin xmax ns source target bs None = Err NotImplementedError.
Proof. exact refine_box_range. Qed.
Print Assumptions C51_range_refuted.

(** random splitting always fails *)
Theorem C51_random_refuted : forall (a : anymodel) (xmin xmax : arr R) (ns : nat) (bs : Z), let m := the_model a in
  is_box (wm_domain m) = true -> wm_bb m = false -> (0 < wm_k m)%nat -> boxes_ok (wm_n m) xmin xmax -> (0 < ns)%nat ->
  forall g source target draws, g <> FOther -> (2 <= ns)%nat -> refine_box g a xmin xmax ns source target bs (Some draws) = Err ValueError.
Proof. exact refine_box_random. Qed.
Print Assumptions C51_random_refuted.

(** adversarial scores: refused when the number of parts does not divide the number of classes *)
Theorem C51_adv_classes_refuted : forall (a : anymodel) (f : vec -> vec) (xmin xmax : arr R) (ns : nat) (bs : Z), let m := the_model a in
  is_box (wm_domain m) = true -> wm_bb m = false -> (0 < wm_k m)%nat -> boxes_ok (wm_n m) xmin xmax -> consistent (wm_n m) xmin xmax -> (0 < ns)%nat ->
  (forall b p, (b < alen xmin)%nat -> sub_of (wm_n m) p (the_box xmin xmax b) -> sound_on m f p) ->
  forall src target, mask_ok (alen xmin) (wm_k m) src -> (wm_k m mod ns <> 0)%nat ->
  refine_box FAdv a xmin xmax ns (Some (LArr src)) target bs None = Err ValueError.
Proof. exact refine_box_adv_classes. Qed.
Print Assumptions C51_adv_classes_refuted.

(** or with several samples *)
Theorem C51_adv_samples_refuted : forall (a : anymodel) (f : vec -> vec) (xmin xmax : arr R) (ns : nat) (bs : Z), let m := the_model a in
  is_box (wm_domain m) = true -> wm_bb m = false -> (0 < wm_k m)%nat -> boxes_ok (wm_n m) xmin xmax -> consistent (wm_n m) xmin xmax -> (0 < ns)%nat ->
  (forall b p, (b < alen xmin)%nat -> sub_of (wm_n m) p (the_box xmin xmax b) -> sound_on m f p) ->
  forall src, mask_ok (alen xmin) (wm_k m) src -> (2 <= ns)%nat -> (2 <= alen xmin)%nat -> (bs <= 0)%Z ->
  refine_box FAdv a xmin xmax ns (Some (LArr src)) None bs None = Err ValueError.
Proof. exact refine_box_adv_samples. Qed.
Print Assumptions C51_adv_samples_refuted.

(** one sample, the number of parts divides the number of classes: sound. Missing: the cases above *)
Theorem C51_adv_partial : forall (a : anymodel) (f : vec -> vec) (xmin xmax : arr R) (ns : nat) (bs : Z), let m := the_model a in
  is_box (wm_domain m) = true -> wm_bb m = false -> (0 < wm_k m)%nat -> boxes_ok (wm_n m) xmin xmax -> consistent (wm_n m) xmin xmax -> (0 < ns)%nat ->
  (forall b p, (b < alen xmin)%nat -> sub_of (wm_n m) p (the_box xmin xmax b) -> sound_on m f p) ->
  forall src, mask_ok 1 (wm_k m) src -> alen xmin = 1%nat -> (wm_k m mod ns = 0)%nat -> (bs <= 0)%Z ->
  exists v, refine_box FAdv a xmin xmax ns (Some (LArr src)) None bs None = Ok (mk_arr [] [[v]]) /\
  forall z t s, in_sample (wm_n m) (the_box xmin xmax 0) z -> (t < wm_k m)%nat -> (s < wm_k m)%nat -> pair_of src None 0 t s -> f z t - f z s <= v.
Proof. exact refine_box_adv_one. Qed.
Print Assumptions C51_adv_partial.

Theorem C51_check_classes_refuted : forall (a : anymodel) (f : vec -> vec) (xmin xmax : arr R) (ns : nat) (bs : Z), let m := the_model a in
  is_box (wm_domain m) = true -> wm_bb m = false -> (0 < wm_k m)%nat -> boxes_ok (wm_n m) xmin xmax -> consistent (wm_n m) xmin xmax -> (0 < ns)%nat ->
  (forall b p, (b < alen xmin)%nat -> sub_of (wm_n m) p (the_box xmin xmax b) -> sound_on m f p) ->
  forall src target, mask_ok (alen xmin) (wm_k m) src -> (wm_k m mod ns <> 0)%nat ->
  refine_box FCheck a xmin xmax ns (Some (LArr src)) target bs None = Err ValueError.
Proof. exact refine_box_check_classes. Qed.
Print Assumptions C51_check_classes_refuted.

Theorem C51_other : forall a xmin xmax ns s t bs d, refine_box FOther a xmin xmax ns s t bs d = Err NotImplementedError.
Proof. exact refine_box_other. Qed.
Print Assumptions C51_other.

Example C51_example : let m := M2 HYBRID 2 in let lo := boxes [1%nat] [0; 1/2] in let hi := boxes [1%nat] [1; 3] in let src := lab [[0; 1]; [0; 1]]%Z in
  adv_args (Keras m) lo hi src None /\ wm_bb m = false /\ (forall p, sound_on m (ops_fn (two 2)) p) /\ a_tail lo = [wm_n m] /\
  (forall b, (b < 2)%nat -> pair_of src None b 0 1).
Proof. exact ex_adv. Qed.

(** C52: the bounds are the constant bounds and the extrema of the affine bounds on the ball *)
Theorem C52_range : forall a x eps p bs, let m := with_domain a (Ball eps p) in
  0 <= eps -> known_norm p -> takes_domain a (Ball eps p) -> points_ok (wm_n m) x -> (forall b, (b < alen x)%nat -> exists mode ts, outputs m (point x b) mode ts) ->
  exists u l, get_range_noise a x eps p bs = Ok (u, l) /\ a_tail u = wm_out m /\ a_tail l = wm_out m /\ alen u = alen x /\ alen l = alen x /\
    forall b j mode ts, (b < alen x)%nat -> (j < wm_k m)%nat -> outputs m (point x b) mode ts -> is_range mode (wm_n m) p eps (lvec (point x b)) ts j (cell u b j) (cell l b j).
Proof. exact range_noise_exact. Qed.
Print Assumptions C52_range.

(** they enclose the outputs when the model is sound on this ball. Missing: a radius larger than at the conversion, see below *)
Theorem C52_sound_partial : forall a f x eps p bs, let m := with_domain a (Ball eps p) in
  0 <= eps -> known_norm p -> takes_domain a (Ball eps p) -> points_ok (wm_n m) x ->
  (forall b, (b < alen x)%nat -> sound_around m f (in_ball (wm_n m) p eps (lvec (point x b))) (point x b)) ->
  exists u l, get_range_noise a x eps p bs = Ok (u, l) /\ get_upper_noise a x eps p bs = Ok u /\ get_lower_noise a x eps p bs = Ok l /\ alen u = alen x /\ alen l = alen x /\
    forall b j z, (b < alen x)%nat -> (j < wm_k m)%nat -> in_ball (wm_n m) p eps (lvec (point x b)) z -> cell l b j <= f z j <= cell u b j.
Proof. exact range_noise_sound. Qed.
Print Assumptions C52_sound_partial.

Theorem C52_batch : forall a x eps p bs, let m := with_domain a (Ball eps p) in
  0 <= eps -> takes_domain a (Ball eps p) -> points_ok (wm_n m) x -> (forall b, (b < alen x)%nat -> exists mode ts, outputs m (point x b) mode ts) ->
  get_range_noise a x eps p bs = get_range_noise a x eps p (-1).
Proof. exact range_noise_batch. Qed.
Print Assumptions C52_batch.

(** other norms are refused *)
Theorem C52_norm : forall a x eps p bs, let m := with_domain a (Ball eps p) in
  0 <= eps -> takes_domain a (Ball eps p) -> points_ok (wm_n m) x -> ~ known_norm p -> get_range_noise a x eps p bs = Err ValueError.
Proof. exact range_noise_norm. Qed.
Print Assumptions C52_norm.

Theorem C52_box : forall d x eps p bs, 0 <= eps -> wm_domain d = Box -> get_range_noise (Decomon d) x eps p bs = Err NotImplementedError.
Proof. exact range_noise_box. Qed.
Print Assumptions C52_box.

(** clones of Dense and relu layers in ibp mode: sound for every radius not larger than at the conversion *)
Theorem C52_sequence : forall ke eps0 eps p n k ops c, 0 < ke -> (0 < n)%nat -> ops_dim n ops k -> norm_ok (Ball eps0 p) -> eps <= eps0 ->
  let m := with_domain (Decomon (seq_model ke (Ball eps0 p) IBP n k ops)) (Ball eps p) in sound_around m (ops_fn ops) (in_ball n p eps (lvec c)) c.
Proof. exact seq_sound_around. Qed.
Print Assumptions C52_sequence.

(** a larger radius is ignored *)
Theorem C52_larger_refuted : exists u l z, get_range_noise (Decomon B2) (boxes [1%nat] [0]) 2 Pinf (-1) = Ok (u, l) /\
  in_ball 1 Pinf 2 (lvec (point (boxes [1%nat] [0]) 0)) z /\ cell u 0 0 < ops_fn (two (3/2)) z 0%nat.
Proof. exact noise_stale_refuted. Qed.
Print Assumptions C52_larger_refuted.

(** a negative radius keeps the domain of the model, but the upper bounds are below the lower bounds *)
Theorem C52_negative_refuted : exists u l z, wm_domain B1 = Ball 1 Pinf /\ get_range_noise (Decomon B1) (boxes [1%nat] [0]) (-1) Pinf (-1) = Ok (u, l) /\
  in_ball 1 Pinf 1 (lvec (point (boxes [1%nat] [0]) 0)) z /\ cell u 0 0 < ops_fn one z 0%nat < cell l 0 0.
Proof. exact noise_negative_refuted. Qed.
Print Assumptions C52_negative_refuted.

Example C52_example : let x := boxes [1%nat] [0] in takes_domain (Decomon B2) (Ball 1 Pinf) /\ points_ok 1 x /\ known_norm Pinf /\
  sound_around (with_domain (Decomon B2) (Ball 1 Pinf)) (ops_fn (two (3/2))) (in_ball 1 Pinf 1 (lvec (point x 0))) (point x 0) /\
  noise_args B2 x (lab [[0; 1]]%Z) None 1 Pinf.
Proof. exact ex_noise. Qed.

(** C53, ibp mode *)
Theorem C53_score : forall d x src tgt eps p bs, let m := with_domain (Decomon d) (Ball eps p) in
  noise_args d x src tgt eps p -> wm_ibp d = true -> wm_affine d = false -> (tgt = None \/ (bs <= 0)%Z \/ (Z.of_nat (alen x) <= bs)%Z) ->
  exists r, get_adv_noise (Decomon d) x (LArr src) eps p (option_map LArr tgt) bs = Ok r /\ length r = alen x /\
    forall b mode ts, (b < alen x)%nat -> outputs m (point x b) mode ts -> (exists t s, (t < wm_k m)%nat /\ (s < wm_k m)%nat /\ pair_of src tgt b t s) ->
      is_gap (wm_k m) (pair_of src tgt b) ts (nth b r 0).
Proof. exact adv_noise_score. Qed.
Print Assumptions C53_score.

(** ibp mode, a model sound on the ball. Missing: the other modes and larger radii, see below *)
Theorem C53_certificate_partial : forall d f S x src tgt eps p bs, let m := with_domain (Decomon d) (Ball eps p) in
  noise_args d x src tgt eps p -> wm_ibp d = true -> wm_affine d = false -> (tgt = None \/ (bs <= 0)%Z \/ (Z.of_nat (alen x) <= bs)%Z) ->
  (forall b, (b < alen x)%nat -> sound_around m f (S b) (point x b)) ->
  exists r, get_adv_noise (Decomon d) x (LArr src) eps p (option_map LArr tgt) bs = Ok r /\ length r = alen x /\
    forall b z, (b < alen x)%nat -> nth b r 0 < 0 -> S b z -> no_attack (wm_k m) (pair_of src tgt b) f z.
Proof. exact adv_noise_sound. Qed.
Print Assumptions C53_certificate_partial.

(** a negative score and an adversarial point: the radius is larger than at the conversion *)
Theorem C53_larger_refuted : exists r z, let src := lab [[0; 1]]%Z in get_adv_noise (Decomon B2) (boxes [1%nat] [0]) (LArr src) 2 Pinf None (-1) = Ok r /\ nth 0 r 0 < 0 /\
  in_ball 1 Pinf 2 (lvec (point (boxes [1%nat] [0]) 0)) z /\ pair_of src None 0 0 1 /\ ops_fn (two (3/2)) z 1%nat < ops_fn (two (3/2)) z 0%nat.
Proof. exact adv_noise_stale_refuted. Qed.
Print Assumptions C53_larger_refuted.

(** no score in the other modes *)
Theorem C53_affine_refuted : forall d x src tgt eps p bs, noise_args d x src tgt eps p -> wm_affine d = true -> (tgt = None \/ (bs <= 0)%Z \/ (Z.of_nat (alen x) <= bs)%Z) ->
  get_adv_noise (Decomon d) x (LArr src) eps p (option_map LArr tgt) bs = Err NotImplementedError.
Proof. exact adv_noise_affine. Qed.
Print Assumptions C53_affine_refuted.

(** nor for Keras models *)
Theorem C53_keras_refuted : forall c x source eps p target bs, get_adv_noise (Keras c) x source eps p target bs = Err AttributeError.
Proof. exact adv_noise_keras. Qed.
Print Assumptions C53_keras_refuted.

Theorem C53_box : forall d x source eps p target bs, wm_domain d = Box -> exists e, get_adv_noise (Decomon d) x source eps p target bs = Err e.
Proof. exact adv_noise_box. Qed.
Print Assumptions C53_box.

(** target labels with batches are refused *)
Theorem C53_targets_refuted : forall d x src t eps p bs, noise_args d x src (Some t) eps p -> wm_ibp d = true -> wm_affine d = false -> (0 < bs < Z.of_nat (alen x))%Z ->
  get_adv_noise (Decomon d) x (LArr src) eps p (Some (LArr t)) bs = Err ValueError.
Proof. exact adv_noise_targets. Qed.
Print Assumptions C53_targets_refuted.

(** an integer target never certifies *)
Theorem C53_int_target : forall d f S x src eps p bs c, let m := with_domain (Decomon d) (Ball eps p) in
  noise_args d x src None eps p -> wm_ibp d = true -> wm_affine d = false -> (bs <= 0)%Z ->
  (forall b, (b < alen x)%nat -> sound_around m f (S b) (point x b) /\ (exists z, S b z) /\ exists s, (s < wm_k m)%nat /\ cellz src b s = 1%Z) ->
  exists r, get_adv_noise (Decomon d) x (LArr src) eps p (Some (LInt c)) bs = Ok r /\ length r = alen x /\ forall b, (b < alen x)%nat -> 0 <= nth b r 0.
Proof. exact adv_noise_int_target. Qed.
Print Assumptions C53_int_target.

Example C53_example : let x := boxes [1%nat] [0] in takes_domain (Decomon B2) (Ball 1 Pinf) /\ points_ok 1 x /\ known_norm Pinf /\
  sound_around (with_domain (Decomon B2) (Ball 1 Pinf)) (ops_fn (two (3/2))) (in_ball 1 Pinf 1 (lvec (point x 0))) (point x 0) /\
  noise_args B2 x (lab [[0; 1]]%Z) None 1 Pinf.
Proof. exact ex_noise. Qed.

Example C53_certificate_example : exists r, get_adv_noise (Decomon B2) (boxes [1%nat] [0]) (LArr (lab [[0; 1]]%Z)) 1 Pinf None (-1) = Ok r /\ nth 0 r 0 < 0.
Proof. exact ex_noise_certificate. Qed.

(** C54: the upper bounds are valid and not above the initial ones *)
Theorem C54_upper : forall (P : Type) (T : tuner P) (p : P) (f : vec -> vec) (xmin xmax : arr R) (bs ns : Z), let m := tu_ev T p in
  tuner_ok T p f xmin xmax -> boxes_ok (wm_n m) xmin xmax -> consistent (wm_n m) xmin xmax -> (ns <= 1)%Z ->
  exists r p' r0, box_tuning false T p xmin xmax bs ns = Ok (r, p') /\ api_upper_box (Decomon m) xmin xmax bs ns = Ok r0 /\ tu_ev T p' = m /\
  a_tail r = wm_out m /\ alen r = alen xmin /\
  forall b j, (b < alen xmin)%nat -> (j < wm_k m)%nat -> cell r b j <= cell r0 b j /\ forall z, in_sample (wm_n m) (the_box xmin xmax b) z -> f z j <= cell r b j.
Proof. exact (@upper_tuning). Qed.
Print Assumptions C54_upper.

(** the lower bounds are valid, but never better than the initial ones. Missing: at least as tight *)
Theorem C54_lower_partial : forall (P : Type) (T : tuner P) (p : P) (f : vec -> vec) (xmin xmax : arr R) (bs ns : Z), let m := tu_ev T p in
  tuner_ok T p f xmin xmax -> boxes_ok (wm_n m) xmin xmax -> consistent (wm_n m) xmin xmax -> (ns <= 1)%Z ->
  exists r p' r0, box_tuning true T p xmin xmax bs ns = Ok (r, p') /\ api_lower_box (Decomon m) xmin xmax bs ns = Ok r0 /\ tu_ev T p' = m /\
  a_tail r = wm_out m /\ alen r = alen xmin /\
  forall b j, (b < alen xmin)%nat -> (j < wm_k m)%nat -> cell r b j <= cell r0 b j /\ forall z, in_sample (wm_n m) (the_box xmin xmax b) z -> cell r b j <= f z j.
Proof. exact (@lower_tuning). Qed.
Print Assumptions C54_lower_partial.

Theorem C54_lower_refuted : exists r p r0, tuner_ok (T2 2) false (fun _ _ => 0) (boxes [1%nat] [0]) (boxes [1%nat] [1]) /\
  box_tuning true (T2 2) false (boxes [1%nat] [0]) (boxes [1%nat] [1]) (-1) 1 = Ok (r, p) /\
  api_lower_box (Decomon (tu_ev (T2 2) false)) (boxes [1%nat] [0]) (boxes [1%nat] [1]) (-1) 1 = Ok r0 /\ cell r 0 0 < cell r0 0 0.
Proof. exact lower_tuning_refuted. Qed.
Print Assumptions C54_lower_refuted.

Theorem C54_lower_lost_refuted : exists r p l, box_tuning true (T2 0) false (boxes [1%nat] [0]) (boxes [1%nat] [1]) (-1) 1 = Ok (r, p) /\
  api_lower_box (Decomon (tu_ev (T2 0) true)) (boxes [1%nat] [0]) (boxes [1%nat] [1]) (-1) 1 = Ok l /\ cell r 0 0 < cell l 0 0.
Proof. exact lower_tuning_lost_refuted. Qed.
Print Assumptions C54_lower_lost_refuted.

(** sub-boxes: refused without batches *)
Theorem C54_sub_boxes_refuted : forall (P : Type) (T : tuner P) (p : P) (f : vec -> vec) (lower : bool) (xmin xmax : arr R) (bs ns : Z), let m := tu_ev T p in
  tuner_sub_ok T p f xmin xmax -> boxes_ok (wm_n m) xmin xmax -> consistent (wm_n m) xmin xmax -> a_tail xmin = [wm_n m] -> (1 < ns)%Z ->
  (bs <= (if lower then 0 else 1))%Z -> wm_k m = 1%nat -> box_tuning lower T p xmin xmax bs ns = Err ValueError.
Proof. exact (@tuning_sub_refused). Qed.
Print Assumptions C54_sub_boxes_refuted.

(** with batches, one row for each sub-box and not for each sample *)
Theorem C54_sub_boxes_rows_refuted : forall (P : Type) (T : tuner P) (p : P) (f : vec -> vec) (lower : bool) (xmin xmax : arr R) (bs ns : Z), let m := tu_ev T p in
  tuner_sub_ok T p f xmin xmax -> boxes_ok (wm_n m) xmin xmax -> consistent (wm_n m) xmin xmax -> a_tail xmin = [wm_n m] -> (1 < ns)%Z ->
  (1 < bs)%Z -> lower = false -> exists s r p', (2 <= s)%nat /\ box_tuning lower T p xmin xmax bs ns = Ok (r, p') /\ alen r = (alen xmin * s)%nat.
Proof. exact (@tuning_sub_rows). Qed.
Print Assumptions C54_sub_boxes_rows_refuted.

Example C54_example : tuner_ok (T2 2) false (fun _ _ => 0) (boxes [1%nat] [0]) (boxes [1%nat] [1]) /\ tuner_sub_ok (T2 2) false (fun _ _ => 0) (boxes [1%nat] [0]) (boxes [1%nat] [1]).
Proof. exact ex_tuning. Qed.

