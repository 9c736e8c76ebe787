(** Theorems C67: the functions of wrapper.py on clones of networks, from end to end. *)
From Coq Require Import String Reals List Arith Bool ZArith.
From Verif Require Import RLib Spec Spec_Network Spec_Wrapper M_Core M_Backward M_Crown M_Convert M_Network M_Wrapper M_Clone.
From Verif Require Import P_Core P_Network P_NetworkSpec P_NetworkCrown P_NetworkThm P_NetworkExact P_NetworkExactThm P_Clone P_CloneThm.
Import ListNotations.
Local Open Scope R_scope.

(** the seven methods, on a box or a ball: the model returned by clone bounds the network. Missing: clone_gaps (intervals narrower than epsilon and the other conditions of C64, C65; refuted without it, below) *)
Theorem C67_bounds_partial : forall ke a n out net o v z m mode fi fa, let D := args_domain a in
  0 < ke -> (0 < n)%nat -> norm_ok D -> net_ok n net -> net_value net v -> single_output net o -> prodn out = net_dim n net o ->
  clone_flags (ca_method a) (ca_ibp a) (ca_affine a) = Ok (m, mode, (fi, fa)) -> final_some fi fa ->
  (mode = IBP \/ exists y, in_dom D n z y) -> clone_fits D m mode (get_mode fi fa) (ca_fwd a) (ca_bwd a) net -> clone_gaps ke D m mode (ca_fwd a) (ca_bwd a) n net z ->
  exists c ts, clone ke a n out net o = Ok c /\ wm_domain c = D /\ wm_bb c = false /\ wm_n c = n /\ wm_out c = out /\ wmode c = Some (get_mode fi fa) /\
    wm_predict c D z None = Ok ts /\ valid D (get_mode fi fa) false (in_dom D n z) n (wm_k c) (v o) ts.
Proof. exact clone_sound. Qed.
Print Assumptions C67_bounds_partial.

(** a negative score of get_adv_box excludes adversarial points. Missing: as above *)
Theorem C67_adv_partial : forall ke a n out net o v xmin xmax src tgt bs ns,
  net_facts ke n out net o v -> clone_ready ke a n net (samples_of xmin xmax) ->
  (0 < prodn out)%nat -> boxes_ok n xmin xmax -> consistent n xmin xmax -> mask_ok (alen xmin) (prodn out) src -> mask_opt (alen xmin) (prodn out) tgt -> small ns ->
  exists c r, clone ke a n out net o = Ok c /\ get_adv_box (Keras c) xmin xmax (LArr src) (option_map LArr tgt) bs ns = Ok r /\ length r = alen xmin /\
    forall b y, (b < alen xmin)%nat -> in_sample n (the_box xmin xmax b) y -> nth b r 0 < 0 -> no_attack (prodn out) (pair_of src tgt b) (v o) y.
Proof. exact net_adv_box. Qed.
Print Assumptions C67_adv_partial.

(** get_range_box *)
Theorem C67_range_partial : forall ke a n out net o v xmin xmax bs ns,
  net_facts ke n out net o v -> clone_ready ke a n net (samples_of xmin xmax) -> boxes_ok n xmin xmax -> consistent n xmin xmax -> small ns ->
  exists c u l, clone ke a n out net o = Ok c /\ get_range_box (Keras c) xmin xmax bs ns = Ok (u, l) /\ a_tail u = out /\ a_tail l = out /\ alen u = alen xmin /\ alen l = alen xmin /\
    forall b y j, (b < alen xmin)%nat -> in_sample n (the_box xmin xmax b) y -> (j < prodn out)%nat -> cell l b j <= v o y j <= cell u b j.
Proof. exact net_range_box. Qed.
Print Assumptions C67_range_partial.

(** get_range_noise *)
Theorem C67_noise_partial : forall ke a n out net o v x eps p bs,
  net_facts ke n out net o v -> 0 <= eps -> known_norm p -> points_ok n x -> ball_ready ke a n net eps p (fun c => exists b, (b < alen x)%nat /\ c = point x b) ->
  exists c u l, clone ke a n out net o = Ok c /\ get_range_noise (Keras c) x eps p bs = Ok (u, l) /\ get_range_noise (Decomon c) x eps p bs = Ok (u, l) /\ alen u = alen x /\ alen l = alen x /\
    forall b j y, (b < alen x)%nat -> (j < prodn out)%nat -> in_ball n p eps (lvec (point x b)) y -> cell l b j <= v o y j <= cell u b j.
Proof. exact net_range_noise. Qed.
Print Assumptions C67_noise_partial.

(** forward-ibp: every network of the seventeen kinds of layers, without condition on the values *)
Theorem C67_ibp_adv : forall ke fwd n out net o v xmin xmax src tgt bs ns,
  net_facts ke n out net o v -> layers_ok IBP fwd net ->
  (0 < prodn out)%nat -> boxes_ok n xmin xmax -> consistent n xmin xmax -> mask_ok (alen xmin) (prodn out) src -> mask_opt (alen xmin) (prodn out) tgt -> small ns ->
  exists c r, clone ke (ibp_args None fwd) n out net o = Ok c /\ get_adv_box (Keras c) xmin xmax (LArr src) (option_map LArr tgt) bs ns = Ok r /\ length r = alen xmin /\
    forall b y, (b < alen xmin)%nat -> in_sample n (the_box xmin xmax b) y -> nth b r 0 < 0 -> no_attack (prodn out) (pair_of src tgt b) (v o) y.
Proof. exact ibp_net_adv. Qed.
Print Assumptions C67_ibp_adv.

Theorem C67_ibp_adv_sub_boxes : forall ke fwd n out net o v xmin xmax src tgt bs ns,
  net_facts ke n out net o v -> layers_ok IBP fwd net ->
  (0 < prodn out)%nat -> boxes_ok n xmin xmax -> consistent n xmin xmax -> mask_ok (alen xmin) (prodn out) src -> mask_opt (alen xmin) (prodn out) tgt -> (1 < ns)%Z -> a_tail xmin = [n] ->
  exists c r, clone ke (ibp_args None fwd) n out net o = Ok c /\ get_adv_box (Keras c) xmin xmax (LArr src) (option_map LArr tgt) bs ns = Ok r /\ length r = alen xmin /\
    forall b y, (b < alen xmin)%nat -> in_sample n (the_box xmin xmax b) y -> nth b r 0 < 0 -> no_attack (prodn out) (pair_of src tgt b) (v o) y.
Proof. exact ibp_net_adv_sub. Qed.
Print Assumptions C67_ibp_adv_sub_boxes.

Theorem C67_ibp_range : forall ke fwd n out net o v xmin xmax bs ns,
  net_facts ke n out net o v -> layers_ok IBP fwd net -> boxes_ok n xmin xmax -> consistent n xmin xmax -> small ns ->
  exists c u l, clone ke (ibp_args None fwd) n out net o = Ok c /\ get_range_box (Keras c) xmin xmax bs ns = Ok (u, l) /\ a_tail u = out /\ a_tail l = out /\ alen u = alen xmin /\ alen l = alen xmin /\
    forall b y j, (b < alen xmin)%nat -> in_sample n (the_box xmin xmax b) y -> (j < prodn out)%nat -> cell l b j <= v o y j <= cell u b j.
Proof. exact ibp_net_range. Qed.
Print Assumptions C67_ibp_range.

Theorem C67_ibp_noise : forall ke fwd n out net o v x eps p bs,
  net_facts ke n out net o v -> layers_ok IBP fwd net -> 0 <= eps -> known_norm p -> points_ok n x ->
  exists c u l, clone ke (ibp_args (Some (Ball eps p)) fwd) n out net o = Ok c /\ get_range_noise (Decomon c) x eps p bs = Ok (u, l) /\ alen u = alen x /\ alen l = alen x /\
    forall b j y, (b < alen x)%nat -> (j < prodn out)%nat -> in_ball n p eps (lvec (point x b)) y -> cell l b j <= v o y j <= cell u b j.
Proof. exact ibp_net_noise. Qed.
Print Assumptions C67_ibp_noise.

(** get_range_box on a Keras model (method crown): the extrema of an affine network on each box *)
Theorem C67_default_exact : forall ke n out net o v xmin xmax bs ns,
  net_facts ke n out net o v -> blayers_ok plain_bopts net -> all_free net -> boxes_ok n xmin xmax -> consistent n xmin xmax -> small ns ->
  exists c u l, clone ke default_args n out net o = Ok c /\ get_range_box (Keras c) xmin xmax bs ns = Ok (u, l) /\ alen u = alen xmin /\ alen l = alen xmin /\
    forall b j, (b < alen xmin)%nat -> (j < prodn out)%nat ->
      is_max (in_sample n (the_box xmin xmax b)) (fun y => v o y j) (cell u b j) /\ is_min (in_sample n (the_box xmin xmax b)) (fun y => v o y j) (cell l b j).
Proof. exact default_range_exact. Qed.
Print Assumptions C67_default_exact.

(** get_adv_box on a Keras model with a relu: a negative score, and an adversarial point in the box *)
Theorem C67_refuted : forall ke, 0 < ke -> exists c r y,
  let lo := kink_lo ke in let hi := kink_hi ke in
  net_facts ke 1 [2%nat] (cert_net ke) 2 (cert_value ke) /\ boxes_ok 1 lo hi /\ consistent 1 lo hi /\ mask_ok 1 2 second_class /\
  clone ke default_args 1 [2%nat] (cert_net ke) 2 = Ok c /\ get_adv_box (Keras c) lo hi (LArr second_class) None (-1) 1 = Ok r /\ nth 0 r 0 < 0 /\
  in_sample 1 (the_box lo hi 0) y /\ pair_of second_class None 0 0 1 /\ cert_value ke 2 y 1%nat < cert_value ke 2 y 0%nat.
Proof. exact default_adv_refuted. Qed.
Print Assumptions C67_refuted.

Example C67_example_image : forall ke kernel bias gamma mean dense fwd P, 0 < ke -> (forall i, plain (fwd i)) ->
  net_facts ke 9 [3%nat] (image_net kernel bias gamma mean dense) 8 (net_fn (image_net kernel bias gamma mean dense)) /\
  clone_ready ke (ibp_args None fwd) 9 (image_net kernel bias gamma mean dense) P.
Proof. exact image_facts. Qed.

Example C67_example_affine : forall ke n k1 k2 eps p P, 0 < ke -> (0 < n)%nat -> 0 <= eps ->
  net_facts ke n [n] (dd_net n k1 k2) 2 (net_fn (dd_net n k1 k2)) /\ blayers_ok plain_bopts (dd_net n k1 k2) /\ all_free (dd_net n k1 k2) /\
  ball_ready ke (noise_call eps p) n (dd_net n k1 k2) eps p P.
Proof. exact dd_facts. Qed.

