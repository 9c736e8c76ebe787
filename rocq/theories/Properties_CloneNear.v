(** Theorems C69 and C70: backward methods on piecewise affine networks, and certificates with a margin. *)
From Coq Require Import String Reals List Arith Bool ZArith.
From Verif Require Import RLib Spec Spec_Layers Spec_Backward Spec_Convert Spec_Near Spec_Wrapper M_Core M_State M_Utils M_Ops M_Backward M_Crown M_Convert M_Network M_Wrapper M_Clone.
From Verif Require Import P_Core P_Graph P_Crown P_Convert P_Network P_NetworkSpec P_NetworkCrown P_NetworkThm P_Near P_NearThm P_NearCrown P_Wrapper P_WrapperAdv P_Clone P_CloneThm P_CloneNear P_CloneNearThm.
From Verif Require Import Spec_Network.
Import ListNotations.
Local Open Scope R_scope.

(** method crown, every final mode; compare C65: no condition on the intermediate bounds *)
Theorem C69_crown : forall ke D n mode final z ids bo net v o,
  0 < ke -> (0 < n)%nat -> norm_ok D -> (mode = IBP -> D = Box) ->
  net_ok n net -> net_value net v -> blayers_ok bo net -> single_output net o ->
  length ids = length net -> NoDup ids ->
  (forall i L ps, nth_error net i = Some (Some L, ps) -> nl_piecewise L) ->
  exists ts, clone_backward D n mode final None ids (backward_net ke (mk_spec false mode D n) bo n net) [o] None z = Ok ts /\
    near D final (in_dom D n z) n (net_dim n net o) (net_slack net * ke) (v o) ts.
Proof. exact net_clone_crown_near. Qed.
Print Assumptions C69_crown.

(** methods crown-forward-ibp, crown-forward-affine, crown-forward-hybrid *)
Theorem C69_crown_forward : forall ke D n mode final z ids opts bo net v o,
  0 < ke -> (0 < n)%nat -> norm_ok D -> (mode = IBP -> D = Box) ->
  net_ok n net -> net_value net v -> layers_ok mode opts net -> blayers_ok bo net -> single_output net o ->
  length ids = length net -> NoDup ids ->
  (forall i L ps, nth_error net i = Some (Some L, ps) -> nl_piecewise L) ->
  exists ts, clone_backward D n mode final (Some (decomon_net ke (mk_spec false mode D n) opts net)) ids (backward_net ke (mk_spec false mode D n) bo n net) [o] None z = Ok ts /\
    near D final (in_dom D n z) n (net_dim n net o) (net_slack net * ke) (v o) ts.
Proof. exact net_clone_crown_forward_near. Qed.
Print Assumptions C69_crown_forward.

Theorem C69_crown_constants : forall ke D n mode z ids bo net v o,
  0 < ke -> (0 < n)%nat -> norm_ok D -> (mode = IBP -> D = Box) -> net_ok n net -> net_value net v -> blayers_ok bo net -> single_output net o ->
  length ids = length net -> NoDup ids -> all_piecewise net ->
  exists u l, clone_backward D n mode IBP None ids (backward_net ke (mk_spec false mode D n) bo n net) [o] None z = Ok [u; l] /\
    forall y j, in_dom D n z y -> (j < net_dim n net o)%nat -> l 0%nat j - net_slack net * ke <= v o y j <= u 0%nat j + net_slack net * ke.
Proof. exact net_crown_near_constants. Qed.
Print Assumptions C69_crown_constants.

(** no factor works for all weights *)
Theorem C69_factor_needed : forall ke K, 0 < ke -> exists net v o ids u l y,
  net_ok 1 net /\ net_value net v /\ single_output net o /\ all_piecewise net /\ blayers_ok plain_bopts net /\
  clone_backward Box 1 IBP IBP None ids (backward_net ke (mk_spec false IBP Box 1) plain_bopts 1 net) [o] None (small_box ke) = Ok [u; l] /\
  in_dom Box 1 (small_box ke) y /\ u 0%nat 0%nat + K * ke < v o y 0%nat.
Proof. exact crown_slack_unbounded. Qed.
Print Assumptions C69_factor_needed.

Example C69_example_relu : forall ke z, 0 < ke -> exists u l,
  clone_backward Box 1 IBP IBP None [0%nat; 1%nat] (backward_net ke (mk_spec false IBP Box 1) plain_bopts 1 relu_net) [1%nat] None z = Ok [u; l] /\
  forall y, in_dom Box 1 z y -> l 0%nat 0%nat - 2 * ke <= Rmax (y 0%nat) 0 <= u 0%nat 0%nat + 2 * ke.
Proof. exact relu_crown_near. Qed.

(** the seven methods, on a box or a ball *)
Theorem C70_bounds : forall ke a n out net o v D, net_facts ke n out net o v -> norm_ok D -> clone_set D a net ->
  exists c, clone ke a n out net o = Ok c /\ wm_domain c = D /\ wm_bb c = false /\ wm_n c = n /\ wm_out c = out /\
    forall z, exists mode ts, wmode c = Some mode /\ wm_predict c (wm_domain c) z None = Ok ts /\
      near D mode (in_dom D n z) (wm_n c) (wm_k c) (net_slack net * ke) (v o) ts.
Proof. exact clone_near. Qed.
Print Assumptions C70_bounds.

(** get_adv_box: the score bounds the differences of outputs up to the margin, and a score below minus the margin excludes adversarial points *)
Theorem C70_adv : forall ke a n out net o v xmin xmax src tgt bs ns,
  net_facts ke n out net o v -> clone_set Box a net ->
  (0 < prodn out)%nat -> boxes_ok n xmin xmax -> consistent n xmin xmax -> mask_ok (alen xmin) (prodn out) src -> mask_opt (alen xmin) (prodn out) tgt ->
  (ns <= 1)%Z \/ a_tail xmin = [n] ->
  exists c r, clone ke a n out net o = Ok c /\ get_adv_box (Keras c) xmin xmax (LArr src) (option_map LArr tgt) bs ns = Ok r /\ length r = alen xmin /\
    forall b y, (b < alen xmin)%nat -> in_sample n (the_box xmin xmax b) y ->
      (forall t s, (t < prodn out)%nat -> (s < prodn out)%nat -> pair_of src tgt b t s -> v o y t - v o y s <= nth b r 0 + 2 * (net_slack net * ke)) /\
      (nth b r 0 < - (2 * (net_slack net * ke)) -> no_attack (prodn out) (pair_of src tgt b) (v o) y).
Proof. exact net_adv_box_near. Qed.
Print Assumptions C70_adv.

(** get_range_box *)
Theorem C70_range : forall ke a n out net o v xmin xmax bs ns,
  net_facts ke n out net o v -> clone_set Box a net -> boxes_ok n xmin xmax -> consistent n xmin xmax -> small ns ->
  exists c u l, clone ke a n out net o = Ok c /\ get_range_box (Keras c) xmin xmax bs ns = Ok (u, l) /\ a_tail u = out /\ a_tail l = out /\ alen u = alen xmin /\ alen l = alen xmin /\
    forall b y j, (b < alen xmin)%nat -> in_sample n (the_box xmin xmax b) y -> (j < prodn out)%nat ->
      cell l b j - net_slack net * ke <= v o y j <= cell u b j + net_slack net * ke.
Proof. exact net_range_box_near. Qed.
Print Assumptions C70_range.

(** get_range_noise *)
Theorem C70_noise : forall ke a n out net o v x eps p bs,
  net_facts ke n out net o v -> 0 <= eps -> known_norm p -> points_ok n x -> clone_set (Ball eps p) a net ->
  exists c u l, clone ke a n out net o = Ok c /\ get_range_noise (Keras c) x eps p bs = Ok (u, l) /\ get_range_noise (Decomon c) x eps p bs = Ok (u, l) /\ alen u = alen x /\ alen l = alen x /\
    forall b j y, (b < alen x)%nat -> (j < prodn out)%nat -> in_ball n p eps (lvec (point x b)) y ->
      cell l b j - net_slack net * ke <= v o y j <= cell u b j + net_slack net * ke.
Proof. exact net_range_noise_near. Qed.
Print Assumptions C70_noise.

(** what the wrapper functions do on a Keras model: crown on boxes, crown-forward-hybrid on balls *)
Theorem C70_default_adv : forall ke n out net o v xmin xmax src tgt bs ns,
  net_facts ke n out net o v -> blayers_ok plain_bopts net -> all_piecewise net ->
  (0 < prodn out)%nat -> boxes_ok n xmin xmax -> consistent n xmin xmax -> mask_ok (alen xmin) (prodn out) src -> mask_opt (alen xmin) (prodn out) tgt ->
  (ns <= 1)%Z \/ a_tail xmin = [n] ->
  exists c r, clone ke default_args n out net o = Ok c /\ get_adv_box (Keras c) xmin xmax (LArr src) (option_map LArr tgt) bs ns = Ok r /\ length r = alen xmin /\
    forall b y, (b < alen xmin)%nat -> in_sample n (the_box xmin xmax b) y -> nth b r 0 < - (2 * (net_slack net * ke)) -> no_attack (prodn out) (pair_of src tgt b) (v o) y.
Proof. exact default_adv_near. Qed.
Print Assumptions C70_default_adv.

Theorem C70_default_range : forall ke n out net o v xmin xmax bs ns,
  net_facts ke n out net o v -> blayers_ok plain_bopts net -> all_piecewise net -> boxes_ok n xmin xmax -> consistent n xmin xmax -> small ns ->
  exists c u l, clone ke default_args n out net o = Ok c /\ get_range_box (Keras c) xmin xmax bs ns = Ok (u, l) /\ a_tail u = out /\ a_tail l = out /\ alen u = alen xmin /\ alen l = alen xmin /\
    forall b y j, (b < alen xmin)%nat -> in_sample n (the_box xmin xmax b) y -> (j < prodn out)%nat ->
      cell l b j - net_slack net * ke <= v o y j <= cell u b j + net_slack net * ke.
Proof. exact default_range_near. Qed.
Print Assumptions C70_default_range.

Theorem C70_default_noise : forall ke n out net o v x eps p bs,
  net_facts ke n out net o v -> 0 <= eps -> known_norm p -> points_ok n x -> blayers_ok plain_bopts net -> layers_ok HYBRID plain_opts net -> all_piecewise net ->
  exists c u l, clone ke (noise_call eps p) n out net o = Ok c /\ get_range_noise (Keras c) x eps p bs = Ok (u, l) /\ alen u = alen x /\ alen l = alen x /\
    forall b j y, (b < alen x)%nat -> (j < prodn out)%nat -> in_ball n p eps (lvec (point x b)) y ->
      cell l b j - net_slack net * ke <= v o y j <= cell u b j + net_slack net * ke.
Proof. exact default_noise_near. Qed.
Print Assumptions C70_default_noise.

(** Dense, relu, Dense of any sizes and weights satisfies the hypotheses of the three theorems *)
Example C70_example_mlp : forall ke n h k k1 b1 k2 b2, 0 < ke -> (0 < n)%nat -> (0 < h)%nat -> (0 < k)%nat -> let net := mlp_net n h k k1 b1 k2 b2 in
  net_facts ke n [k] net 3 (net_fn net) /\ blayers_ok plain_bopts net /\ layers_ok HYBRID plain_opts net /\ all_piecewise net.
Proof. exact mlp_facts. Qed.

(** a score below the margin *)
Example C70_example_certified : forall ke, 0 < ke -> exists c r,
  let lo := kink_lo ke in let hi := kink_hi ke in
  net_facts ke 1 [2%nat] (safe_net ke) 2 (safe_value ke) /\ blayers_ok plain_bopts (safe_net ke) /\ all_piecewise (safe_net ke) /\
  boxes_ok 1 lo hi /\ consistent 1 lo hi /\ mask_ok 1 2 second_class /\
  clone ke default_args 1 [2%nat] (safe_net ke) 2 = Ok c /\ get_adv_box (Keras c) lo hi (LArr second_class) None (-1) 1 = Ok r /\
  nth 0 r 0 < - (2 * (net_slack (safe_net ke) * ke)) /\
  forall y, in_sample 1 (the_box lo hi 0) y -> no_attack 2 (pair_of second_class None 0) (safe_value ke 2) y.
Proof. exact safe_score. Qed.

(** the network of C67_refuted, whose negative score is not below the margin *)
Example C70_example_margin : forall ke, 0 < ke -> net_slack (cert_net ke) = 3 /\ blayers_ok plain_bopts (cert_net ke) /\ all_piecewise (cert_net ke).
Proof. exact cert_margin. Qed.

