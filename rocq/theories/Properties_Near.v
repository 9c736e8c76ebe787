(** Theorems C68: piecewise affine networks are enclosed up to a multiple of epsilon fixed by their weights. *)
From Coq Require Import Reals List Arith Bool ZArith.
From Verif Require Import RLib Spec Spec_Layers Spec_Backward Spec_Convert Spec_Near M_Core M_Utils M_Ops M_Backward M_Crown M_Convert M_Network.
From Verif Require Import P_Core P_Graph P_Crown P_Convert P_Network P_NetworkSpec P_NetworkThm P_Near P_NearThm.
From Verif Require Import Spec_Network.
Import ListNotations.
Local Open Scope R_scope.

(** one layer, fed with bounds that are off by e: no condition on these bounds *)
Theorem C68_layer : forall ke sp (S : vec -> Prop) o L e gs tss g, 0 < ke -> (0 < sp_n sp)%nat -> dom_ok (sp_dom sp) (sp_mode sp) -> sp_dc sp = false ->
  nl_piecewise L -> nl_ok (sp_mode sp) (lo_fast o) L -> ft_ok (nl_out L) (lo_ft o) -> 0 <= e ->
  Forall2 (fun mg ts => near_sp sp S (fst mg) e (snd mg) ts) (combine (nl_in L) gs) tss -> length gs = length (nl_in L) ->
  (forall z, computes L (map (fun h => h z) gs) (g z)) ->
  exists out, decomon_layer ke sp o L (concat tss) = Ok out /\ near_sp sp S (nl_out L) (Rmax 1 (nl_gain L) * (e + ke)) g out.
Proof. exact layer_near. Qed.
Print Assumptions C68_layer.

(** the three forward modes; compare C64_forward_partial: neither a condition on the intermediate bounds nor on the domain *)
Theorem C68_forward : forall ke D n mode final z opts net v o,
  0 < ke -> (0 < n)%nat -> norm_ok D -> (mode = IBP -> final = IBP) ->
  net_ok n net -> net_value net v -> layers_ok mode opts net -> single_output net o ->
  (forall i L ps, nth_error net i = Some (Some L, ps) -> nl_piecewise L) ->
  exists ts, clone_forward D n mode final (decomon_net ke (mk_spec false mode D n) opts net) [o] z = Ok ts /\
    near D final (in_dom D n z) n (net_dim n net o) (net_slack net * ke) (v o) ts.
Proof. exact net_clone_near. Qed.
Print Assumptions C68_forward.

Theorem C68_forward_constants : forall ke D n mode z opts net v o,
  0 < ke -> (0 < n)%nat -> norm_ok D -> net_ok n net -> net_value net v -> layers_ok mode opts net -> single_output net o ->
  (forall i L ps, nth_error net i = Some (Some L, ps) -> nl_piecewise L) ->
  exists u l, clone_forward D n mode IBP (decomon_net ke (mk_spec false mode D n) opts net) [o] z = Ok [u; l] /\
    forall y j, in_dom D n z y -> (j < net_dim n net o)%nat -> l 0%nat j - net_slack net * ke <= v o y j <= u 0%nat j + net_slack net * ke.
Proof. exact net_clone_near_constants. Qed.
Print Assumptions C68_forward_constants.

(** no factor works for all weights *)
Theorem C68_factor_needed : forall ke K, 0 < ke -> exists net v o u l y,
  net_ok 1 net /\ net_value net v /\ single_output net o /\ (forall i L ps, nth_error net i = Some (Some L, ps) -> nl_piecewise L) /\
  clone_forward Box 1 AFFINE IBP (decomon_net ke (mk_spec false AFFINE Box 1) (fun _ => mk_opts V_SLOPE None false) net) [o] (small_box ke) = Ok [u; l] /\
  in_dom Box 1 (small_box ke) y /\ u 0%nat 0%nat + K * ke < v o y 0%nat.
Proof. exact slack_unbounded. Qed.
Print Assumptions C68_factor_needed.

Example C68_example_image : forall ke D mode opts kernel bias gamma mean dense z, 0 < ke -> norm_ok D -> (forall i, plain (opts i)) -> exists v u l,
  net_value (image_net kernel bias gamma mean dense) v /\
  clone_forward D 9 mode IBP (decomon_net ke (mk_spec false mode D 9) opts (image_net kernel bias gamma mean dense)) [8%nat] z = Ok [u; l] /\
  forall y j, in_dom D 9 z y -> (j < 3)%nat ->
    l 0%nat j - net_slack (image_net kernel bias gamma mean dense) * ke <= v 8%nat y j <= u 0%nat j + net_slack (image_net kernel bias gamma mean dense) * ke.
Proof. exact image_near. Qed.

Example C68_example_relu : forall ke z, 0 < ke -> exists u l,
  clone_forward Box 1 AFFINE IBP (decomon_net ke (mk_spec false AFFINE Box 1) (fun _ => mk_opts V_SLOPE None false) relu_net) [1%nat] z = Ok [u; l] /\
  forall y, in_dom Box 1 z y -> l 0%nat 0%nat - 2 * ke <= Rmax (y 0%nat) 0 <= u 0%nat 0%nat + 2 * ke.
Proof. exact relu_near_net. Qed.

