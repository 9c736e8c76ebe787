(** Theorems C45, all the weights at once: reset_layer_all_weights and share_layer_all_weights. *)
From Coq Require Import String Reals List Arith Bool ZArith Permutation.
From Verif Require Import RLib Spec Spec_Layers M_Core M_Utils M_MergeLayers M_Ops M_Layers M_Convert M_State Spec_State M_AllWeights P_AllWeights.
Import ListNotations.
Local Open Scope nat_scope.

(** every weight of the new layer takes the value of the weight of the same name of the original; no other variable changes *)
Theorem C45_reset_all : forall name st new orig, wl_built orig = true -> wl_built new = true -> NoDup (wl_weights new) ->
  (forall v, In v (wl_weights new) -> wl_attr new (name v) = Some v /\ exists w, wl_attr orig (name v) = Some w /\ In w (wl_weights orig) /\ tv_shape (st v) = tv_shape (st w)) ->
  exists st', reset_layer_all_weights name st new orig = Ok st' /\
    (forall v w, In v (wl_weights new) -> wl_attr orig (name v) = Some w -> st' v = st w) /\ forall v, ~ In v (wl_weights new) -> st' v = st v.
Proof. exact reset_all. Qed.
Print Assumptions C45_reset_all.

(** the new layer, built, has the variables of the original for weights, in the same order, and under the same names *)
Theorem C45_share_all : forall name created orig new (fr : string -> nat), wl_built orig = true -> wl_built new = false -> wl_weights new = [] -> NoDup (wl_weights orig) ->
  (forall w, In w (wl_weights orig) -> wl_attr orig (name w) = Some w) ->
  Permutation (map fst created) (map name (wl_weights orig)) -> (forall n v, In (n, v) created -> v = fr n) ->
  (forall v w, In v (wl_weights orig) -> In w (wl_weights orig) -> fr (name v) = fr (name w) -> v = w) -> (forall v w, In v (wl_weights orig) -> In w (wl_weights orig) -> v <> fr (name w)) ->
  exists l, share_layer_all_weights name created true orig new = Ok l /\ wl_built l = true /\ wl_weights l = wl_weights orig /\
    forall w, In w (wl_weights orig) -> wl_attr l (name w) = Some w.
Proof. exact share_all. Qed.
Print Assumptions C45_share_all.

(** neither succeeds when a weight is not an attribute of its layer under its own name (weights of a sub-layer) *)
Theorem C45_all_not_attribute : forall name st new orig v created, wl_built orig = true -> wl_built new = true ->
  (In v (wl_weights new) -> wl_attr new (name v) = None -> forall st', reset_layer_all_weights name st new orig <> Ok st') /\
  (forall w, In w (wl_weights orig) -> wl_attr orig (name w) = None -> forall new' l, share_layer_all_weights name created true orig new' <> Ok l).
Proof. exact all_not_attribute. Qed.
Print Assumptions C45_all_not_attribute.

(** a layer with a kernel and a bias *)
Example C45_all_example : let orig := mk_wlayer true [0; 1] (attrs2 0 1) in let new := mk_wlayer true [2; 3] (attrs2 2 3) in let st : store := fun v => mk_tval [1] (fun _ => INR v) in
  (forall v, In v (wl_weights new) -> wl_attr new (name2 v) = Some v /\ exists w, wl_attr orig (name2 v) = Some w /\ In w (wl_weights orig) /\ tv_shape (st v) = tv_shape (st w)) /\
  (forall w, In w (wl_weights orig) -> wl_attr orig (name2 w) = Some w) /\
  share_layer_all_weights name2 [("kernel", 4); ("bias", 5)]%string true orig (mk_wlayer false [] (fun _ => None)) = Ok (mk_wlayer true [0; 1] (upd_s (upd_s (upd_s (upd_s (upd_s (upd_s (fun _ => None) "kernel" (Some 0)) "bias" (Some 1)) "kernel" (Some 4)) "bias" (Some 5)) "kernel" (Some 0)) "bias" (Some 1)))%string.
Proof. exact all_example. Qed.
Print Assumptions C45_all_example.

