(** Concrete cases for C41-C45 *)
From Coq Require Import String Ascii Reals List Arith Bool ZArith Lia Lra Permutation.
From Verif Require Import RLib Spec Spec_Layers M_Core M_Utils M_MergeLayers M_Ops M_Layers M_Convert M_State Spec_State P_State P_StateNames P_StateTables P_Core P_Utils P_Layers P_Convert P_BackwardMore P_StateDomain P_StateWeights.
Import ListNotations.
Local Open Scope nat_scope.

Definition objs (l : list lobj) : heap := mk_heap (fun i => nth i l (mk_lobj "" CInput ANone)) (length l).
(** input layer, Dense with a relu, Dense without activation *)
Definition h_relu : heap := objs [mk_lobj "input" CInput ANone; mk_lobj "d" (COther 0) (AName "relu"); mk_lobj "e" (COther 0) (AName "linear")].
(** input layer, Dense, Activation("softmax") *)
Definition h_softmax : heap := objs [mk_lobj "input" CInput ANone; mk_lobj "d" (COther 0) (AName "linear"); mk_lobj "a" CActivation (AName "softmax")].
Lemma objs_wf : forall l, (forall o b, In o l -> lo_act o <> ALayer b) -> obj_wf (objs l).
Proof.
  intros l H r b Hr A. exfalso. cbn in *. destruct (nth_in_or_default r l (mk_lobj "" CInput ANone)) as [I|E].
  - exact (H _ b I A).
  - rewrite E in A. discriminate.
Qed.
Lemma ex_clone : obj_wf h_relu /\ refs_wf h_relu [1; 2] /\ (forall b, ~ owns_softmax h_relu 2 b) /\ (exists h', clone_objs h_relu [0] [1; 2] = Ok h') /\ unsplit h_relu 2.
Proof.
  split; [apply objs_wf; intros o b H; cbn in H; intuition (subst; discriminate)|]. split; [intros r [<-|[<-|[]]]; cbn; lia|]. split; [|split].
  - intros b (_ & A & [(-> & C)|(_ & C)]); discriminate.
  - eexists. reflexivity.
  - right; right; reflexivity.
Qed.
Lemma ex_softmax : obj_wf h_softmax /\ refs_wf h_softmax [1; 2] /\ owns_softmax h_softmax 2 2 /\ exists h', clone_objs h_softmax [0] [1; 2] = Ok h'.
Proof.
  split; [apply objs_wf; intros o b H; cbn in H; intuition (subst; discriminate)|]. split; [intros r [<-|[<-|[]]]; cbn; lia|]. split.
  - split; [discriminate|]. split; [reflexivity|]. left. split; reflexivity.
  - eexists. reflexivity.
Qed.
Lemma function_refuted : exists (core : kclass -> nat -> nat) (act : string -> nat -> nat) h inputs ops h' x,
  act "linear"%string x = x /\ clone_objs h inputs ops = Ok h' /\ call_model nat core act h' ops x <> call_model nat core act h ops x.
Proof.
  exists (fun _ y => y), (fun s y => if String.eqb s "softmax" then S y else y), h_softmax, [0], [1; 2]. eexists. exists 0.
  split; [reflexivity|]. split; [reflexivity|]. cbn. discriminate.
Qed.
Lemma clash_refuted : exists h inputs ops, obj_wf h /\ refs_wf h ops /\ (forall i, In i inputs -> apart h ops i) /\
  NoDup (map (fun r => lo_name (h_obj h r)) (inputs ++ ops)) /\ clone_objs h inputs ops = Err ValueError.
Proof.
  exists (objs [mk_lobj "d_0" CInput ANone; mk_lobj "d" (COther 0) (AName "linear")]), [0], [1].
  split; [apply objs_wf; intros o b H; cbn in H; intuition (subst; discriminate)|]. split; [intros r [<-|[]]; cbn; lia|]. split; [|split].
  - intros i [<-|[]]. split; [cbn; lia|]. split; [intros [H|[]]; discriminate|]. intros r [<-|[]]. discriminate.
  - cbn. repeat constructor; cbn; intuition discriminate.
  - reflexivity.
Qed.
Lemma ex_clone_ok : (forall i, In i [0] -> apart h_relu [1; 2] i) /\ forall c p, lo_name (h_obj h_relu 0) <> add_count p c.
Proof.
  split.
  - intros i [<-|[]]. split; [cbn; lia|]. split; [intros [H|[H|[]]]; discriminate|]. intros r [<-|[<-|[]]]; discriminate.
  - intros c p E. assert (X : In "_"%char (list_ascii_of_string (lo_name (h_obj h_relu 0)))).
    { rewrite E. unfold add_count. clear. induction p; cbn; [left; reflexivity|right; exact IHp]. }
    cbn in X. intuition discriminate.
Qed.

(** C43 *)
Lemma ex_freeze : Forall forward_init [LDense (fdense_init true); LAct (fact_init true HYBRID ARelu); LOther []] /\
  exists ls, model_run [FreezeW; FreezeA; UnfreezeW] [LDense (fdense_init true); LAct (fact_init true HYBRID ARelu); LOther []] = Ok ls /\ map flayer_tw ls = [[Kernel; Bias]; []; []].
Proof.
  split.
  - constructor; [left; eexists; reflexivity|]. constructor; [right; left; do 3 eexists; reflexivity|]. constructor; [right; right; eexists; reflexivity|constructor].
  - eexists. split; reflexivity.
Qed.

(** C44 *)
Local Open Scope R_scope.
Lemma ex_set_domain : exists m, set_domains [Ball 3 (Pnum 2); Ball 5 Pinf] (new_model (Ball 1 (Pnum 2)) AFFINE 2 [DDense 2 1 (fun _ _ => 1) None]) = Ok m /\
  dm_domain m = Ball 5 Pinf /\ norm_ok (dm_domain m) /\ input_gaps (1/10) m (fun _ _ => 0) /\ ops_dim 2 [DDense 2 1 (fun _ _ => 1) None] 1.
Proof.
  eexists. split; [reflexivity|]. split; [reflexivity|]. split; [exact I|]. split; [|cbn; auto]. intros its _ ts' _. exact I.
Qed.

(** C45 *)
Local Open Scope nat_scope.
Definition l_new : wlayer := mk_wlayer true [3; 4; 5] (fun s => if String.eqb s "kernel" then Some 3 else if String.eqb s "bias" then Some 5 else None).
Definition l_orig : wlayer := mk_wlayer true [1; 2] (fun s => if String.eqb s "kernel" then Some 2 else if String.eqb s "bias" then Some 1 else None).
Lemma ex_reset : let st : store := fun v => mk_tval [2] (fun _ => INR v) in
  exists st', reset_layer st l_new l_orig ["kernel"; "bias"]%string = Ok st' /\ st' 3 = st 2 /\ st' 4 = st 4 /\ st' 5 = st 1 /\ st' 1 = st 1.
Proof. eexists. split; [reflexivity|]. repeat split. Qed.
Lemma ex_share : exists l, share_weights_and_build [("kernel", 6); ("bias", 7)]%string true l_orig (mk_wlayer false [] (fun _ => None)) ["kernel"; "bias"]%string = Ok l /\
  wl_weights l = [2; 1] /\ wl_attr l "kernel"%string = Some 2 /\ wl_attr l "bias"%string = Some 1.
Proof. eexists. split; [reflexivity|]. repeat split. Qed.
