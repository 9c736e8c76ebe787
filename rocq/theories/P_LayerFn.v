(** Options of a conversion: proofs. *)
From Coq Require Import String List Bool ZArith Lia.
From Verif Require Import RLib Spec Spec_LayerFn M_Core M_Convert M_LayerFn.
Import ListNotations.
Local Open Scope string_scope.

Definition forward_keys : list string := ["input_dim"; "slope"; "perturbation_domain"; "dc_decomp"; "ibp"; "affine"; "finetune"; "shared"].
Definition backward_keys : list string := ["mode"; "finetune"; "perturbation_domain"; "slope"].

Lemma mem_in : forall k l, mem k l = true <-> In k l.
Proof.
  intros k l. unfold mem. rewrite existsb_exists. split.
  - intros (x & Hx & E). apply String.eqb_eq in E. subst x. exact Hx.
  - intros H. exists k. split; [exact H|apply String.eqb_refl].
Qed.
Lemma call_spec : forall f kws, (accepts f (map fst kws) /\ py_call f kws = Ok kws) \/ (~ accepts f (map fst kws) /\ py_call f kws = Err TypeError).
Proof.
  intros f kws. unfold py_call. destruct (forallb _ kws && forallb _ (f_params f)) eqn:E.
  - left. split; [|reflexivity]. apply andb_prop in E. destruct E as [E1 E2]. rewrite forallb_forall in E1, E2. split.
    + intros k Hk. apply in_map_iff in Hk. destruct Hk as ([k' v] & <- & Hin). specialize (E1 _ Hin). cbn [fst] in *. apply andb_prop in E1. destruct E1 as [E1 E3].
      split; [intros ->; rewrite String.eqb_refl in E1; discriminate E1|]. apply orb_prop in E3. destruct E3 as [E3|E3]; [left; apply mem_in; exact E3|right; destruct (f_varkw f); discriminate].
    + intros k Hk. specialize (E2 _ Hk). cbn in E2. apply mem_in. exact E2.
  - right. split; [|reflexivity]. intros [H1 H2]. apply andb_false_iff in E. destruct E as [E|E].
    + assert (Q : forallb (fun kv : string * sval => negb (String.eqb (fst kv) (f_first f)) && (mem (fst kv) (map fst (f_params f)) || match f_varkw f with Some _ => true | None => false end)) kws = true).
      { apply forallb_forall. intros [k v] Hin. cbn [fst]. destruct (H1 k) as [N A]; [apply in_map_iff; exists (k, v); auto|]. apply andb_true_intro. split.
        - apply negb_true_iff. apply String.eqb_neq. exact N.
        - apply orb_true_intro. destruct A as [A|A]; [left; apply mem_in; exact A|right; destruct (f_varkw f); [reflexivity|contradiction A; reflexivity]]. }
      rewrite Q in E. discriminate E.
    + assert (Q : forallb (fun p : string * bool => snd p || mem (fst p) (map fst kws)) (f_params f) = true).
      { apply forallb_forall. intros [k b] Hin. cbn [fst snd]. destruct b; [reflexivity|]. apply mem_in. apply H2. exact Hin. }
      rewrite Q in E. discriminate E.
Qed.
Lemma call_ok : forall f kws, accepts f (map fst kws) -> py_call f kws = Ok kws.
Proof. intros f kws H. destruct (call_spec f kws) as [[_ E]|[N _]]; [exact E|contradiction]. Qed.
Lemma call_none : forall f, (forall k, ~ In (k, false) (f_params f)) -> py_call f [] = Ok [].
Proof. intros f H. apply call_ok. split; [intros k []|]. intros k Hk. contradiction (H k Hk). Qed.

(** ** forward *)
Definition forward_received (dim : Z) (s : slope) (d : pdomain) (dc ibp affine ft sh : bool) (r : keywords) : Prop :=
  get "input_dim" r = Some (VInt dim) /\ get "slope" r = Some (VSlope s) /\ get "perturbation_domain" r = Some (VDom d) /\ get "dc_decomp" r = Some (VBool dc) /\
  get "ibp" r = Some (VBool ibp) /\ get "affine" r = Some (VBool affine) /\ get "finetune" r = Some (VBool ft) /\ get "shared" r = Some (VBool sh).
Definition backward_received (s : slope) (d : pdomain) (m : fmode) (ft : bool) (r : keywords) : Prop :=
  get "slope" r = Some (VSlope s) /\ get "perturbation_domain" r = Some (VDom d) /\ get "mode" r = Some (VMode m) /\ get "finetune" r = Some (VBool ft).

Lemma input_dim_named : forall f, In "input_dim" (f_names f) -> mem "input_dim" (f_names f) = true.
Proof. intros f H. apply mem_in. exact H. Qed.
Lemma clone_forward : forall dim m f o extra, m <> CROWN -> In "input_dim" (f_names f) -> accepts f forward_keys ->
  exists c r, clone_options dim m (Callable f) o extra = Ok c /\ c_forward c = Some (Ok r) /\
    forward_received dim (o_slope o) (or_box (o_dom o)) false (fst (ibp_affine m)) (snd (ibp_affine m)) (o_finetune o || o_finetune_forward o) (o_shared o) r.
Proof.
  intros dim m f o extra Hm Hn Ha. unfold clone_options. destruct (ibp_affine m) as [ibp affine] eqn:E. cbn [fst snd].
  assert (K : forall s, include_dim_layer_fn (Callable f) s = Ok (Ok [("input_dim", VInt (s_input_dim s)); ("slope", VSlope (s_slope s)); ("perturbation_domain", VDom (or_box (s_dom s)));
     ("dc_decomp", VBool (s_dc s)); ("ibp", VBool (s_ibp s)); ("affine", VBool (s_affine s)); ("finetune", VBool (s_finetune s)); ("shared", VBool (s_shared s))])).
  { intros s. cbn [include_dim_layer_fn]. rewrite (input_dim_named f Hn). rewrite call_ok by exact Ha. reflexivity. }
  unfold convert, convert_forward. cbn [o_slope o_dom o_finetune o_shared o_finetune_forward o_finetune_backward s_input_dim s_slope s_dc s_dom s_ibp s_affine s_finetune s_shared Z.eqb].
  destruct m; try (contradiction Hm; reflexivity); rewrite K; cbn [bind get_direction or_box]; do 2 eexists; (split; [reflexivity|]); (split; [reflexivity|]);
    unfold forward_received; cbn [get String.eqb Ascii.eqb Bool.eqb s_input_dim s_slope s_dc s_dom s_ibp s_affine s_finetune s_shared]; cbn; destruct (o_finetune o), (Z.eqb dim (-1)); cbn; repeat split; reflexivity.
Qed.
Lemma clone_backward : forall dim m a o extra c, get_direction m = BACKWARD -> clone_options dim m a o extra = Ok c ->
  exists r, c_backward c = Some (Ok r) /\
    backward_received (o_slope o) (or_box (o_dom o)) (get_mode (fst (ibp_affine m)) (snd (ibp_affine m))) (o_finetune o || o_finetune_backward o) r.
Proof.
  intros dim m a o extra c Hm H. unfold clone_options in H. destruct (ibp_affine m) as [ibp affine] eqn:E. unfold convert in H. rewrite Hm in H.
  destruct (match m with CROWN => _ | _ => _ end) as [fwd|]; [|discriminate H]. cbn [bind] in H. unfold convert_backward, crown_layer_fn in H.
  cbn [f_code to_backward negb] in H. change (Nat.eqb (length (co_varnames to_backward)) 1) with false in H. cbn [andb] in H.
  rewrite call_ok in H.
  - cbn [bind] in H. injection H as <-. eexists. split; [reflexivity|]. unfold backward_received. cbn. cbn; destruct (o_finetune o), (Z.eqb dim (-1)); cbn; repeat split; reflexivity.
  - split.
    + intros k Hk. cbn in Hk. split; [intros ->; cbn in Hk; intuition discriminate|]. left. cbn. intuition.
    + intros k Hk. cbn in Hk. intuition discriminate.
Qed.
Lemma to_decomon_accepts : In "input_dim" (f_names to_decomon) /\ accepts to_decomon forward_keys.
Proof.
  split; [cbn; auto|]. split.
  - intros k Hk. cbn in Hk. split; [intros ->; cbn in Hk; intuition discriminate|]. left. cbn. intuition.
  - intros k Hk. cbn in Hk |- *. intuition (try discriminate). left. congruence.
Qed.
(** the function given by the user receives every option, or none *)
Lemma all_or_nothing : forall dim a s r, convert_forward dim a s = Ok (Ok r) -> r = [] \/
  (map fst r = forward_keys /\ exists n, forward_received n (s_slope s) (or_box (s_dom s)) false (s_ibp s) (s_affine s) (s_finetune s) (s_shared s) r /\ (n = s_input_dim s \/ s_input_dim s = (-1)%Z /\ n = dim)).
Proof.
  intros dim a s r H. unfold convert_forward in H. destruct a as [f| |]; try discriminate H. cbn [include_dim_layer_fn] in H. destruct (mem "input_dim" (f_names f)).
  - right. match type of H with Ok (py_call f ?k) = _ => destruct (call_spec f k) as [[_ E]|[_ E]]; rewrite E in H; [injection H as <-|discriminate H] end.
    split; [reflexivity|]. eexists. split; [unfold forward_received; cbn; repeat split; reflexivity|]. destruct (Z.eqb (s_input_dim s) (-1)) eqn:Ez; [right; split; [apply Z.eqb_eq; exact Ez|reflexivity]|left; reflexivity].
  - left. destruct (call_spec f []) as [[_ E]|[_ E]]; rewrite E in H; [injection H as <-; reflexivity|discriminate H].
Qed.
(** a function that takes its options as **kwargs receives none *)
Lemma kwargs_nothing : forall dim f kw s, f_varkw f = Some kw -> ~ In "input_dim" (f_names f) -> (forall k, ~ In (k, false) (f_params f)) -> convert_forward dim (Callable f) s = Ok (Ok []).
Proof.
  intros dim f kw s _ Hn Hr. unfold convert_forward. cbn [include_dim_layer_fn]. destruct (mem "input_dim" (f_names f)) eqn:E; [apply mem_in in E; contradiction|]. rewrite call_none by exact Hr. reflexivity.
Qed.
Lemma dc_lost : forall dim f s, In "input_dim" (f_names f) -> accepts f forward_keys -> exists r, convert_forward dim (Callable f) s = Ok (Ok r) /\ get "dc_decomp" r = Some (VBool false).
Proof.
  intros dim f s Hn Ha. unfold convert_forward. cbn [include_dim_layer_fn]. rewrite (input_dim_named f Hn), call_ok by exact Ha. eexists. split; [reflexivity|reflexivity].
Qed.
Lemma crown_ignores : forall dim a a' o extra extra', clone_options dim CROWN a o extra = clone_options dim CROWN a' o extra'.
Proof. reflexivity. Qed.
Lemma extra_ignored : forall dim m a o extra, clone_options dim m a o extra = clone_options dim m a o [].
Proof. reflexivity. Qed.
Lemma not_callable_forward : forall dim m a o extra, m <> CROWN -> a = NotCallable \/ a = NoneArg -> clone_options dim m a o extra = Err ValueError.
Proof.
  intros dim m a o extra Hm Ha. unfold clone_options. destruct (ibp_affine m) as [ibp affine]. unfold convert, convert_forward. destruct m; try (contradiction Hm; reflexivity); destruct Ha as [-> | ->]; reflexivity.
Qed.

(** ** backward *)
Definition one_argument (locals : list string) : pyfun := mk_fun "layer" [] None locals true.
Lemma backward_one : forall s, convert_backward (Callable (one_argument [])) s = Ok (Ok []).
Proof. intros s. reflexivity. Qed.
Lemma backward_locals : forall v locals s, convert_backward (Callable (one_argument (v :: locals))) s = Ok (Err TypeError).
Proof. intros v locals s. reflexivity. Qed.
Lemma backward_function : forall f s, f_code f = true -> accepts f backward_keys -> exists r, convert_backward (Callable f) s = Ok (Ok r) /\
  backward_received (t_slope s) (or_box (t_dom s)) (get_mode (t_ibp s) (t_affine s)) (t_finetune s) r.
Proof.
  intros f s Hc Ha. unfold convert_backward, crown_layer_fn. rewrite Hc. cbn [negb].
  assert (N : Nat.eqb (length (co_varnames f)) 1 && mem "layer" (co_varnames f) = false).
  { destruct Ha as [Ha _]. destruct (Ha "mode" (or_introl eq_refl)) as [_ [Q|Q]].
    - unfold co_varnames, f_names. destruct (f_params f); [destruct Q|]. reflexivity.
    - unfold co_varnames, f_names. destruct (f_varkw f) as [kw|]; [|contradiction Q; reflexivity].
      assert (L : (length ((f_first f :: map fst (f_params f) ++ [kw]) ++ f_locals f) >= 2)%nat) by (rewrite app_length; cbn [length]; rewrite app_length; cbn; lia).
      destruct (Nat.eqb _ 1) eqn:E; [|reflexivity]. apply Nat.eqb_eq in E. rewrite E in L. lia. }
  rewrite N, call_ok by exact Ha. eexists. split; [reflexivity|]. unfold backward_received. cbn. repeat split; reflexivity.
Qed.
Lemma backward_none : forall s, convert_backward NoneArg s = Ok (Err TypeError).
Proof. reflexivity. Qed.
Lemma backward_partial_fn : forall f s, f_code f = false -> convert_backward (Callable f) s = Err AttributeError.
Proof. intros f s H. unfold convert_backward, crown_layer_fn. rewrite H. reflexivity. Qed.

(** ** the statements *)
Lemma kwargs_refuted : forall dim f kw s, f_varkw f = Some kw -> ~ In "input_dim" (f_names f) -> (forall k, ~ In (k, false) (f_params f)) -> ~ In (f_first f) forward_keys ->
  accepts f forward_keys /\ convert_forward dim (Callable f) s = Ok (Ok []).
Proof.
  intros dim f kw s Hk Hn Hr Hf. split; [|exact (kwargs_nothing dim f kw s Hk Hn Hr)]. split.
  - intros k Hin. split; [intros ->; contradiction|]. right. rewrite Hk. discriminate.
  - intros k Hin. contradiction (Hr k Hin).
Qed.
Lemma dc_refuted : forall dim f s, In "input_dim" (f_names f) -> accepts f forward_keys -> s_dc s = true ->
  exists r, convert_forward dim (Callable f) s = Ok (Ok r) /\ get "dc_decomp" r <> Some (VBool (s_dc s)).
Proof. intros dim f s Hn Ha Hd. destruct (dc_lost dim f s Hn Ha) as (r & E & G). exists r. split; [exact E|]. rewrite G, Hd. discriminate. Qed.
Lemma layer_fn_refuted : forall dim o extra,
  (forall a a', clone_options dim CROWN a o extra = clone_options dim CROWN a' o extra) /\ (exists c, clone_options dim CROWN NotCallable o extra = Ok c /\ c_forward c = None) /\
  forall m, m <> CROWN -> clone_options dim m NotCallable o extra = Err ValueError.
Proof.
  intros dim o extra. split; [reflexivity|]. split; [eexists; split; reflexivity|]. intros m Hm. apply not_callable_forward; auto.
Qed.
Lemma local_refuted : forall v locals s, accepts (one_argument (v :: locals)) [] /\ convert_backward (Callable (one_argument [])) s = Ok (Ok []) /\ convert_backward (Callable (one_argument (v :: locals))) s = Ok (Err TypeError).
Proof. intros v locals s. split; [split; [intros k []|intros k []]|]. split; [apply backward_one|apply backward_locals]. Qed.

Definition user_box : copts := mk_copts S_SLOPE (Some (UserDomain 3)) false false true false.
Definition wrapper : pyfun := mk_fun "layer" [] (Some "options") [] true.
Lemma options_example :
  exists c r b, clone_options 7 CROWN_FORWARD_HYBRID (Callable to_decomon) user_box [] = Ok c /\ c_forward c = Some (Ok r) /\ c_backward c = Some (Ok b) /\
    get "input_dim" r = Some (VInt 7) /\ get "finetune" r = Some (VBool true) /\ get "finetune" b = Some (VBool false) /\ get "mode" b = Some (VMode HYBRID) /\ get "perturbation_domain" b = Some (VDom (UserDomain 3)) /\
    convert_forward 7 (Callable wrapper) (mk_fset (-1) S_SLOPE false None true true false true) = Ok (Ok []).
Proof. do 3 eexists. repeat (split; [reflexivity|]). reflexivity. Qed.
