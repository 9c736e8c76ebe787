(** Theorems C88: the options of a conversion reach the layers. *)
From Coq Require Import String List Bool ZArith.
From Verif Require Import RLib Spec Spec_LayerFn M_Core M_Convert M_LayerFn P_LayerFn.
Import ListNotations.
Local Open Scope string_scope.

(** every method but crown, every layer_fn that names input_dim and accepts the eight keywords: each layer is converted forward with the options given to clone *)
Theorem C88_forward : forall dim m f o extra, m <> CROWN -> In "input_dim" (f_names f) -> accepts f forward_keys ->
  exists c r, clone_options dim m (Callable f) o extra = Ok c /\ c_forward c = Some (Ok r) /\
    forward_received dim (o_slope o) (or_box (o_dom o)) false (fst (ibp_affine m)) (snd (ibp_affine m)) (o_finetune o || o_finetune_forward o) (o_shared o) r.
Proof. exact clone_forward. Qed.
Print Assumptions C88_forward.

(** the default layer_fn is such a function *)
Theorem C88_default : In "input_dim" (f_names to_decomon) /\ accepts to_decomon forward_keys.
Proof. exact to_decomon_accepts. Qed.
Print Assumptions C88_default.

(** every backward method: each layer is converted backward with the options given to clone, whatever layer_fn *)
Theorem C88_backward : forall dim m a o extra c, get_direction m = BACKWARD -> clone_options dim m a o extra = Ok c ->
  exists r, c_backward c = Some (Ok r) /\
    backward_received (o_slope o) (or_box (o_dom o)) (get_mode (fst (ibp_affine m)) (snd (ibp_affine m))) (o_finetune o || o_finetune_backward o) r.
Proof. exact clone_backward. Qed.
Print Assumptions C88_backward.

(** any layer_fn: it receives every option or none *)
Theorem C88_all_or_nothing : forall dim a s r, convert_forward dim a s = Ok (Ok r) -> r = [] \/
  (map fst r = forward_keys /\ exists n, forward_received n (s_slope s) (or_box (s_dom s)) false (s_ibp s) (s_affine s) (s_finetune s) (s_shared s) r /\ (n = s_input_dim s \/ s_input_dim s = (-1)%Z /\ n = dim)).
Proof. exact all_or_nothing. Qed.
Print Assumptions C88_all_or_nothing.

(** The full property: a function that accepts the options receives them. It is false: a layer_fn that takes them as **kwargs receives none *)
Theorem C88_kwargs_refuted : forall dim f kw s, f_varkw f = Some kw -> ~ In "input_dim" (f_names f) -> (forall k, ~ In (k, false) (f_params f)) -> ~ In (f_first f) forward_keys ->
  accepts f forward_keys /\ convert_forward dim (Callable f) s = Ok (Ok []).
Proof. exact kwargs_refuted. Qed.
Print Assumptions C88_kwargs_refuted.

(** convert_forward(dc_decomp=True) converts the layers with dc_decomp=False *)
Theorem C88_dc_refuted : forall dim f s, In "input_dim" (f_names f) -> accepts f forward_keys -> s_dc s = true ->
  exists r, convert_forward dim (Callable f) s = Ok (Ok r) /\ get "dc_decomp" r <> Some (VBool (s_dc s)).
Proof. exact dc_refuted. Qed.
Print Assumptions C88_dc_refuted.

(** clone with method crown (the default) does not use layer_fn, nor reject one that is not a function; the other methods reject it *)
Theorem C88_layer_fn_refuted : forall dim o extra,
  (forall a a', clone_options dim CROWN a o extra = clone_options dim CROWN a' o extra) /\ (exists c, clone_options dim CROWN NotCallable o extra = Ok c /\ c_forward c = None) /\
  forall m, m <> CROWN -> clone_options dim m NotCallable o extra = Err ValueError.
Proof. exact layer_fn_refuted. Qed.
Print Assumptions C88_layer_fn_refuted.

(** convert_backward: a layer_fn written in Python that accepts the four keywords receives the options *)
Theorem C88_backward_function : forall f s, f_code f = true -> accepts f backward_keys -> exists r, convert_backward (Callable f) s = Ok (Ok r) /\
  backward_received (t_slope s) (or_box (t_dom s)) (get_mode (t_ibp s) (t_affine s)) (t_finetune s) r.
Proof. exact backward_function. Qed.
Print Assumptions C88_backward_function.

(** a function of the layer only is called with the layer, unless it has a local variable: the conversion then raises TypeError *)
Theorem C88_local_variable_refuted : forall v locals s, accepts (one_argument (v :: locals)) [] /\
  convert_backward (Callable (one_argument [])) s = Ok (Ok []) /\ convert_backward (Callable (one_argument (v :: locals))) s = Ok (Err TypeError).
Proof. exact local_refuted. Qed.
Print Assumptions C88_local_variable_refuted.

(** crown-forward-hybrid with finetune_forward and a domain; a wrapper with ** *)
Example C88_example :
  exists c r b, clone_options 7 CROWN_FORWARD_HYBRID (Callable to_decomon) user_box [] = Ok c /\ c_forward c = Some (Ok r) /\ c_backward c = Some (Ok b) /\
    get "input_dim" r = Some (VInt 7) /\ get "finetune" r = Some (VBool true) /\ get "finetune" b = Some (VBool false) /\ get "mode" b = Some (VMode HYBRID) /\ get "perturbation_domain" b = Some (VDom (UserDomain 3)) /\
    convert_forward 7 (Callable wrapper) (mk_fset (-1) S_SLOPE false None true true false true) = Ok (Ok []).
Proof. exact options_example. Qed.
Print Assumptions C88_example.
