(** Options of a conversion on their way to the functions that convert the layers: models/convert.py, forward_cloning.py,
    backward_cloning.py. Definitions only. A call of such a function is represented by the keywords that it receives. *)
From Coq Require Import String List Bool ZArith.
From Verif Require Import RLib Spec Spec_LayerFn M_Core M_Convert.
Import ListNotations.
Local Open Scope string_scope.

(** a value given as layer_fn *)
Inductive layer_arg := Callable (f : pyfun) | NotCallable | NoneArg.

(** f(layer, **kws): Python binds the keywords or raises TypeError *)
Definition mem (k : string) (l : list string) : bool := existsb (String.eqb k) l.
Definition py_call (f : pyfun) (kws : keywords) : result keywords :=
  if forallb (fun kv => negb (String.eqb (fst kv) (f_first f)) && (mem (fst kv) (map fst (f_params f)) || match f_varkw f with Some _ => true | None => false end)) kws
     && forallb (fun p => snd p || mem (fst p) (map fst kws)) (f_params f)
  then Ok kws else Err TypeError.
Definition call_arg (a : layer_arg) (kws : keywords) : result keywords :=
  match a with Callable f => py_call f kws | NotCallable | NoneArg => Err TypeError end.

(** perturbation_domain = BoxDomain() if None *)
Definition or_box (d : option pdomain) : pdomain := match d with Some d => d | None => DefaultBox end.

(** forward_cloning.py:37-90 include_dim_layer_fn: what each call of the function returned gives to layer_fn. The copy made by
    deepcopy is the function *)
Record fsettings := mk_fset { s_input_dim : Z; s_slope : slope; s_dc : bool; s_dom : option pdomain; s_ibp : bool; s_affine : bool; s_finetune : bool; s_shared : bool }.
Definition include_dim_layer_fn (a : layer_arg) (s : fsettings) : result (result keywords) :=
  match a with
  | NotCallable | NoneArg => Err ValueError
  | Callable f =>
      Ok (if mem "input_dim" (f_names f)
          then py_call f [("input_dim", VInt (s_input_dim s)); ("slope", VSlope (s_slope s)); ("perturbation_domain", VDom (or_box (s_dom s)));
                          ("dc_decomp", VBool (s_dc s)); ("ibp", VBool (s_ibp s)); ("affine", VBool (s_affine s)); ("finetune", VBool (s_finetune s)); ("shared", VBool (s_shared s))]
          else py_call f [])
  end.
(** forward_cloning.py:93-137 convert_forward; dim: get_input_dim(model). dc_decomp is not passed on (lines 119-128) *)
Definition convert_forward (dim : Z) (a : layer_arg) (s : fsettings) : result (result keywords) :=
  let input_dim := if Z.eqb (s_input_dim s) (-1) then dim else s_input_dim s in
  include_dim_layer_fn a (mk_fset input_dim (s_slope s) false (Some (or_box (s_dom s))) (s_ibp s) (s_affine s) (s_finetune s) (s_shared s)).

(** backward_cloning.py:314-336 crown_model. co_varnames: parameters and local variables *)
Record bsettings := mk_bset { t_slope : slope; t_ibp : bool; t_affine : bool; t_dom : option pdomain; t_finetune : bool }.
Definition co_varnames (f : pyfun) : list string := (f_names f ++ f_locals f)%list.
Definition crown_layer_fn (a : layer_arg) (s : bsettings) : result (result keywords) :=
  let kws := [("mode", VMode (get_mode (t_ibp s) (t_affine s))); ("finetune", VBool (t_finetune s)); ("perturbation_domain", VDom (or_box (t_dom s))); ("slope", VSlope (t_slope s))] in
  match a with
  | NoneArg => Ok (call_arg a kws)
  | NotCallable => Err AttributeError
  | Callable f =>
      if negb (f_code f) then Err AttributeError
      else if Nat.eqb (length (co_varnames f)) 1 && mem "layer" (co_varnames f) then Ok (py_call f [])
      else Ok (py_call f kws)
  end.
(** lines 403-448 convert_backward, the part on options *)
Definition convert_backward (a : layer_arg) (s : bsettings) : result (result keywords) := crown_layer_fn a (mk_bset (t_slope s) (t_ibp s) (t_affine s) (Some (or_box (t_dom s))) (t_finetune s)).

(** layers/convert.py:20-31 and backward_layers/convert.py:16-23 *)
Definition to_decomon : pyfun :=
  mk_fun "layer" [("input_dim", false); ("slope", true); ("dc_decomp", true); ("perturbation_domain", true); ("finetune", true); ("ibp", true); ("affine", true); ("shared", true); ("fast", true)] None
    ["mode"; "layer_decomon"; "input_tensors"] true.
Definition to_backward : pyfun :=
  mk_fun "layer" [("slope", true); ("mode", true); ("perturbation_domain", true); ("finetune", true)] (Some "kwargs") ["class_name"; "backward_class_name"; "class_"; "backward_layer_name"] true.

(** convert.py:82-165 convert, the part on options: the calls that convert a layer forward, then backward; None: there are none *)
Record copts := mk_copts { o_slope : slope; o_dom : option pdomain; o_finetune : bool; o_shared : bool; o_finetune_forward : bool; o_finetune_backward : bool }.
Record layer_calls := mk_calls { c_forward : option (result keywords); c_backward : option (result keywords) }.
Definition convert (dim : Z) (m : method) (ibp affine : bool) (a : layer_arg) (input_dim : Z) (o : copts) : result layer_calls :=
  let ff := if o_finetune o then true else o_finetune_forward o in
  let fb := if o_finetune o then true else o_finetune_backward o in
  let input_dim := if Z.eqb input_dim (-1) then dim else input_dim in
  let d := Some (or_box (o_dom o)) in
  fwd <- match m with
         | CROWN => Ok None
         | _ => c <- convert_forward dim a (mk_fset input_dim (o_slope o) false d ibp affine ff (o_shared o)) ; Ok (Some c)
         end ;
  bwd <- match get_direction m with
         | BACKWARD => c <- convert_backward (Callable to_backward) (mk_bset (o_slope o) ibp affine d fb) ; Ok (Some c)
         | FORWARD => Ok None
         end ;
  Ok (mk_calls fwd bwd).
(** convert.py:168-258 clone; extra: its other keywords *)
Definition clone_options (dim : Z) (m : method) (a : layer_arg) (o : copts) (extra : keywords) : result layer_calls :=
  let '(ibp, affine) := ibp_affine m in
  let ff := if o_finetune o then true else o_finetune_forward o in
  let fb := if o_finetune o then true else o_finetune_backward o in
  convert dim m ibp affine a (-1) (mk_copts (o_slope o) (Some (or_box (o_dom o))) (o_finetune o) (o_shared o) ff fb).
