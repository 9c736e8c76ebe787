(** clone on a network (src/decomon/models/convert.py:81-258): the DecomonModel whose functions are modelled in M_Wrapper.
    Definitions only. *)
From Coq Require Import String Reals List Arith Bool.
From Verif Require Import RLib Spec Spec_Network M_Core M_MergeLayers M_Crown M_Convert M_Network M_Domain M_Wrapper.
Import ListNotations.
Local Open Scope R_scope.

(** arguments of clone: perturbation_domain (a box when None, lines 187-188), method, final_ibp, final_affine; slope,
    finetuning coefficients of the layers *)
Record clone_args := mk_args { ca_domain : option domain; ca_method : string; ca_ibp : option bool; ca_affine : option bool;
                               ca_fwd : nat -> lopts; ca_bwd : nat -> bopts }.
Definition args_domain (a : clone_args) : domain := match ca_domain a with Some D => D | None => Box end.

(** Before any set_domain. convert.py:104-167: forward methods; crown methods, preceded by a forward pass for crown-forward-xxx (lines 127-146) *)
Definition converted (ke : R) (D : domain) (m : method) (mode final : fmode) (fwd : nat -> lopts) (bwd : nat -> bopts) (n : nat) (net : network) (o : nat)
    (z : tensor) : result (list tensor) :=
  let sp := mk_spec false mode D n in
  match get_direction m with
  | FORWARD => clone_forward D n mode final (decomon_net ke sp fwd net) [o] z
  | BACKWARD =>
      clone_backward D n mode final (match m with CROWN => None | _ => Some (decomon_net ke sp fwd net) end)
        (seq 0 (length net)) (backward_net ke sp bwd n net) [o] None z
  end.

(** convert.py:170-258, without back_bounds, on a network with one input of n values; [out]: shape of the output o. The
    first argument of the predictions is the domain of the model, which set_domain changes *)
Definition clone (ke : R) (a : clone_args) (n : nat) (out : list nat) (net : network) (o : nat) : result wmodel :=
  f <- clone_flags (ca_method a) (ca_ibp a) (ca_affine a) ;
  let '(m, mode, (final_ibp, final_affine)) := f : method * fmode * (bool * bool) in
  Ok (mk_wmodel (args_domain a) final_ibp final_affine false n out
        (fun D z _ => converted_domains ke D (args_domain a) m mode (get_mode final_ibp final_affine) (ca_fwd a) (ca_bwd a) n net o z)).

(** what the wrappers call on a Keras model: clone(model), wrapper.py:74, 294, 494, 825 *)
Definition plain_opts : nat -> lopts := fun _ => mk_opts V_SLOPE None false.
Definition plain_bopts : nat -> bopts := fun _ => mk_bopts V_SLOPE None.
Definition default_args : clone_args := mk_args None "crown" None None plain_opts plain_bopts.
(** get_range_noise, wrapper.py:673-680: a ball of radius max(0, eps) *)
Definition noise_call (eps : R) (p : pord) : clone_args :=
  mk_args (Some (Ball (Rmax 0 eps) p)) "crown-forward-hybrid" None None plain_opts plain_bopts.

(** calls of set_domain one after the other (models.py:66-71) *)
Definition wset_domains (Ds : list domain) (m : wmodel) : result wmodel := foldR wset_domain Ds m.
