(** Runs of a converted model in finite precision. Definitions only.
    The layers are the ones of M_Network (decomon_layer, which cites the call of each class); a run is any assignment of
    tensors to the nodes such that each call returns what it returns on real numbers up to d, whatever the order of the
    operations and the rounding inside the call. *)
From Coq Require Import Reals List Arith Bool ZArith.
From Verif Require Import RLib Spec Spec_Layers Spec_Network Spec_Near Spec_Rounding M_Core M_Utils M_MergeLayers M_Ops M_Layers M_Convert M_Network.
Import ListNotations.
Local Open Scope R_scope.

Record run := mk_run { r_inputs : list tensor; r_nodes : nat -> list tensor; r_out : list tensor }.

(** convert.py:104-167 then the call of the model, forward methods (the statement [clone_forward] of M_Convert): the
    lambda of the input tensors (models/utils.py:97-143), the layers, Convert2Mode (models/utils.py:285-334) *)
Definition rounded_run (ke : R) (D : domain) (n : nat) (mode final : fmode) (opts : nat -> lopts) (net : network) (o : nat)
    (z : tensor) (d : R) (r : run) : Prop :=
  (forall its, get_input_tensors (Some D) mode n z = Ok its -> close mode n n d its (r_inputs r)) /\
  (forall i q ps, nth_error net i = Some (q, ps) ->
     match q with
     | None => r_nodes r i = r_inputs r
     | Some L => forall out, decomon_layer ke (mk_spec false mode D n) (opts i) L (concat (map (r_nodes r) ps)) = Ok out ->
                   close mode n (nl_out L) d out (r_nodes r i)
     end) /\
  (forall out, convert2mode D n mode final (r_nodes r o) = Ok out -> close final n (net_dim n net o) d out (r_out r)).
