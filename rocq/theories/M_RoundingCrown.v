(** Runs of the crown methods in finite precision. Definitions only.
    The calls are the ones of M_Crown and M_Backward (which cite the code); a run is any assignment of tensors such that
    each call returns what it returns on real numbers up to d, whatever the order of the operations and the rounding inside
    the call. A layer called twice may be rounded in two ways. *)
From Coq Require Import Reals List Arith Bool ZArith.
From Verif Require Import RLib Spec Spec_Layers Spec_Backward Spec_Network Spec_Near Spec_Rounding Spec_RoundingCrown M_Core M_Utils M_MergeLayers M_Ops M_Layers M_Pool M_Backward M_Crown M_Convert M_Network M_Rounding.
Import ListNotations.
Local Open Scope R_scope.

(** backward_cloning.py:82-215 crown_: the backward layer, the product with the bounds received (MergeWithPrevious), then
    the parent, or Fuse at the inputs. [k]: number of columns *)
Definition merged (d : R) (k : nat) (L : layer) (B : bb) (back : option bb) (M : bb) : Prop :=
  match back with
  | None => M = B
  | Some C => if ly_model L then M = B else bb_close (ly_in L) k d (merge_bb (ly_out L) B C) M
  end.
Inductive rcrown (mode : fmode) (g : graph) (imap : nat -> list tensor) (d : R) (k : nat) : nat -> option bb -> bb -> Prop :=
| rc_input : forall i L back B M F, nth_error g i = Some (L, []) ->
    (forall B0, ly_bwd L (imap i) = Ok B0 -> bb_close (ly_in L) (ly_out L) d B0 B) -> merged d k L B back M ->
    (forall F0, fuse mode (ly_in L) (imap i) M = Ok F0 -> bb_close (ly_in L) k d F0 F) ->
    rcrown mode g imap d k i back F
| rc_layer : forall i L p back B M F, nth_error g i = Some (L, [p]) ->
    (forall B0, ly_bwd L (imap i) = Ok B0 -> bb_close (ly_in L) (ly_out L) d B0 B) -> merged d k L B back M ->
    rcrown mode g imap d k p (Some M) F -> rcrown mode g imap d k i back F.

(** lines 218-282 get_input_nodes: the relaxation of a node (rounded), then Convert2BackwardMode (rounded) *)
Definition rnode (mode : fmode) (D : domain) (n : nat) (g : graph) (imap : nat -> list tensor) (its : list tensor) (d : R) (p : nat) (ts : list tensor) : Prop :=
  forall L ps, nth_error g p = Some (L, ps) ->
  exists B, rcrown mode g imap d (ly_out L) p None B /\
    forall out, convert2backward mode D n its B = Ok out -> close mode n (ly_out L) d out ts.

(** backward_cloning.py:448-463: Convert2Mode, then the corners of the input box when the mode changes from ibp *)
Definition last_step (D : domain) (n : nat) (mode final : fmode) (its c : list tensor) : result (list tensor) :=
  c <- convert2mode D n mode final c ;
  if (negb (mode_eqb final mode) && mode_eqb mode IBP)%bool then
    match its, c with
    | u :: l :: _, _ :: q => Ok ((fun k => if Nat.eqb k 0 then l 0%nat else u 0%nat) :: q)
    | _, _ => Err IndexError
    end
  else Ok c.

(** the layers of the forward pass, as in M_Rounding.rounded_run *)
Definition rounded_forward (ke : R) (D : domain) (n : nat) (mode : fmode) (opts : nat -> lopts) (net : network) (d : R) (its : list tensor)
    (f : nat -> list tensor) : Prop :=
  forall i q ps, nth_error net i = Some (q, ps) ->
    match q with
    | None => f i = its
    | Some L => forall out, decomon_layer ke (mk_spec false mode D n) (opts i) L (concat (map f ps)) = Ok out -> close mode n (nl_out L) d out (f i)
    end.

(** the run of a clone made by a crown method. [c_fwd]: tensors of the forward pass for crown-forward-xxx (a rounded run of
    it), [None] for crown; [c_nodes i]: tensors given to the backward layer of node i; [c_last]: bounds of the output *)
Record crun := mk_crun { c_inputs : list tensor; c_fwd : option (nat -> list tensor); c_nodes : nat -> list tensor; c_last : list tensor; c_out : list tensor }.
Definition rounded_crown (ke : R) (D : domain) (n : nat) (mode final : fmode) (opts : nat -> lopts) (bo : nat -> bopts) (net : network) (o : nat)
    (z : tensor) (d : R) (r : crun) : Prop :=
  let g := backward_net ke (mk_spec false mode D n) bo n net in
  (forall its, get_input_tensors (Some D) mode n z = Ok its -> inputs_close mode n d its (c_inputs r)) /\
  (match c_fwd r with None => True | Some f => rounded_forward ke D n mode opts net d (c_inputs r) f end) /\
  (forall i L ps, nth_error g i = Some (L, ps) ->
     match ps with
     | [] => c_nodes r i = c_inputs r
     | [p] => match c_fwd r with Some f => c_nodes r i = f p | None => rnode mode D n g (c_nodes r) (c_inputs r) d p (c_nodes r i) end
     | _ => True
     end) /\
  rnode mode D n g (c_nodes r) (c_inputs r) d o (c_last r) /\
  (forall out, last_step D n mode final (c_inputs r) (c_last r) = Ok out -> close final n (net_dim n net o) d out (c_out r)).
