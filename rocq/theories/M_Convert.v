(** Model of src/decomon/models/utils.py, forward_cloning.py, convert.py and of convert_backward
    (models/backward_cloning.py). Definitions only. *)
From Coq Require Import String Ascii Reals List Arith Bool ZArith.
From Verif Require Import RLib Spec Spec_Layers Spec_Backward M_Core M_Utils M_MergeLayers M_Ops M_Layers M_Backward M_Crown.
Import ListNotations.
Local Open Scope R_scope.

(** ** Methods: src/decomon/models/utils.py:34-66 *)
Inductive method := CROWN | CROWN_FORWARD_IBP | CROWN_FORWARD_AFFINE | CROWN_FORWARD_HYBRID
                  | FORWARD_IBP | FORWARD_AFFINE | FORWARD_HYBRID.
Definition methods : list (string * method) :=
  [("crown", CROWN); ("crown-forward-ibp", CROWN_FORWARD_IBP); ("crown-forward-affine", CROWN_FORWARD_AFFINE);
   ("crown-forward-hybrid", CROWN_FORWARD_HYBRID); ("forward-ibp", FORWARD_IBP); ("forward-affine", FORWARD_AFFINE);
   ("forward-hybrid", FORWARD_HYBRID)]%string.
(** ConvertMethod(s): an Enum raises ValueError on an unknown value *)
Definition convert_method (s : string) : result method :=
  match find (fun p => String.eqb s (fst p)) methods with Some p => Ok (snd p) | None => Err ValueError end.

(** utils.py:44-54 *)
Definition ibp_affine (m : method) : bool * bool :=
  match m with
  | FORWARD_IBP | CROWN_FORWARD_IBP => (true, false)
  | FORWARD_AFFINE | CROWN_FORWARD_AFFINE => (false, true)
  | FORWARD_HYBRID | CROWN_FORWARD_HYBRID => (true, true)
  | CROWN => (true, false)
  end.
Definition get_ibp_affine_from_method (s : string) : result (bool * bool) := m <- convert_method s ; Ok (ibp_affine m).
(** utils.py:57-66 *)
Inductive direction := FORWARD | BACKWARD.
Definition get_direction (m : method) : direction :=
  match m with FORWARD_IBP | FORWARD_AFFINE | FORWARD_HYBRID => FORWARD | _ => BACKWARD end.

(** str.lower on ASCII letters *)
Definition lower_char (c : ascii) : ascii :=
  let k := nat_of_ascii c in if ((65 <=? k) && (k <=? 90))%nat then ascii_of_nat (k + 32) else c.
Fixpoint lower (s : string) : string := match s with EmptyString => EmptyString | String c q => String (lower_char c) (lower q) end.

(** convert.py:195-203 (clone): the name is resolved before it is lowered; convert.py:122-123 (convert): after.
    Result of clone: method, mode of the layers, (final_ibp, final_affine) of the DecomonModel *)
Definition clone_flags (name : string) (final_ibp final_affine : option bool) : result (method * fmode * (bool * bool)) :=
  f <- get_ibp_affine_from_method name ;
  let '(ibp, affine) := f : bool * bool in
  m <- convert_method (lower name) ;
  Ok (m, get_mode ibp affine,
      (match final_ibp with Some b => b | None => ibp end, match final_affine with Some b => b | None => affine end)).
Definition convert_flags (name : string) : result method := convert_method (lower name).

(** ** utils.py:73-85 check_model2convert_inputs; [shapes]: shapes of model.inputs, batch axis included *)
Definition check_inputs (shapes : list (list nat)) : result unit :=
  if (1 <? length shapes)%nat then Err ValueError
  else if (2 <? length (nth 0 shapes []))%nat then Err ValueError else Ok tt.

(** ** utils.py:88-148 get_input_tensors; [D]: [None] for a subclass of PerturbationDomain which is neither a box nor
    a ball; [z]: value of z_tensor *)
Definition get_input_tensors (D : option domain) (mode : fmode) (n : nat) (z : tensor) : result (list tensor) :=
  let ibp := get_ibp mode in
  let a := get_affine mode in
  r <- match D with
       | Some Box =>
           Ok (when ibp (vt (z 1%nat)), when a id_mat, when a (vt zero_vec), when ibp (vt (z 0%nat)))
       | Some (Ball eps Pinf) =>
           Ok (vt (fun i => z 0%nat i + eps), when a id_mat, when a (vt zero_vec), when ibp (vt (fun i => z 0%nat i - eps)))
       | Some (Ball eps p) =>
           if ibp then
             u <- get_upper (Ball eps p) n false z id_mat zero_vec no_kw ;
             l <- get_lower (Ball eps p) n false z id_mat zero_vec no_kw ;
             Ok (vt u, id_mat, vt zero_vec, vt l)
           else Ok (empty_tensor, id_mat, vt zero_vec, empty_tensor)
       | None => Err NotImplementedError
       end ;
  let '(u_c, w, b, l_c) := r in
  Ok (extract mode false (mk_full z u_c w b l_c w b empty_tensor empty_tensor)).

(** ** utils.py:285-334 Convert2Mode.call *)
Definition convert2mode (D : domain) (n : nat) (from to_ : fmode) (ts : list tensor) : result (list tensor) :=
  let compute_ibp_from_affine := (mode_eqb from AFFINE && negb (mode_eqb to_ AFFINE))%bool in
  let tight := (mode_eqb from HYBRID && negb (mode_eqb to_ AFFINE))%bool in
  let compute_dummy_affine := (mode_eqb from IBP && negb (mode_eqb to_ IBP))%bool in
  r <- get_fullinputs (mk_spec false from D n) compute_ibp_from_affine tight ts ;
  let r := if compute_dummy_affine then
             let x : tensor := fun c => if Nat.eqb c 0 then f_lc r 0%nat else f_uc r 0%nat in
             mk_full x (f_uc r) (fun _ _ => 0) (f_uc r) (f_lc r) (fun _ _ => 0) (f_lc r) (f_h r) (f_g r)
           else r in
  Ok (extract to_ false r).
(** utils.py:336-350: shapes without the batch axis: announced shape of x and of the weights when mode_from is ibp
    (core.py:249-262), and shapes of the tensors computed by call; m neurons *)
Definition convert2mode_shapes (D : domain) (input_dim m : nat) : list nat * list nat :=
  (match D with Box => [2%nat; input_dim] | Ball _ _ => [input_dim] end, [m; m]).
Definition convert2mode_actual (m : nat) : list nat * list nat := ([2%nat; m], [m; m]).

(** ** Graphs of layers. A node calls one operation (a layer, or a nested model) on the outputs of its parents; the
    number identifies the operation, which several nodes may share. [A]: what flows on the edges. *)
Inductive fkind (A : Type) := KInput | KOp (op : list A -> result (list A)).
Arguments KInput {A}.
Arguments KOp {A} op.
Record fnode (A : Type) := mk_fnode { fn_op : nat; fn_kind : fkind A; fn_parents : list nat }.
Arguments mk_fnode {A}.
Arguments fn_op {A}.
Arguments fn_kind {A}.
Arguments fn_parents {A}.
(** in the order of Keras (depth first from the outputs, parents first) *)
Definition fgraph (A : Type) := list (fnode A).

(** Keras: depth of the nodes (keras.src.ops.function.map_graph): from the last node to the first, the depth of a node
    is at least one more than that of its children and at least the depth already given to its operation *)
Definition upd {B} (f : nat -> B) (k : nat) (v : B) : nat -> B := fun j => if Nat.eqb j k then v else f j.
Definition raise_parents (d : nat) (ps : list nat) (nd : nat -> nat) : nat -> nat :=
  fold_left (fun nd p => upd nd p (Nat.max (nd p) (S d))) ps nd.
Definition kdepth_step {A} (g : fgraph A) (st : (nat -> nat) * (nat -> nat)) (i : nat) : (nat -> nat) * (nat -> nat) :=
  let '(nd, od) := st in
  match nth_error g i with
  | Some nod => let d := Nat.max (nd i) (od (fn_op nod)) in (raise_parents d (fn_parents nod) (upd nd i d), upd od (fn_op nod) d)
  | None => st
  end.
Definition kdepths {A} (g : fgraph A) : nat -> nat :=
  fst (fold_left (kdepth_step g) (rev (seq 0 (length g))) (fun _ => O, fun _ => O)).
Definition max_list_nat (l : list nat) : nat := fold_right Nat.max O l.
Definition max_kdepth {A} (g : fgraph A) : nat := max_list_nat (map (kdepths g) (seq 0 (length g))).
(** model._nodes_by_depth, keys in decreasing order *)
Definition by_kdepth {A} (g : fgraph A) : list nat :=
  flat_map (fun k => filter (fun i => Nat.eqb (kdepths g i) k) (seq 0 (length g))) (rev (seq 0 (S (max_kdepth g)))).

(** utils.py:229-272 get_depth_dict. The nodes are visited in decreasing Keras depth, so that the recursion of
    fill_dico on the parents stops at once: a parent not yet visited is a KeyError here *)
Definition min_list_Z (a : Z) (l : list Z) : Z := fold_left Z.min l a.
Definition fill_depth {A} (g : fgraph A) (dico : nat -> option Z) (i : nat) : result (nat -> option Z) :=
  match nth_error g i with
  | None => Err KeyError
  | Some nod =>
      ds <- mapR (fun p => match dico p with Some d => Ok (d - 1)%Z | None => Err KeyError end) (fn_parents nod) ;
      match ds with
      | [] => Ok (upd dico i (Some (Z.of_nat (max_kdepth g))))
      | d :: q => Ok (upd dico i (Some (min_list_Z d q)))
      end
  end.
Definition dico_depth {A} (g : fgraph A) : result (nat -> option Z) := foldR (fill_depth g) (by_kdepth g) (fun _ => None).
(** dico_nodes[d] *)
Definition nodes_at {A} (g : fgraph A) (dico : nat -> option Z) (d : Z) : list nat :=
  filter (fun i => match dico i with Some e => Z.eqb e d | None => false end) (by_kdepth g).
(** the nodes by decreasing depth: every depth is at most max_kdepth and at least minus the number of nodes *)
Definition depth_keys {A} (g : fgraph A) : list Z :=
  map (fun k => (Z.of_nat (max_kdepth g) - Z.of_nat k)%Z) (seq 0 (S (max_kdepth g + length g))).
Definition node_order {A} (g : fgraph A) (dico : nat -> option Z) : list nat := flat_map (nodes_at g dico) (depth_keys g).

(** ** forward_cloning.py:140-228 convert_forward_functional_model.
    State: output_map and the variable [output], which keeps its last value at a node without parent *)
Definition omap (A : Type) := nat -> option (list A).
Definition convert_node {A} (g : fgraph A) (st : omap A * list A) (i : nat) : result (omap A * list A) :=
  let '(om, output) := st in
  match om i, nth_error g i with
  | Some _, _ => Ok st
  | None, None => Err KeyError
  | None, Some nod =>
      ins <- match fn_parents nod with
             | [] => Ok output
             | ps => l <- mapR (fun p => match om p with Some o => Ok o | None => Err KeyError end) ps ; Ok (concat l)
             end ;
      out <- match fn_kind nod with KInput => Ok ins | KOp op => op ins end ;
      Ok (upd om i (Some out), out)
  end.
Definition convert_nodes {A} (g : fgraph A) (om0 : omap A) (its : list A) : result (omap A) :=
  dico <- dico_depth g ;
  st <- foldR (convert_node g) (node_order g dico) (om0, its) ;
  Ok (fst st).
(** lines 216-226 (and crown_model, backward_cloning.py:358-367): for each output of the model, the nodes of
    dico_nodes[0] whose operation has the name of the operation of this output *)
Definition op_of {A} (g : fgraph A) (i : nat) : option nat := option_map fn_op (nth_error g i).
Definition same_op {A} (g : fgraph A) (i j : nat) : bool :=
  match op_of g i, op_of g j with Some a, Some b => Nat.eqb a b | _, _ => false end.
Definition output_nodes {A} (g : fgraph A) (outs : list nat) : result (list nat) :=
  dico <- dico_depth g ;
  match nodes_at g dico 0 with
  | [] => Err KeyError
  | l => Ok (flat_map (fun o => filter (fun i => same_op g o i) l) outs)
  end.
Definition convert_forward {A} (g : fgraph A) (outs : list nat) (om0 : omap A) (its : list A) : result (list A) :=
  om <- convert_nodes g om0 its ;
  l <- output_nodes g outs ;
  os <- mapR (fun i => match om i with Some o => Ok o | None => Err KeyError end) l ;
  Ok (concat os).

(** lines 172-186: a node whose operation is a Model: its conversion receives the tensors of all the parents *)
Definition nested_model {A} (sub : fgraph A) (outs : list nat) : fkind A :=
  KOp (fun ts => convert_forward sub outs (fun _ => None) ts).

(** ** convert.py:81-167 and 170-258: clone with a forward method *)
Definition clone_forward (D : domain) (n : nat) (mode final : fmode) (g : fgraph tensor) (outs : list nat) (z : tensor) : result (list tensor) :=
  its <- get_input_tensors (Some D) mode n z ;
  o <- convert_forward g outs (fun _ => None) its ;
  convert2mode D n mode final o.

(** The shape of the graph of a backward conversion; [ids]: the operation of each node *)
Definition bshape (ids : list nat) (g : graph) : fgraph unit :=
  map (fun q => mk_fnode (fst q) KInput (snd (snd q))) (combine ids g).
(** backward_cloning.py:402-463 convert_backward: the outputs are those found by crown_model (lines 358-367); when the
    mode changes from ibp, output[0] becomes input_tensors[1], input_tensors[0] concatenated *)
Definition convert_backward (D : domain) (n : nat) (mode final : fmode) (ids : list nat) (g : graph) (outs : list nat) (back : option bb)
    (fmap : nat -> option (list tensor)) (its : list tensor) : result (list tensor) :=
  if (match back with Some _ => true | None => false end && (1 <? length outs)%nat)%bool then Err NotImplementedError else
  l <- output_nodes (bshape ids g) outs ;
  o <- crown_model mode D n g l back fmap its ;
  c <- convert2mode D n mode final (concat o) ;
  if (negb (mode_eqb final mode) && mode_eqb mode IBP)%bool then
    match its, c with
    | u :: l :: _, _ :: q => Ok ((fun k => if Nat.eqb k 0 then l 0%nat else u 0%nat) :: q)
    | _, _ => Err IndexError
    end
  else Ok c.
(** clone with a crown method; [fg]: the graph seen by the forward conversion for the methods crown-forward-xxx (its
    nodes carry the same numbers as those of [g]), [None] for crown *)
Definition clone_backward (D : domain) (n : nat) (mode final : fmode) (fg : option (fgraph tensor)) (ids : list nat) (g : graph)
    (outs : list nat) (back : option bb) (z : tensor) : result (list tensor) :=
  its <- get_input_tensors (Some D) mode n z ;
  fm <- match fg with
        | None => Ok (fun _ => None)
        | Some h => om <- convert_nodes h (fun _ => None) its ; _ <- output_nodes h outs ; Ok om
        end ;
  convert_backward D n mode final ids g outs back fm its.

(** crown.py:78-84 Convert2BackwardMode in ibp mode with a ball (core.py:549-583): x_0 has shape (batch, 2, n) and is
    broadcast against w of shape (batch, n, m). M_Backward.convert2backward stops there with an error; this is what
    NumPy broadcasting computes for the dimensions where it succeeds *)
Definition rank3_term (eps : R) (p : pord) (w x : R) : R :=
  match p with Pinf => Rmax w 0 * (x + eps) + Rmin w 0 * (x - eps) | _ => w * x end.
Definition rank3_radius (eps : R) (p : pord) (n : nat) (w : mat) : result vec :=
  match p with Pinf => Ok (fun _ => 0) | _ => q <- get_lq_norm n p w ; Ok (fun j => eps * q j) end.
Definition upper_rank3 (eps : R) (p : pord) (n m : nat) (x_0 : tensor) (w : mat) (b : vec) : result vec :=
  q <- rank3_radius eps p n w ;
  if Nat.eqb n 1 then Ok (fun j => rsum 2 (fun c => rank3_term eps p (w 0%nat j) (x_0 c 0%nat)) + (q j + b j))
  else if (Nat.eqb n 2 && Nat.eqb m 2)%bool then Ok (fun j => rsum 2 (fun i => rank3_term eps p (w i j) (x_0 i j)) + (q j + b j))
  else if (Nat.eqb n 2 && Nat.eqb m 1)%bool then Ok (fun j => rsum 2 (fun i => rank3_term eps p (w i 0%nat) (x_0 i j)) + (q 0%nat + b 0%nat))
  else Err ValueError.

(** ** utils.py:187-218 split_activation and convert.py:35-78 preprocess_keras_model.
    A layer: core function, activation of its config ([None]: absent or linear), whether it is an Activation layer *)
Record klayer := mk_klayer { kl_core : list vec -> vec; kl_act : option (vec -> vec); kl_is_activation : bool }.
Definition kl_call (L : klayer) (ts : list vec) : vec :=
  match kl_act L with Some a => a (kl_core L ts) | None => kl_core L ts end.
Definition head_vec (l : list vec) : vec := hd (fun _ => 0) l.
Definition split_activation (L : klayer) : list klayer :=
  match kl_act L with
  | None => [L]
  | Some a => if kl_is_activation L then [L]
              else [mk_klayer (kl_core L) None false; mk_klayer head_vec (Some a) true]
  end.
(** forward_cloning.py:199-211: the converted layers are called in sequence *)
Definition call_all (Ls : list klayer) (ts : list vec) : list vec := fold_left (fun x L => [kl_call L x]) Ls ts.
(** the node of the rewritten model for a layer *)
Definition split_kind (L : klayer) : fkind vec := KOp (fun ts => Ok (call_all (split_activation L) ts)).
(** convert.py:35-65 _clone_keras_model: the input nodes are already in output_map; [x]: value of the input *)
Definition preprocess (g : fgraph vec) (outs : list nat) (x : nat -> option (list vec)) (its : list vec) : result (list vec) :=
  convert_forward g outs x its.
