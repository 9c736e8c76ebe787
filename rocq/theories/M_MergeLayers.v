(** Model of src/decomon/layers/decomon_merge_layers.py (Add, Average, Subtract, Minimum,
    Maximum; the other merge layers are in M_Ops). Definitions only. *)
From Coq Require Import Reals List Arith Bool.
From Verif Require Import RLib Spec M_Core M_Utils.
Import ListNotations.
Local Open Scope R_scope.

(** Python's built-in sum on a list of tensors: 0 + t0 + t1 + ... *)
Definition sum_t (l : list tensor) : tensor :=
  fold_left (fun (acc t : tensor) => fun i j => acc i j + t i j) l (fun _ _ => 0).

(** decomon_merge_layers.py:184 self.op = sum(x) / len(x) *)
Definition avg_t (l : list tensor) : tensor :=
  fun i j => sum_t l i j / INR (length l).

(** decomon_merge_layers.py:118-157 and 186-228: the common body of DecomonAdd.call and
    DecomonAverage.call, for the reduction [op] and the reduction of the weights [op_w]
    (they differ only in DecomonConcatenate, 440-479) *)
Definition merge_reduce (sp : spec) (op op_w : list tensor -> tensor) (ts : list tensor) : result (list tensor) :=
  R <- get_fullinputs_by_type sp false true ts ;
  match f_x R with
  | [] => Err IndexError
  | x :: _ =>
      let '(uc, lc) := if get_ibp (sp_mode sp) then (op (f_uc R), op (f_lc R)) else (empty_tensor, empty_tensor) in
      let '(wu, bu, wl, bl) :=
        if get_affine (sp_mode sp) then (op_w (f_wu R), op (f_bu R), op_w (f_wl R), op (f_bl R))
        else (empty_tensor, empty_tensor, empty_tensor, empty_tensor) in
      if sp_dc sp then Err NotImplementedError
      else Ok (extract (sp_mode sp) (sp_dc sp) (mk_full x uc wu bu lc wl bl empty_tensor empty_tensor))
  end.

(** decomon_merge_layers.py:118-157 DecomonAdd.call *)
Definition decomon_add (sp : spec) (ts : list tensor) : result (list tensor) := merge_reduce sp sum_t sum_t ts.

(** decomon_merge_layers.py:186-228 DecomonAverage.call *)
Definition decomon_average (sp : spec) (ts : list tensor) : result (list tensor) := merge_reduce sp avg_t avg_t ts.

(** decomon_merge_layers.py:259-277 DecomonSubtract.call *)
Definition decomon_subtract (sp : spec) (ts : list tensor) : result (list tensor) :=
  if sp_dc sp then Err NotImplementedError else
  match split_to_merge (nb_tensors (sp_mode sp) (sp_dc sp)) ts with
  | [a; b] => subtract sp a b
  | _ => Err ValueError
  end.

(** for j in range(2, n): output = op(output, inputs_list[j]) *)
Fixpoint foldR {A B} (op : A -> B -> result A) (l : list B) (a : A) : result A :=
  match l with
  | [] => Ok a
  | b :: q => a' <- op a b ; foldR op q a'
  end.

(** decomon_merge_layers.py:371-398 DecomonMaximum.call *)
Definition decomon_maximum (ke : R) (sp : spec) (ts : list tensor) : result (list tensor) :=
  if sp_dc sp then Err NotImplementedError else
  match split_to_merge (nb_tensors (sp_mode sp) (sp_dc sp)) ts with
  | [] => Err IndexError
  | [_] => Ok ts
  | a :: b :: q =>
      o <- maximum ke sp None a b ;
      foldR (maximum ke sp None) q o
  end.

(** decomon_merge_layers.py:308-340 DecomonMinimum.call *)
Definition decomon_minimum (ke : R) (sp : spec) (ts : list tensor) : result (list tensor) :=
  if sp_dc sp then Err NotImplementedError else
  l <- mapR (minus sp) (split_to_merge (nb_tensors (sp_mode sp) (sp_dc sp)) ts) ;
  match l with
  | [] => Err IndexError
  | [_] => Ok ts
  | a :: b :: q =>
      o <- maximum ke sp None a b ;
      o' <- foldR (maximum ke sp None) q o ;
      minus sp o'
  end.
