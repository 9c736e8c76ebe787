(** Model of backward_linear_prod, src/decomon/backward_layers/utils.py:85-157. Definitions only.
    No function of the package calls it. The batch axis and the axes of size 1 are dropped; the reshape of lines 111-116 keeps
    the row-major positions. *)
From Coq Require Import Reals List Arith Bool.
From Verif Require Import RLib Spec Spec_Layers Spec_Backward M_Core M_Backward.
Import ListNotations.
Local Open Scope R_scope.

(** [h]: neurons between the two relaxations; [B]: bounds_x, from n inputs to h neurons; [C]: back_bounds *)
Definition backward_linear_prod (D : domain) (n h : nat) (x : tensor) (B C : bb) : result bb :=
  x_max <- get_upper D n false x (fun i j => bb_wu B i j - bb_wl B i j) (fun j => bb_bu B j - bb_bl B j) no_kw ;
  let mask_b i := 1 - Rsgn (x_max i) in
  let mask_a i := 1 - mask_b i in
  Ok (mk_bb
    (fun i j => rsum h (fun k => mask_a k * (mpos (bb_wu C) k j * bb_wu B i k + mneg (bb_wu C) k j * bb_wl B i k))
                + rsum h (fun k => bb_wu C k j * mask_b k * bb_wu B i k))
    (fun j => rsum h (fun k => mask_a k * (mpos (bb_wu C) k j * bb_bu B k + mneg (bb_wu C) k j * bb_bl B k))
              + rsum h (fun k => mask_b k * (bb_wu C k j * bb_bu B k)) + bb_bu C j)
    (fun i j => rsum h (fun k => mask_a k * (mpos (bb_wl C) k j * bb_wl B i k + mneg (bb_wl C) k j * bb_wu B i k))
                + rsum h (fun k => bb_wl C k j * mask_b k * bb_wl B i k))
    (fun j => rsum h (fun k => mask_a k * (mpos (bb_wl C) k j * bb_bl B k + mneg (bb_wl C) k j * bb_bu B k))
              + rsum h (fun k => mask_b k * (bb_wl C k j * bb_bl B k)) + bb_bl C j)).
