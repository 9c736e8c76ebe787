(** The relaxation of relu in floating-point arithmetic: utils.py:128-201 get_linear_hull_relu on one neuron. Definitions
    only. [op x y]: y is a result of the operation of exact result x. K.relu, K.maximum, K.sign, K.clip, the products by
    the indices 0 and 1 and the sums with 0 do not round. *)
From Coq Require Import Reals List Arith Bool.
From Verif Require Import RLib Spec Spec_Float M_Core M_Utils.
Import ListNotations.
Local Open Scope R_scope.

(** lines 151-176: the slope w_l before finetune, from the slope a of the upper line *)
Definition fl_slope (op : R -> R -> Prop) (sl : slope) (a u l w : R) : Prop :=
  match sl with
  | V_SLOPE => exists s, op (u + l) s /\ w = 1 - - Rclip (Rsgn s - 1) (-1) 0
  | A_SLOPE => exists s, op (a - 1 / 2) s /\ w = Rclip (Rsgn s) 0 1
  | Z_SLOPE => w = 0
  | O_SLOPE => w = 1
  | S_SLOPE => w = a
  end.
(** lines 181-186: gamma * w_l + (1 - gamma) * (1 - w_l); gamma is 1 without finetune *)
Definition fl_gamma (op : R -> R -> Prop) (ft : option R) (w w' : R) : Prop :=
  match ft with
  | None => w' = w
  | Some g => exists p c e f, op (g * w) p /\ op (1 - g) c /\ op (1 - w) e /\ op (c * e) f /\ op (p + f) w'
  end.
(** lines 137-201; ke: epsilon(), the least denominator *)
Definition fl_hull_relu (op : R -> R -> Prop) (ke : R) (sl : slope) (ft : option R) (u l : R) (h : hull) : Prop :=
  exists n d a q b w w',
    op (Rmax u 0 - Rmax l 0) n /\ op (u - l) d /\ op (n / Rmax ke d) a /\
    op (a * l) q /\ op (Rmax l 0 - q) b /\ fl_slope op sl a u l w /\ fl_gamma op ft w w' /\
    h = mk_hull ((1 - index_linear l) * ((1 - index_dead u) * a) + index_linear l) ((1 - index_linear l) * ((1 - index_dead u) * b))
                ((1 - index_linear l) * ((1 - index_dead u) * w') + index_linear l) 0.
