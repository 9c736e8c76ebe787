(** Theorems C28 about backward_linear_prod. *)
From Coq Require Import Reals List Arith Bool.
From Verif Require Import RLib Spec Spec_Layers Spec_Backward M_Core M_Backward M_LinearProd P_LinearProd.
Import ListNotations.
Local Open Scope R_scope.

(** bounds of f on the domain and bounds of g on its values are composed into bounds of g after f on the domain *)
Theorem C28_linear_prod : forall D (T : vec -> Prop) n h k x f g B C, (0 < n)%nat -> norm_ok D ->
  relaxes (in_dom D n x) n h f B -> relaxes T h k g C -> (forall z, in_dom D n x z -> T (f z)) ->
  exists M, backward_linear_prod D n h x B C = Ok M /\ relaxes (in_dom D n x) n k (fun z => g (f z)) M.
Proof. exact linear_prod_sound. Qed.
Print Assumptions C28_linear_prod.

(** on the domain the values are those of merge_with_previous *)
Theorem C28_linear_prod_merge : forall D n h k x f B C M, (0 < n)%nat ->
  relaxes (in_dom D n x) n h f B -> backward_linear_prod D n h x B C = Ok M ->
  forall z j, in_dom D n x z -> (j < k)%nat ->
    aff n (bb_wu M) (bb_bu M) z j = aff n (bb_wu (merge_bb h B C)) (bb_bu (merge_bb h B C)) z j /\
    aff n (bb_wl M) (bb_bl M) z j = aff n (bb_wl (merge_bb h B C)) (bb_bl (merge_bb h B C)) z j.
Proof. exact linear_prod_merge. Qed.
Print Assumptions C28_linear_prod_merge.

(** 1 - |z| on [-1, 1] *)
Example C28_example_linear_prod : let x : tensor := fun i _ => if Nat.eqb i 0 then -1 else 1 in
  let B := mk_bb (fun _ _ => 0) (fun _ => 1) (fun _ _ => 0) (fun _ => 0) in
  let C := mk_bb (fun _ _ => -1) (fun _ => 1) (fun _ _ => -1) (fun _ => 1) in
  relaxes (in_dom Box 1 x) 1 1 (fun z j => Rabs (z j)) B /\
  relaxes (fun _ => True) 1 1 (fun y j => 1 - y j) C /\
  exists M, backward_linear_prod Box 1 1 x B C = Ok M /\
    bb_bu M 0%nat = 1 /\ bb_bl M 0%nat = 0.
Proof. exact linear_prod_example. Qed.

