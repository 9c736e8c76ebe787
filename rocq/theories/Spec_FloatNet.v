(** Rounding error of a normalisation. *)
From Coq Require Import Reals.
Local Open Scope R_scope.

(** gamma * (x - mean) / T + beta with |x - mean| <= B, |gamma| = G, |beta| = H: the difference, the quotient by a deviation
    of relative error 5 u, the quotient rounded, the product, the sum of the two products, the sum with beta *)
Definition bn_error (u eta B G T H : R) : R :=
  let d := u * B + eta in
  let z := ((1 + 5 * u) * d + 5 * u * B) / T in
  let e := z + u * (B / T + z) + eta in
  let p := G * e + u * (G * (B / T + e)) + eta in
  let r := p + eta + u * (G * (B / T) + p + eta) + eta in
  r + u * (G * (B / T) + r + H) + eta.
