(** Model of the modified Gauss-Chebyshev rules, /repo/libhelfem/include/chebyshev.h.
    Arithmetic is exact; pi is acos(-1).  A vector of size n is a function on indices below
    n.  A negative n is left out (Eigen does not accept it). *)
Require Import Reals Arith.
Require Import Verif.Prelude.
Local Open Scope R_scope.

(** chebyshev.h 39-51: weight and node of the loop index i = 1..n, stored at i - 1. *)
Definition cheb_weight (n i : nat) : R :=
  let sinesq := sin (INR i * PI * (1 / INR (n + 1))) * sin (INR i * PI * (1 / INR (n + 1))) in
  16 / 3 / INR (n + 1) * sinesq * sinesq.
Definition cheb_node (n i : nat) : R :=
  let angle := INR i * PI * (1 / INR (n + 1)) in
  let sinesq := sin angle * sin angle in
  1 - 2 * INR i * (1 / INR (n + 1)) + 2 / PI * (1 + 2 / 3 * sinesq) * cos angle * sin angle.
(** chebyshev.h 53-54: reverse() *)
Definition reverse (n : nat) (v : vec) : vec := fun j => v (n - 1 - j)%nat.
(** chebyshev.h 31-55 *)
Definition chebyshev (n : nat) : vec * vec :=
  (reverse n (fun j => cheb_node n (j + 1)), reverse n (fun j => cheb_weight n (j + 1))).

(** chebyshev.h 61-80: radial_chebyshev; the loop fills every index ixc = n - 1 - ir. *)
Definition radial_chebyshev (n : nat) : vec * vec :=
  let (xc, wc) := chebyshev n in
  let inv_ln2 := 1 / ln 2 in
  (fun ixc => inv_ln2 * ln (2 / (1 - xc ixc)), fun ixc => wc ixc * (inv_ln2 / (1 - xc ixc))).
