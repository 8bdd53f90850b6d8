(** Model of the modified spherical Bessel functions, libhelfem/include/math.h. *)
Require Import Reals List Arith Bool.
Require Import Verif.Prelude.
Import ListNotations.
Open Scope R_scope.

(** math.h:74-75: (2L+1)!! by the loop j = 3, 5, ..., 2L+1. *)
Fixpoint bs_dfac (L : nat) : R :=
  match L with O => 1 | S l => bs_dfac l * INR (2 * L + 1) end.

(** math.h:80-84: the loop over k, [fuel] passes left, from the given k. *)
Fixpoint bs_loop (tol r2half : R) (L fuel k : nat) (term val : R) : R :=
  match fuel with
  | O => val
  | S f =>
      let term := term * (r2half / (INR k * INR (2 * L + 2 * k + 1))) in
      let val := val + term in
      if Rleb (Rabs term) (tol * Rabs val) then val
      else bs_loop tol r2half L f (S k) term val
  end.

(** math.h:68-90: bessel_il.  [cyl] for std::cyl_bessel_i, [eps] for
    numeric_limits::epsilon(); L is not negative. *)
Definition bessel_il (cyl : R -> R -> R) (eps : R) (r : R) (L : nat) : R :=
  let absr := Rabs r in
  let val :=
    if Rltb absr (1 / 2) then
      let term := absr ^ L / bs_dfac L in
      bs_loop (eps * (1 / 100)) (1 / 2 * absr * absr) L 255 1 term term
    else cyl (INR L + 1 / 2) absr * sqrt (PI / (2 * absr)) in
  if (Rltb r 0 && Nat.odd L)%bool then - val else val.

(** math.h:92-97: on a vector. *)
Definition bessel_il_vec (cyl : R -> R -> R) (eps : R) (r : list R) (L : nat) : list R :=
  map (fun x => bessel_il cyl eps x L) r.

(** math.h:30-33: arcosh.  std::acosh is taken as the logarithm ln(x + sqrt(x^2 - 1)). *)
Definition acosh (x : R) : R := ln (x + sqrt (x * x - 1)).
Definition arcosh (x : R) : R := acosh (Rmax x 1).
(** math.h:35-40: on a vector. *)
Definition arcosh_vec (x : list R) : list R := map arcosh x.
(** math.h:43-46: arsinh, std::asinh as the logarithm ln(x + sqrt(x^2 + 1)). *)
Definition arsinh (x : R) : R := ln (x + sqrt (x * x + 1)).
(** math.h:48-53: on a vector. *)
Definition arsinh_vec (x : list R) : list R := map arsinh x.
