(** Vocabulary for the Bessel function properties. *)
Require Import Reals List Arith Bool.
Require Import Verif.Prelude.
Import ListNotations.
Open Scope R_scope.

(** 1 * 3 * 5 * ... * (2 n - 1). *)
Fixpoint odd_factorial (n : nat) : R :=
  match n with O => 1 | S k => odd_factorial k * (2 * INR k + 1) end.
(** [s] is the value of the modified spherical Bessel function i_L at [x]: the sum
    of x^(L+2k) / (2^k k! (2L+2k+1)!!). *)
Definition il_term (L : nat) (x : R) (k : nat) : R :=
  x ^ (L + 2 * k) / (2 ^ k * INR (fact k) * odd_factorial (L + k + 1)).
Definition is_il (L : nat) (x s : R) : Prop := Un_cv (fun n => sum n (il_term L x)) s.
