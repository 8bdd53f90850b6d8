(** What a quadrature rule on an interval is. *)
Require Import Reals Arith.
Require Import Verif.Prelude.
Local Open Scope R_scope.

(** The rule is the trapezoidal rule of the map X from (lo, hi) with uniform step h: node j
    is X at lo + (j + 1) h, and the weight is h times the derivative of X there. *)
Definition mapped_trapezoid (X : R -> R) (lo h : R) (n : nat) (x w : vec) : Prop :=
  forall j, (j < n)%nat -> x j = X (lo + INR (j + 1) * h) /\ exists d, derivable_pt_lim X (lo + INR (j + 1) * h) d /\ w j = h * d.
(** Value of the rule. *)
Definition rule (n : nat) (x w : vec) (f : R -> R) : R := sum n (fun j => w j * f (x j)).
