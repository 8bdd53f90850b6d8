(** Vocabulary for the Gauss-Lobatto properties. *)
Require Import Reals List Arith Bool ZArith.
Require Import Verif.Prelude Verif.FEModel Verif.ShapeModel Verif.ShapeSpec.
Import ListNotations.
Open Scope R_scope.

(** Entry [i] of a list of numbers. *)
Definition at_ (l : list R) (i : nat) : R := nth i l 0.
(** The value the rule gives to [f]. *)
Definition rule (x w : list R) (f : R -> R) : R := sum (length x) (fun i => at_ w i * f (at_ x i)).
(** The rule integrates every polynomial with at most [d] coefficients over [-1,1]. *)
Definition integrates (d : nat) (x w : list R) : Prop :=
  forall c v, (length c <= d)%nat -> integral (peval c) (-1) 1 v -> rule x w (peval c) = v.
(** Pairwise different nodes. *)
Definition distinct_nodes (x : list R) : Prop := NoDup x.
(** A stationary node of order [n]: an end of the interval or an extremum of P_{n-1}. *)
Definition stationary (n : nat) (x : R) : Prop := (1 - x * x) * dleg (n - 1) x = 0.
