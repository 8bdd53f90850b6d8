(** Vocabulary for the model potentials. *)
Require Import Reals List Arith.
Require Import Verif.Prelude Verif.SadSpec.
Open Scope R_scope.

(** The error function: the integral of 2/sqrt(pi) exp(-x^2) from zero, which tends to one. *)
Definition is_erf (erf : R -> R) : Prop :=
  erf 0 = 0 /\ (forall x, derivable_pt_lim erf x (2 / sqrt PI * exp (- (x * x)))) /\
  forall e, 0 < e -> exists X, forall x, X <= x -> Rabs (erf x - 1) < e.

(** The value [v] is the integral of [f] from [a] to infinity. *)
Definition is_improper (f : R -> R) (a v : R) : Prop :=
  forall e, 0 < e -> exists X0, forall X, X0 <= X -> exists w, is_int f a X w /\ Rabs (w - v) < e.

(** The charge density of a uniformly charged ball and of a Gaussian, unit charge. *)
Definition ball_density (R0 : R) : R := 3 / (4 * PI * R0 ^ 3).
Definition gauss_density (mu s : R) : R := (mu / sqrt PI) ^ 3 * exp (- (mu * s) ^ 2).

(** [f] gives the values of a potential at positive radii. *)
Definition values (V : R -> fp) (f : R -> R) : Prop := forall r, 0 < r -> V r = Fin (f r).

(** First and second derivatives at a point. *)
Definition slopes (u : R -> R) (r u1 u2 : R) : Prop :=
  exists d e, 0 < e /\ (forall s, Rabs (s - r) < e -> derivable_pt_lim u s (d s)) /\ d r = u1 /\ derivable_pt_lim d r u2.
