(** Vocabulary for the grid properties. *)
Require Import Reals ZArith List.
Require Import Verif.Prelude.
Local Open Scope R_scope.

(** A grid of n elements from 0 to r: n+1 strictly increasing boundaries, the
    first exactly 0, the last exactly r. *)
Definition grid_from_0_to (r : R) (n : Z) (l : list R) : Prop :=
  Z.of_nat (length l) = (n + 1)%Z /\ increasing l /\
  hd_error l = Some 0 /\ last l (-1) = r.

(** Grid types and parameters get_grid documents: 1 linear, 2 quadratic,
    3 polynomial and 4 exponential with a positive exponent, 5 geometric with a
    ratio in (0,1). *)
Definition admissible (igrid : Z) (zexp : R) : Prop :=
  (igrid = 1 \/ igrid = 2)%Z \/
  ((igrid = 3 \/ igrid = 4)%Z /\ 0 < zexp) \/
  (igrid = 5%Z /\ 0 < zexp < 1).
