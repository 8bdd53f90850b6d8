(** Properties C37 and C38. *)
Require Import Reals List Arith Bool ZArith.
Require Import Verif.Prelude Verif.LegModel Verif.LegSpec Verif.LegProofs Verif.LegWit Verif.LegPos.
Open Scope R_scope.

(* ------------------------------------------------------------------ *)
(** C37: whatever x and whatever the limits, every entry (l, m) of the table is the
    associated function of the first kind: (-1)^m sqrt(1 - x^2)^m times the m-th derivative
    of the Legendre polynomial on the cut, without the phase outside. *)
Theorem C37_plm : forall D lmax mmax x, first_kind D -> (0 <= lmax)%Z -> (0 <= mmax)%Z ->
  exists a, plm lmax mmax x = Ok a /\ forall l m, (l <= Z.to_nat lmax)%nat -> (m <= Z.to_nat mmax)%nat ->
    a (m * (Z.to_nat lmax + 1) + l)%nat = associated D l m x.
Proof. exact plm_ok. Qed.
Print Assumptions C37_plm.

Theorem C37_above : forall D l m x, first_kind D -> (l < m)%nat -> associated D l m x = 0.
Proof. exact plm_above. Qed.
Print Assumptions C37_above.

Theorem C37_negative : forall lmax mmax x, (lmax < 0)%Z \/ (mmax < 0)%Z -> plm lmax mmax x = Throw InvalidArgument.
Proof. exact plm_negative. Qed.
Print Assumptions C37_negative.

(** The polynomials and their derivatives exist. *)
Example C37_case : first_kind Pfam /\ (0 <= 4)%Z /\ (0 <= 2)%Z.
Proof. exact (conj first_exists (conj (proj1 (Z.leb_le 0 4) eq_refl) (proj1 (Z.leb_le 0 2) eq_refl))). Qed.

(* ------------------------------------------------------------------ *)
(** C38: every entry of the table of the second kind is the associated function, in every
    regime, if the continued fraction returns the quotient of the two highest functions. *)
Theorem C38_qlm : forall D cf seed_low lmax mmax x, second_kind D -> (0 <= lmax)%Z -> (0 <= mmax)%Z -> Rabs x <> 1 -> seed_low <> 0 ->
  (1 < Rabs x -> (1 <= lmax)%Z -> forall m, (m <= 1)%nat ->
     exists rho, cf x (Z.to_nat lmax) m = Ok rho /\ associated D (Z.to_nat lmax) m x = rho * associated D (Z.to_nat lmax - 1) m x) ->
  exists a, qlm cf seed_low lmax mmax x = Ok a /\ forall l m, (l <= Z.to_nat lmax)%nat -> (m <= Z.to_nat mmax)%nat ->
    a (m * (Z.to_nat lmax + 1) + l)%nat = associated D l m x.
Proof. exact qlm_ok. Qed.
Print Assumptions C38_qlm.

(** Outside the cut the three algorithms give the same table from the same seeds. *)
Theorem C38_agree : forall D cf seed_low lmax mmax x a b, second_kind D -> 1 < Rabs x -> seed_low <> 0 ->
  ((1 <= lmax)%nat -> forall m, (m <= 1)%nat ->
     exists rho, cf x lmax m = Ok rho /\ associated D lmax m x = rho * associated D (lmax - 1) m x) ->
  seed_qlm lmax mmax x a = Ok b ->
  exists u v w, compute_qlm_upward lmax mmax x b = Ok u /\ compute_qlm_christoffel lmax mmax x b = Ok v /\
    compute_qlm_miller lmax mmax cf seed_low x b = Ok w /\
    forall l m, (l <= lmax)%nat -> (m <= mmax)%nat -> u (idx l m lmax) = v (idx l m lmax) /\ v (idx l m lmax) = w (idx l m lmax).
Proof. exact agree. Qed.
Print Assumptions C38_agree.

Theorem C38_negative : forall cf s lmax mmax x, (lmax < 0)%Z \/ (mmax < 0)%Z -> qlm cf s lmax mmax x = Throw InvalidArgument.
Proof. exact qlm_negative. Qed.
Print Assumptions C38_negative.

Theorem C38_singular : forall cf s lmax mmax x, (0 <= lmax)%Z -> (0 <= mmax)%Z -> Rabs x = 1 -> qlm cf s lmax mmax x = Throw DomainError.
Proof. exact qlm_singular. Qed.
Print Assumptions C38_singular.

(** The quotient asked for exists: the functions and their slopes do not vanish outside
    the cut. *)
Theorem C38_quotient : forall D, second_kind D -> forall l m x, 1 < Rabs x -> (m <= 1)%nat -> associated D l m x <> 0.
Proof. exact nonvanishing. Qed.
Print Assumptions C38_quotient.

Example C38_case : second_kind Qfam /\ forall x l m, 1 < Rabs x -> (m <= 1)%nat ->
  exists rho, ratio x l m = Ok rho /\ associated Qfam l m x = rho * associated Qfam (l - 1) m x.
Proof. exact (conj second_exists ratio_exact). Qed.

(** The header says that the entries with m > l are zero.  They are the associated
    functions, and do not vanish. *)
Theorem C38_above_refuted : exists cf s lmax mmax x a, qlm cf s lmax mmax x = Ok a /\
  ~ (forall l m, (l <= Z.to_nat lmax)%nat -> (m <= Z.to_nat mmax)%nat -> (l < m)%nat -> a (m * (Z.to_nat lmax + 1) + l)%nat = 0).
Proof. exact above_zero_refuted. Qed.
Print Assumptions C38_above_refuted.
