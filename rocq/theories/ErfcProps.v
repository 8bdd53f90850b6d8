(** Expansion of the complementary error function kernel: C52, C83. *)
Require Import Reals List Arith ZArith.
Require Import Verif.Prelude Verif.SadSpec Verif.PotSpec Verif.ErfcModel Verif.ErfcSpec Verif.ErfcProofs Verif.ErfcAngle Verif.ErfcShort Verif.ErfcSeries Verif.ErfcWit Verif.ShapeModel.
Open Scope R_scope.

(** C52: exchanging the two radii does not change the result, whatever it is. *)
Theorem C52_symmetric : forall eps erfc n X x, Phi eps erfc n X x = Phi eps erfc n x X.
Proof. exact Phi_sym. Qed.
Print Assumptions C52_symmetric.

(** The evaluation always ends, with a value or with the runtime error of a series that did
    not converge; the logic error of a wrong order is never raised. *)
Theorem C52_outcome : forall eps erfc n X x,
  (exists v, Phi eps erfc n X x = Ok v) \/ Phi eps erfc n X x = Throw RuntimeError.
Proof. exact Phi_outcome. Qed.
Print Assumptions C52_outcome.

(** The binomial coefficients are the generalised ones when the upper index is at least -1 or
    the lower index at most 1. *)
Theorem C52_choose_partial : forall fuel n m, (Z.to_nat (- n) < fuel)%nat -> (-1 <= n)%Z \/ (m <= 1)%nat ->
  choose fuel n (Z.of_nat m) = Ok (binomial n m).
Proof. exact choose_right. Qed.
Print Assumptions C52_choose_partial.
Example C52_choose_case : (Z.to_nat (- 5) < 3)%nat /\ binomial 5 2 = 10.
Proof. exact binomial_5_2. Qed.

(** For every other index the returned value is wrong. *)
Theorem C52_choose_refuted : forall fuel n m, (Z.to_nat (- n) < fuel)%nat -> (n <= -2)%Z -> (2 <= m)%nat ->
  exists v, choose fuel n (Z.of_nat m) = Ok v /\ v <> binomial n m.
Proof. exact choose_wrong. Qed.
Print Assumptions C52_choose_refuted.
Example C52_choose_wrong_case : (Z.to_nat (- -2) < 3)%nat /\ (-2 <= -2)%Z /\ (2 <= 2)%nat /\ binomial (-2) 2 = 3.
Proof. exact binomial_m2_2. Qed.

(** The coefficients of the power series are those of the Taylor expansion of erfc(d)/d, for
    every order, up to k = 3 ... *)
Theorem C52_series_partial : forall erfc h n k X, is_erfc erfc -> radial_family (fun r => erfc r / r) h -> 0 < X -> (k <= 3)%nat ->
  Dnk erfc n k X = Ok (X ^ (n + 1) * taylor h n k X).
Proof. exact series_right. Qed.
Print Assumptions C52_series_partial.
(** ... and never at k = 4, because of the wrong binomial. *)
Theorem C52_series_refuted : forall erfc h n X, is_erfc erfc -> radial_family (fun r => erfc r / r) h -> 0 < X ->
  exists v, Dnk erfc n 4 X = Ok v /\ v <> X ^ (n + 1) * taylor h n 4 X.
Proof. exact series_wrong. Qed.
Print Assumptions C52_series_refuted.
Example C52_series_case : is_erfc the_erfc /\ radial_family (fun r => the_erfc r / r) (hc the_erfc).
Proof. exact (conj the_erfc_ok (hc_family the_erfc the_erfc_ok)). Qed.

(** For order zero these coefficients are erfc^(2k)(X)/(2k+1)!. *)
Theorem C52_series_order0_partial : forall erfc d X k, is_erfc erfc -> derivatives erfc d -> (k <= 3)%nat ->
  Dnk erfc 0 k X = Ok (d (2 * k)%nat X / INR (fact (2 * k + 1))).
Proof. exact D0_right. Qed.
Print Assumptions C52_series_order0_partial.
Theorem C52_series_order0_refuted : forall erfc d X, is_erfc erfc -> derivatives erfc d -> 0 < X ->
  exists v, Dnk erfc 0 4 X = Ok v /\ v <> d 8%nat X / INR (fact 9).
Proof. exact D0_wrong. Qed.
Print Assumptions C52_series_order0_refuted.
Example C52_order0_case : is_erfc the_erfc /\ derivatives the_erfc erfc_derivs.
Proof. exact (conj the_erfc_ok erfc_derivs_ok). Qed.

(** A value returned by the power series is the sum of its first 2j terms for some j <= 101,
    and the last two of them changed it by less than the tolerance. *)
Theorem C52_converged : forall eps erfc n X x v, 0 < x <= X -> Phi_short eps erfc n X x = Ok v ->
  exists j D, (1 <= j <= 101)%nat /\ (forall k, (k < 2 * j)%nat -> Dnk erfc n k X = Ok (D k)) /\
    (let total k := sum (2 * k) (fun i => D i * x ^ (n + 2 * i)) in
     v = total j / X ^ (n + 1) /\ Rabs (total j - total (j - 1)%nat) < eps * Rmax (Rabs (total j)) 1).
Proof. exact short_converged. Qed.
Print Assumptions C52_converged.
(** The series is used exactly when the smaller radius is below 0.4 or the larger below 0.5. *)
Theorem C52_regions : forall eps erfc n X x, 0 <= x -> x <= X ->
  Phi eps erfc n X x = if Rltb x (4 / 10) then Phi_short eps erfc n X x else if Rltb X (5 / 10) then Phi_short eps erfc n X x else Phi_general erfc n X x.
Proof. exact Phi_regions. Qed.
Print Assumptions C52_regions.
Example C52_converged_case : exists v, 0 < 1 <= 1 /\ Phi_short 2 (fun _ => 1) 0 1 1 = Ok v.
Proof. exact converged_witness. Qed.

(** C83: the closed form is the Legendre coefficient of erfc(d)/d, for every order and all
    positive radii: as an integral over the angle when the radii differ, ... *)
Theorem C83_general : forall erfc P n X x, is_erfc erfc -> legendre P -> 0 < x -> 0 < X -> X <> x ->
  exists v, Phi_general erfc n X x = Ok v /\ multipole erfc P n X x v.
Proof. exact general_angle. Qed.
Print Assumptions C83_general.
(** ... and over the distance in all cases. *)
Theorem C83_general_dist : forall erfc P n X x, is_erfc erfc -> legendre P -> 0 < x -> 0 < X ->
  exists v, Phi_general erfc n X x = Ok v /\ multipole_dist erfc P n X x v.
Proof. exact general_exact. Qed.
Print Assumptions C83_general_dist.

(** The public function returns that coefficient outside the region of the power series, ... *)
Theorem C83_phi : forall eps erfc P n X x, is_erfc erfc -> legendre P -> 4 / 10 <= Rmin X x -> 5 / 10 <= Rmax X x -> X <> x ->
  exists v, Phi eps erfc n X x = Ok v /\ multipole erfc P n X x v.
Proof. exact Phi_angle. Qed.
Print Assumptions C83_phi.
Theorem C83_phi_dist : forall eps erfc P n X x, is_erfc erfc -> legendre P -> 4 / 10 <= Rmin X x -> 5 / 10 <= Rmax X x ->
  exists v, Phi eps erfc n X x = Ok v /\ multipole_dist erfc P n X x v.
Proof. exact Phi_exact. Qed.
Print Assumptions C83_phi_dist.
(** ... and when one of the points is at the origin, for any function in place of erfc. *)
Theorem C83_origin : forall eps erfc P n X, 0 < eps -> legendre P -> 0 < X ->
  exists v, Phi eps erfc n X 0 = Ok v /\ Phi eps erfc n 0 X = Ok v /\ multipole erfc P n X 0 v.
Proof. exact Phi_origin. Qed.
Print Assumptions C83_origin.
Example C83_case : is_erfc the_erfc /\ legendre leg /\ 4 / 10 <= Rmin 1 2 /\ 5 / 10 <= Rmax 1 2 /\ 1 <> 2.
Proof. exact (conj the_erfc_ok (conj legendre_leg C83_case_radii)). Qed.
