(** When the quadrature on spheres has to agree with the radial quadrature. *)
Require Import Reals ZArith List Bool Arith.
Require Import Verif.Prelude Verif.FEModel Verif.FESpec Verif.AngModel Verif.JKModel Verif.DftModel Verif.DftSpec Verif.SgSpec.
Import ListNotations.
Local Open Scope R_scope.

(** The shells (l, -l), ..., (l, l) for every l below nl *)
Definition full_shells (nl : nat) : list (Z * Z) :=
  flat_map (fun l => map (fun k => (Z.of_nat l, Z.of_nat k - Z.of_nat l)%Z) (seq 0 (2 * l + 1))) (seq 0 nl).
(** Spherical harmonics away from the z axis:
    2 m cot(theta) Y_lm = - sqrt((l-m)(l+m+1)) exp(-i phi) Y_l,m+1 - sqrt((l+m)(l-m+1)) exp(i phi) Y_l,m-1
    and sum_m |Y_lm|^2 = (2l+1)/(4 pi). *)
Definition harmonics (Y : Z -> Z -> R -> R -> R * R) (nl : nat) : Prop :=
  forall l cth phi, (Z.of_nat l < Z.of_nat nl)%Z -> -1 < cth < 1 ->
    (forall m, (- Z.of_nat l <= m <= Z.of_nat l)%Z ->
       cscal (2 * (IZR m * (cth / sqrt (1 - cth * cth)))) (Y (Z.of_nat l) m cth phi)
       = cadd (cscal (- sqrt (IZR ((Z.of_nat l - m) * (Z.of_nat l + m + 1)))) (cmul (cos phi, - sin phi) (Y (Z.of_nat l) (m + 1)%Z cth phi)))
              (cscal (- sqrt (IZR ((Z.of_nat l + m) * (Z.of_nat l - m + 1)))) (cmul (cos phi, sin phi) (Y (Z.of_nat l) (m - 1)%Z cth phi)))) /\
    sum (2 * l + 1) (fun k => let y := Y (Z.of_nat l) (Z.of_nat k - Z.of_nat l)%Z cth phi in reprod y y) = INR (2 * l + 1) / (4 * PI).
(** The density matrix of the whole atom whose orbitals with angular momentum l are
    occupied equally for every m, and have the density (2l+1)/(4 pi) times theirs in
    number l of the list. *)
Definition spherical (b : abasis) (Ps : list dmat) (P : dmat) : Prop :=
  forall i j, (i < at_nbf b)%nat -> (j < at_nbf b)%nat ->
    dent P i j = if Nat.eqb (i / at_nr b) (j / at_nr b)
                 then let l := Z.to_nat (fst (shell (ab_sh b) (i / at_nr b))) in
                      4 * PI / INR (2 * l + 1) * part Ps l (i mod at_nr b) (j mod at_nr b)
                 else 0.
(** The sum of the diagonal blocks of the shells with angular momentum l *)
Definition shell_trace (b : abasis) (H : dmat) (l i j : nat) : R :=
  sum (length (ab_sh b)) (fun s => if Z.eqb (fst (shell (ab_sh b) s)) (Z.of_nat l)
                                   then dent H (s * at_nr b + i)%nat (s * at_nr b + j)%nat else 0).
