(** Vocabulary for densities along a line. *)
Require Import Reals ZArith List Bool Arith Sorted.
Require Import Verif.Prelude Verif.AngModel Verif.AngSpec Verif.BsModel Verif.DlModel.
Import ListNotations.
Open Scope R_scope.

(** The point with prolate spheroidal coordinates mu, eta, phi for nuclei at z = -Rh and
    z = Rh. *)
Definition prolate_point (Rh mu eta phi : R) : R * R * R :=
  (Rh * sinh mu * sqrt (1 - eta * eta) * cos phi, Rh * sinh mu * sqrt (1 - eta * eta) * sin phi, Rh * cosh mu * eta).
(** What atan2 promises. *)
Definition is_atan2 (at2 : R -> R -> R) : Prop := forall x y,
  x = sqrt (x * x + y * y) * cos (at2 y x) /\ y = sqrt (x * x + y * y) * sin (at2 y x).
(** Boundaries that start at zero and ascend. *)
Definition mesh (bval : list R) : Prop := (2 <= length bval)%nat /\ nth 0 bval 0 = 0 /\ StronglySorted Rlt bval.
(** Index ranges that fit. *)
Definition fits (b : pbasis) : Prop := forall iel, (S iel < length (pb_bval b))%nat ->
  (fst (pb_idx b iel) <= snd (pb_idx b iel) < pb_Nrad b)%nat.
(** The value of radial function k at mu in element iel. *)
Definition radial_value (b : pbasis) (iel : nat) (mu : R) (k : nat) : R :=
  let lo := nth iel (pb_bval b) 0 in let hi := nth (S iel) (pb_bval b) 0 in
  if ((fst (pb_idx b iel) <=? k) && (k <=? snd (pb_idx b iel)))%nat%bool
  then pb_rad b iel (2 * (mu - lo) / (hi - lo) - 1) (k - fst (pb_idx b iel))%nat else 0.
(** The norm of a spherical harmonic with its sign, and e^(i m phi). *)
Definition amplitude (b : pbasis) (l m : Z) (eta : R) : R :=
  (if (m <? 0)%Z then (-1) ^ Z.abs_nat m else 1) * pb_leg b l (Z.abs m) (acos eta).
Definition phase (m : Z) (phi : R) : R * R := (cos (IZR m * phi), sin (IZR m * phi)).
(** Positive semidefinite matrices of order n. *)
Definition psd (n : nat) (P : mat) : Prop := forall v : nat -> R, 0 <= sum n (fun i => sum n (fun j => v i * P i j * v j)).
(** No coupling of functions with different m. *)
Definition m_diagonal (b : pbasis) (P : mat) : Prop := forall i j,
  (i < length (pure_functions (pb_sh b) (pb_Nrad b)))%nat -> (j < length (pure_functions (pb_sh b) (pb_Nrad b)))%nat ->
  bf_m (fnth (pure_functions (pb_sh b) (pb_Nrad b)) i) <> bf_m (fnth (pure_functions (pb_sh b) (pb_Nrad b)) j) -> P i j = 0.
(** The density matrix of n orbitals, the value of an orbital, and its squared modulus. *)
Definition dmat (n : nat) (C : mat) : mat := fun i j => sum n (fun o => C i o * C j o).
Definition orbital (bf : list (R * R)) (C : mat) (o : nat) : R * R :=
  (sum (length bf) (fun i => C i o * fst (nth i bf (0, 0))), sum (length bf) (fun i => C i o * snd (nth i bf (0, 0)))).
Definition norm2 (z : R * R) : R := fst z * fst z + snd z * snd z.
(** The value of function f at a point of element iel. *)
Definition point_value (b : pbasis) (iel : nat) (mu eta phi : R) (f : bfun) : R * R :=
  dl_scal (radial_value b iel mu (bf_k f) * amplitude b (fst (fst f)) (bf_m f) eta) (phase (bf_m f) phi).
(** A row of the table: zero outside the mesh, otherwise both densities and their sum. *)
Definition row_of (b : pbasis) (P Q : mat) (mu eta phi z : R) (row : list R) : Prop :=
  (get_mumax b < mu /\ row = [z; 0; 0; 0]) \/
  (mu <= get_mumax b /\ exists bf, eval_point b mu eta phi = Ok bf /\ length bf = length (pure_functions (pb_sh b) (pb_Nrad b)) /\
    row = [z; dl_rho P bf; dl_rho Q bf; dl_rho P bf + dl_rho Q bf]).
