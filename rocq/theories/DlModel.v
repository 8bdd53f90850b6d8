(** Model of the density along a line of a diatomic molecule, /repo/src/diatomic/density_line.cpp,
    with the evaluation of the basis at a point, /repo/src/diatomic/basis.cpp 2166-2202 and
    680-683, and /repo/src/general/spherical_harmonics.cpp.  Scalars are exact real numbers. *)
Require Import Reals ZArith List Bool Arith.
Require Import Verif.Prelude Verif.AngModel Verif.BsModel.
Import ListNotations.
Open Scope R_scope.

(** Complex numbers as pairs. *)
Definition dl_scal (c : R) (z : R * R) : R * R := (c * fst z, c * snd z).
Definition dl_conj (z : R * R) : R * R := (fst z, - snd z).

(** spherical_harmonics.cpp 20-35.  [leg] is std::sph_legendre(l, m, theta); pow(M_E, i x) is
    taken as cos x + i sin x. *)
Definition sph_pos (leg : Z -> Z -> R -> R) (l m : Z) (cth phi : R) : R * R :=
  dl_scal (leg l m (acos cth)) (cos (IZR m * phi), sin (IZR m * phi)).
Definition spherical_harmonics (leg : Z -> Z -> R -> R) (l m : Z) (cth phi : R) : R * R :=
  if (m <? 0)%Z then dl_conj (dl_scal ((-1) ^ Z.abs_nat m) (sph_pos leg l (- m) cth phi)) else sph_pos leg l m cth phi.

(** The basis: shells, number of radial functions, boundaries of the elements, the radial
    functions of an element (get_bf(iel, x), one row) and their first and last index. *)
Record pbasis := mkPB { pb_sh : list (Z * Z); pb_Nrad : nat; pb_bval : list R; pb_rad : nat -> R -> nat -> R;
  pb_idx : nat -> nat * nat; pb_leg : Z -> Z -> R -> R }.

(** basis.cpp 2168-2177: the first element with bval(iel) <= mu <= bval(iel+1). *)
Fixpoint find_el (bval : list R) (mu : R) (iel : nat) : option nat :=
  match bval with
  | a :: (b :: _) as t => if (Rleb a mu && Rleb mu b)%bool then Some iel else find_el t mu (S iel)
  | _ => None
  end.
(** basis.cpp 2166-2202: eval_bf(mu, cth, phi).  Entry d of the vector over all shells and
    all radial functions; writing past its end is undefined. *)
Definition dl_entry (b : pbasis) (iel : nat) (x cth phi : R) (d : nat) : R * R :=
  let i := (d / pb_Nrad b)%nat in
  let k := (d mod pb_Nrad b)%nat in
  let '(ifirst, ilast) := pb_idx b iel in
  if ((ifirst <=? k) && (k <=? ilast))%nat%bool
  then dl_scal (pb_rad b iel x (k - ifirst)%nat) (spherical_harmonics (pb_leg b) (fst (shell (pb_sh b) i)) (snd (shell (pb_sh b) i)) cth phi)
  else (0, 0).
Definition eval_point (b : pbasis) (mu cth phi : R) : res (list (R * R)) :=
  match find_el (pb_bval b) mu 0 with
  | None => Throw LogicError
  | Some iel =>
      let lo := nth iel (pb_bval b) 0 in
      let hi := nth (S iel) (pb_bval b) 0 in
      let x := 2 * (mu - lo) / (hi - lo) - 1 in
      let '(ifirst, ilast) := pb_idx b iel in
      if ((ifirst <=? ilast) && (ilast <? pb_Nrad b))%nat%bool
      then Ok (map (dl_entry b iel x cth phi) (pure_indices (pb_sh b) (pb_Nrad b)))
      else UB
  end.
(** basis.cpp 680-683: get_mumax. *)
Definition get_mumax (b : pbasis) : R := last (pb_bval b) 0.

(** density_line.cpp 87-88: (bf.adjoint() * P * bf).real() *)
Definition dl_rho (P : mat) (bf : list (R * R)) : R :=
  let n := length bf in
  sum n (fun i => sum n (fun j => P i j * (fst (nth i bf (0, 0)) * fst (nth j bf (0, 0)) + snd (nth i bf (0, 0)) * snd (nth j bf (0, 0))))).
(** density_line.cpp 73-78: xi and the clamped eta. *)
Definition dl_ra (Rhalf xysq z : R) : R := sqrt ((z + Rhalf) ^ 2 + xysq).
Definition dl_rb (Rhalf xysq z : R) : R := sqrt ((z - Rhalf) ^ 2 + xysq).
Definition dl_xi (Rhalf xysq z : R) : R := (dl_ra Rhalf xysq z + dl_rb Rhalf xysq z) / (2 * Rhalf).
Definition dl_eta (Rhalf xysq z : R) : R :=
  let eta := (dl_ra Rhalf xysq z - dl_rb Rhalf xysq z) / (2 * Rhalf) in
  let eta := if Rltb eta (-1) then -1 else eta in
  if Rltb 1 eta then 1 else eta.
(** density_line.cpp 66-92: one row (z, alpha, beta, total); [at2] is std::atan2. *)
Definition dl_row (at2 : R -> R -> R) (b : pbasis) (Rhalf : R) (Pa Pb : mat) (x y z : R) : res (list R) :=
  let phi := at2 y x in
  let xysq := x * x + y * y in
  let mu := arcosh (dl_xi Rhalf xysq z) in
  if Rltb (get_mumax b) mu then Ok [z; 0; 0; 0]
  else
    bind (eval_point b mu (dl_eta Rhalf xysq z) phi) (fun bf =>
    let rhoa := dl_rho Pa bf in
    let rhob := dl_rho Pb bf in
    Ok [z; rhoa; rhob; rhoa + rhob]).
(** Eigen LinSpaced(n, lo, hi): the last value is hi; a single value is hi. *)
Definition lin_spaced (n : nat) (lo hi : R) : list R :=
  map (fun i => if (S i =? n)%nat then hi else lo + INR i * ((hi - lo) / INR (n - 1))) (seq 0 n).
Fixpoint dl_each (f : R -> res (list R)) (zs : list R) : res (list (list R)) :=
  match zs with
  | [] => Ok []
  | z :: zs => bind (f z) (fun r => bind (dl_each f zs) (fun rs => Ok (r :: rs)))
  end.
(** density_line.cpp 64-93: the table. *)
Definition density_line (at2 : R -> R -> R) (b : pbasis) (Rhalf : R) (Pa Pb : mat) (x y zmin zmax : R) (Nz : nat) : res (list (list R)) :=
  dl_each (dl_row at2 b Rhalf Pa Pb x y) (lin_spaced Nz zmin zmax).
