(** Points around the two nuclei of a diatomic molecule, and sums over the quadrature. *)
Require Import Reals ZArith List Bool Arith.
Require Import Verif.Prelude Verif.FEModel Verif.FESpec Verif.AngModel Verif.AngSpec Verif.JKModel Verif.DftModel Verif.DftSpec Verif.DdfSpec Verif.PmSpec Verif.PotModel Verif.TqModel.
Import ListNotations.
Local Open Scope R_scope.

(** The point mu, nu in the plane of the molecule: distance from the bond axis and height
    along it, for c = cos nu.  The nuclei are at the heights -Rh and Rh. *)
Definition spot (Rh mu c : R) : R * R := (Rh * sinh mu * sqrt (1 - c * c), Rh * cosh mu * c).
(** The distance from the point of height z on the axis *)
Definition from (z : R) (s : R * R) : R := sqrt (fst s * fst s + (snd s - z) * (snd s - z)).
(** Where the centre of a probe is, and where its polar axis points: the axes of the
    nuclei point at each other. *)
Definition centre (Rh : R) (p : probe) : R := match p with PROBE_LEFT => - Rh | PROBE_MIDDLE => 0 | PROBE_RIGHT => Rh end.
Definition axis (p : probe) : R := match p with PROBE_RIGHT => -1 | _ => 1 end.
(** The polar angle about a centre *)
Definition polar (Rh : R) (p : probe) (s : R * R) : R := acos (axis p * (snd s - centre Rh p) / from (centre Rh p) s).

(** The sum of [F] over the points of the quadrature with the rule [ru] in cos nu; [F]
    gets the values of the basis functions and the place of the point. *)
Definition gsum (b : abasis) (Rh : R) (ru : list (R * R)) (F : gpoint -> R * R -> R) : R :=
  lsum (seq 0 (get_nelem (ab_fe b))) (fun iel => lsum (seq 0 (length (ab_r b iel))) (fun ir => lsum (seq 0 (length ru)) (fun ia =>
    F (di_raw_point b Rh (plane ru) iel ir ia) (spot Rh (nth ir (ab_r b iel) 0) (fst (nth ia ru (0, 0))))))).
(** A consistent basis, whatever the angular rule *)
Definition di_basis_ok (b : abasis) (Rh : R) : Prop := pm_grid_ok b Rh [] /\ forall c, -1 < c < 1 -> harmonics_ok b c.
(** Radial weights are not negative. *)
Definition weights_ok (b : abasis) : Prop := forall iel w, (iel < get_nelem (ab_fe b))%nat -> In w (ab_wrad b iel) -> 0 <= w.
(** A finite value counts, an infinity or NaN is left out. *)
Definition finite (v : fp) : R := match v with Fin x => x | _ => 0 end.

(** How many orbitals of angular momentum l, with room for two electrons for each m,
    hold n electrons *)
Definition holds (l : nat) (n k : Z) : Prop := (2 * (2 * Z.of_nat l + 1) * (k - 1) < n <= 2 * (2 * Z.of_nat l + 1) * k)%Z.
(** The atom a probe at a nucleus looks at *)
Definition side_of (g : tqgrid) (p : probe) : side := match p with PROBE_RIGHT => g_rh g | _ => g_lh g end.
(** Examples: Legendre functions for l = 1, m = 0 and for l = 0, and a helium atom *)
Definition wPl (l m : nat) (t : R) : R := if (Nat.eqb l 1 && Nat.eqb m 0)%bool then sqrt (3 / (4 * PI)) * cos t else sqrt (1 / (4 * PI)).
Definition wside : side := mkSide (fun C r => Ok (map (fun a => INR (S a) * exp (- r)) (seq 0 (dcols C)))) [mkD 2 2 (fun i j => if Nat.eqb i j then 1 else 0)] [2%Z].
Definition wgrid : tqgrid := mkGrid wside no_side.
