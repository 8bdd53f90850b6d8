(** Model of the nuclear models and model atoms of /repo/libhelfemqc/src and
    /repo/src/general/model_potential.cpp, and of the normalised radial orbitals of
    /repo/src/general/lcao.cpp.  Arithmetic is exact; division by a zero radius gives an
    infinity or a NaN. *)
Require Import Reals List Arith Bool ZArith.
Require Import Verif.Prelude Verif.TabModel.
Import ListNotations.
Open Scope R_scope.

(** IEEE division of a number by a nonnegative radius. *)
Definition fdiv (z r : R) : fp :=
  if Reqb r 0 then (if Rltb z 0 then NInf else if Rltb 0 z then PInf else NaN) else Fin (z / r).
(** The same with a charge that may be a NaN. *)
Definition fpdiv (c : fp) (r : R) : fp := match c with Fin c => fdiv (- c) r | _ => NaN end.

(** std::numeric_limits<T>::epsilon() and std::erf. *)
Section Potential.
Variables (eps : R) (erf : R -> R).

(** PointNucleus.cpp:29-31. *)
Definition V_point (Z r : R) : fp := fdiv (- Z) r.

(** HollowNucleus.cpp:29-35; HollowNucleus.h:38-41. *)
Definition V_hollow (Z R0 r : R) : fp := if Rleb R0 r then fdiv (- Z) r else fdiv (- Z) R0.
Definition break_at (R0 a b : R) : list R := if (Rltb a R0 && Rltb R0 b)%bool then [R0] else [].

(** SphericalNucleus.cpp:21-39. *)
Definition sphere_radius (Rrms : R) : R := sqrt (5 / 3) * Rrms.
Definition V_sphere (Z R0 r : R) : fp :=
  if Rleb R0 r then fdiv (- Z) r else Fin (- Z / (2 * R0) * (3 - (r / R0) ^ 2)).

(** GaussianNucleus.cpp:23-54; [Rrms] zero is not modelled. *)
Definition gauss_mu (Rrms : R) : R := sqrt (3 / 2) / Rrms.
Definition gauss_cut (mu : R) : R := Rpower (42 * eps) (1 / 6) / mu.
Definition V_gauss (Z mu r : R) : fp :=
  if Rleb r (gauss_cut mu) then
    let mur2 := (mu * r) ^ 2 in
    Fin (- Z * (2 / sqrt PI) * mu * (1 + (- 1 / 3 + (1 / 10 - 1 / 42 * mur2) * mur2) * mur2))
  else fdiv (- Z * erf (mu * r)) r.

(** RegularizedNucleus.cpp:30-33. *)
Definition phi (a b r : R) : R :=
  let h := - r * erf (a * r) - b * exp (- (a * r) ^ 2) in exp h / sqrt PI.
(** RegularizedNucleus.cpp:69-93, for the [N] radii and weights of radial_chebyshev. *)
Definition phi_normalization (N : nat) (rad wgt : vec) (a b : R) : R :=
  4 * PI * sum N (fun i => (rad i * phi a b (rad i)) * (rad i * phi a b (rad i)) * wgt i).

(** RegularizedNucleus.cpp:172-189. *)
Definition V_analytic (a b r : R) : R :=
  let t1 := a * a in
  let t3 := r * r in
  let t5 := exp (t3 * t1) in
  let t6 := 1 / t5 in
  let t8 := erf (a * r) in
  let t13 := sqrt PI in
  let t14 := 1 / t13 in
  let t20 := t14 * t3 in
  let t21 := t1 * a in
  let t28 := t1 * t1 in
  let t29 := t28 * t3 in
  let t36 := t5 * t5 in
  let t37 := 1 / t36 in
  let t38 := b * b in
  let t51 := t8 * t8 in
  - 2 * b * t8 * t6 * t1 * r + 2 * t8 * t6 * a * t14 * r + 2 * t6 * t21 * t20 - 4 * t6 * a * t14
  - 2 * b * t6 * t29 + 3 * b * t6 * t1 + 2 * t38 * t37 * t29 - 4 * b * t37 * t21 * t20
  + 2 * t37 * t1 / PI * t3 + t51 / 2 - 1 / 2 - t8 / r.
(** RegularizedNucleus.cpp:192-203. *)
Definition V_taylor (a b r : R) : R :=
  let t1 := r * r in
  let t2 := t1 * t1 in
  let t3 := t2 * t1 in
  let t6 := a * a in
  let t7 := t6 * t6 in
  let t8 := t7 * t7 in
  let t13 := t7 * t6 in
  let t24 := sqrt PI in
  let t25 := t24 * PI in
  4 / t25 * (t25 * (- 1 / 8 + t8 * (b - 3 / 8) * t3 * b - t13 * b * (b - 7 / 8) * t2
      + t7 * (b - 5 / 2) * b * t1 / 2 + 3 / 4 * b * t6)
    - 44 / 15 * a * (t24 * (- 47 / 66 * t3 * t7 * a + 10 / 11 * t2 * t6 * a - 15 / 22 * t1 * a)
      + (45 / 88 + t13 * (b - 45 / 308) * t3 - 25 / 22 * t7 * t2 * (b - 63 / 200)
         + 15 / 22 * t6 * (b - 5 / 6) * t1) * PI)).
(** RegularizedNucleus.cpp:206-216. *)
Definition V_regularized (Z a b r : R) : R :=
  let Zr := Z * r in
  let val := if Rleb Zr (cbrt eps) then V_taylor a b Zr else V_analytic a b Zr in
  Z ^ 2 * val.
End Potential.

(** RegularizedNucleus.cpp:96-139: find_b; [nrm] is phi_normalization at the given a. *)
Section FindB.
Variables (eps : R) (nrm : R -> R).
(** lines 103-108: 10^x of evenly spaced x from -3 to 1. *)
Definition npts : nat := 1000.
Definition b_grid (ip : nat) : R := exp ((- 3 + INR ip * (4 / INR (npts - 1))) * ln 10).
(** lines 113-115: the first of the smallest entries. *)
Fixpoint argmin (d : nat -> R) (n : nat) : nat :=
  match n with
  | O => O
  | S O => O
  | S m => let k := argmin d m in if Rltb (d m) (d k) then m else k
  end.
Definition b_entry (i : Z) : res R := if ((0 <=? i) && (i <? Z.of_nat npts))%Z%bool then Ok (b_grid (Z.to_nat i)) else UB.
(** lines 124-138. *)
Fixpoint b_loop (fuel : nat) (l r : R) : res R :=
  match fuel with
  | O => OutOfFuel
  | S f =>
      let m := (l + r) / 2 in
      let bnorm := nrm m in
      if (Reqb bnorm 1 || Rleb (Rabs (r - l)) (10 * eps * m))%bool then Ok m
      else if Rltb 1 bnorm then b_loop f m r
      else b_loop f l m
  end.
Definition find_b (fuel : nat) : res R :=
  let idx := Z.of_nat (argmin (fun ip => Rabs (nrm (b_grid ip) - 1)) npts) in
  bind (b_entry (idx + 1)) (fun b_right =>
  if Rltb 1 (nrm b_right) then Throw LogicError
  else
    bind (b_entry (idx - 1)) (fun b_left =>
    if Rltb (nrm b_left) 1 then Throw LogicError else b_loop fuel b_left b_right)).
End FindB.

(** model_potential.h:17-24: nuclear_model_t, and any other value of the enumeration's
    underlying type. *)
Inductive model := POINT_NUCLEUS | GAUSSIAN_NUCLEUS | SPHERICAL_NUCLEUS | HOLLOW_NUCLEUS | REGULARIZED_NUCLEUS | NOSUCH_NUCLEUS | Other (i : nat).
Inductive nucleus := Point (Z : R) | Gaussian (Z mu : R) | Spherical (Z R0 : R) | Hollow (Z R0 : R) | Regularized (Z a b : R).
(** model_potential.cpp:13-37: get_nuclear_model; [norm a] is phi_normalization. *)
Definition get_nuclear_model (eps : R) (norm : R -> R -> R) (fuel : nat) (m : model) (Z : Z) (Rrms : R) : res nucleus :=
  match m with
  | POINT_NUCLEUS => Ok (Point (IZR Z))
  | GAUSSIAN_NUCLEUS => Ok (Gaussian (IZR Z) (gauss_mu Rrms))
  | HOLLOW_NUCLEUS => Ok (Hollow (IZR Z) Rrms)
  | SPHERICAL_NUCLEUS => Ok (Spherical (IZR Z) (sphere_radius Rrms))
  | REGULARIZED_NUCLEUS => bind (find_b eps (norm Rrms) fuel) (fun b => Ok (Regularized (IZR Z) Rrms b))
  | NOSUCH_NUCLEUS => Throw LogicError
  | Other _ => Throw LogicError
  end.
(** V and breakpoints of each class. *)
Definition V_nucleus (eps : R) (erf : R -> R) (n : nucleus) (r : R) : fp :=
  match n with
  | Point Z => V_point Z r
  | Gaussian Z mu => V_gauss eps erf Z mu r
  | Spherical Z R0 => V_sphere Z R0 r
  | Hollow Z R0 => V_hollow Z R0 r
  | Regularized Z a b => Fin (V_regularized eps erf Z a b r)
  end.
(** ModelPotential.h:50-53, HollowNucleus.h:38-41, SphericalNucleus.h:39-42. *)
Definition breakpoints (n : nucleus) (a b : R) : list R :=
  match n with
  | Spherical _ R0 => break_at R0 a b
  | Hollow _ R0 => break_at R0 a b
  | _ => []
  end.

(** model_potential.cpp:45-78: TFAtom, GSZAtom and SAPAtom; the table of the last is an
    argument. *)
Definition V_TFAtom (Z : Z) (r : R) : fp := fpdiv (Z_thomasfermi r Z) r.
Definition V_GSZAtom (Z : Z) (r : R) : res fp := bind (Z_GSZ_element r Z) (fun c => Ok (fpdiv c r)).
Definition V_SAPAtom (nelem nrad ord : nat) (tab : nat -> nat -> R) (fuel : nat) (Z : Z) (r : R) : res fp :=
  bind (sap_effective_charge nelem nrad ord tab fuel Z (Fin r)) (fun c => Ok (fdiv (- c) r)).
(** model_potential.cpp:91-110: SAPFEAtom; [atom] is the tabulated atom's effective charge
    and element boundaries, absent for Z = 0. *)
Definition V_SAPFEAtom (atom : option ((R -> R) * list R)) (r : R) : fp :=
  match atom with None => Fin 0 | Some (charge, _) => fdiv (- charge r) r end.
Definition breaks_SAPFEAtom (atom : option ((R -> R) * list R)) (a b : R) : list R :=
  match atom with None => [] | Some (_, bval) => filter (fun x => (Rltb a x && Rltb x b)%bool) bval end.

(** lcao.cpp:20-31. *)
Fixpoint double_factorial (n : nat) : R :=
  match n with S (S m) => INR n * double_factorial m | _ => 1 end.
Definition factorial (n : nat) : R := fold_left (fun v k => v * INR k) (seq 2 (n - 1)) 1.
(** lcao.cpp:34-36 and 47-49. *)
Definition radial_GTO (r : R) (l : nat) (alpha : R) : R :=
  2 ^ (l + 2) * Rpower alpha (INR (2 * l + 3) / 4) * r ^ l * exp (- alpha * r * r)
  / (Rpower (2 * PI) (1 / 4) * sqrt (double_factorial (2 * l + 1))).
Definition radial_STO (r : R) (l : nat) (zeta : R) : R :=
  Rpower (2 * zeta) (INR l + 3 / 2) / sqrt (factorial (2 * l + 2)) * r ^ l * exp (- zeta * r).
