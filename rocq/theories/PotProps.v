(** Model potentials and radial orbitals: C51, C77-C82. *)
Require Import Reals List Arith Bool ZArith.
Require Import Verif.Prelude Verif.SadSpec Verif.TabModel Verif.TabSpec Verif.PotModel Verif.PotSpec Verif.PotNuc Verif.PotGauss Verif.PotReg Verif.PotFind Verif.PotOrb Verif.PotWit.
Import ListNotations.
Open Scope R_scope.

(* ------------------------------------------------------------------ *)
(** * C51: hollow and spherical nuclei *)

(** Finite everywhere, continuous, equal to the point nucleus outside, bounded below by the
    value at the origin and by the point nucleus. *)
Theorem C51_hollow : forall Z R0, 0 < R0 -> 0 <= Z -> exists f,
  (forall r, 0 <= r -> V_hollow Z R0 r = Fin (f r)) /\ continuity f /\
  (forall r, 0 < r -> R0 <= r -> V_hollow Z R0 r = V_point Z r) /\
  forall r, 0 < r -> f 0 <= f r <= 0 /\ - Z / r <= f r.
Proof. exact hollow_all. Qed.
Print Assumptions C51_hollow.
Theorem C51_sphere : forall Z R0, 0 < R0 -> 0 <= Z -> exists f,
  (forall r, 0 <= r -> V_sphere Z R0 r = Fin (f r)) /\ continuity f /\
  (forall r, 0 < r -> R0 <= r -> V_sphere Z R0 r = V_point Z r) /\
  forall r, 0 < r -> f 0 <= f r <= 0 /\ - Z / r <= f r.
Proof. exact sphere_all. Qed.
Print Assumptions C51_sphere.
Theorem C51_point : forall Z r, 0 < r -> V_point Z r = Fin (- Z / r).
Proof. exact point_values. Qed.
Print Assumptions C51_point.
Theorem C51_origin : forall Z R0, 0 < R0 -> V_hollow Z R0 0 = Fin (- Z / R0) /\ V_sphere Z R0 0 = Fin (- (3 * Z) / (2 * R0)).
Proof. exact origin_values. Qed.
Print Assumptions C51_origin.
(** The reported break points are exactly the radii inside the interval at which the formula
    changes. *)
Theorem C51_breakpoints : forall n a b x, In x (breakpoints n a b) <->
  a < x < b /\ match n with Spherical _ R0 => x = R0 | Hollow _ R0 => x = R0 | _ => False end.
Proof. exact breaks_ok. Qed.
Print Assumptions C51_breakpoints.
(** The factory: each model, and an exception for anything else. *)
Theorem C51_factory : forall eps norm fuel Z Rrms,
  get_nuclear_model eps norm fuel POINT_NUCLEUS Z Rrms = Ok (Point (IZR Z)) /\
  get_nuclear_model eps norm fuel GAUSSIAN_NUCLEUS Z Rrms = Ok (Gaussian (IZR Z) (gauss_mu Rrms)) /\
  get_nuclear_model eps norm fuel SPHERICAL_NUCLEUS Z Rrms = Ok (Spherical (IZR Z) (sphere_radius Rrms)) /\
  get_nuclear_model eps norm fuel HOLLOW_NUCLEUS Z Rrms = Ok (Hollow (IZR Z) Rrms) /\
  (forall n, get_nuclear_model eps norm fuel REGULARIZED_NUCLEUS Z Rrms = Ok n <-> exists b, find_b eps (norm Rrms) fuel = Ok b /\ n = Regularized (IZR Z) Rrms b) /\
  get_nuclear_model eps norm fuel NOSUCH_NUCLEUS Z Rrms = Throw LogicError /\
  forall i, get_nuclear_model eps norm fuel (Other i) Z Rrms = Throw LogicError.
Proof. exact factory. Qed.
Print Assumptions C51_factory.
Example C51_case : V_hollow 2 1 (/ 2) = Fin (- 2) /\ V_sphere 2 1 (/ 2) = Fin (- 11 / 4) /\ V_point 2 (/ 2) = Fin (- 4) /\
  V_hollow 2 1 2 = Fin (- 1) /\ V_sphere 2 1 2 = Fin (- 1) /\ breakpoints (Spherical 2 1) 0 3 = [1] /\ breakpoints (Hollow 2 1) 1 3 = [].
Proof. exact nuclei_case. Qed.

(* ------------------------------------------------------------------ *)
(** * C77: finite nuclei are potentials of charge distributions *)

(** The uniform ball has unit charge and the requested rms radius, and the potential is that
    of the charge inside plus that of the shells outside. *)
Theorem C77_sphere : forall Z Rrms, 0 < Rrms -> let R0 := sphere_radius Rrms in
  0 < R0 /\
  is_int (fun s => 4 * PI * (s * s) * ball_density R0) 0 R0 1 /\
  is_int (fun s => 4 * PI * (s * s) * (s * s) * ball_density R0) 0 R0 (Rrms ^ 2) /\
  forall r, 0 < r <= R0 -> exists q w,
    is_int (fun s => 4 * PI * (s * s) * ball_density R0) 0 r q /\
    is_int (fun s => 4 * PI * s * ball_density R0) r R0 w /\
    V_sphere Z R0 r = Fin (- Z * (q / r + w)).
Proof. exact sphere_electrostatic. Qed.
Print Assumptions C77_sphere.
(** The Gaussian, exactly beyond the cutoff radius and up to the neglected term before it. *)
Theorem C77_gaussian : forall erf, is_erf erf -> forall eps Z Rrms, 0 < eps <= / 42 -> 0 <= Z -> 0 < Rrms -> let mu := gauss_mu Rrms in
  0 < mu /\
  is_improper (fun s => 4 * PI * (s * s) * gauss_density mu s) 0 1 /\
  is_improper (fun s => 4 * PI * (s * s) * (s * s) * gauss_density mu s) 0 (Rrms ^ 2) /\
  forall r, 0 < r -> exists q w v,
    is_int (fun s => 4 * PI * (s * s) * gauss_density mu s) 0 r q /\
    is_improper (fun s => 4 * PI * s * gauss_density mu s) r w /\
    V_gauss eps erf Z mu r = Fin v /\
    (gauss_cut eps mu < r -> v = - Z * (q / r + w)) /\
    - Z * (q / r + w) <= v <= - Z * (q / r + w) + Z * (2 / sqrt PI) * mu * ((mu * r) ^ 8 / 216).
Proof. exact gauss_electrostatic. Qed.
Print Assumptions C77_gaussian.
Example C77_case : exists erf, is_erf erf /\ 0 < / 1000 <= / 42 /\ 0 < gauss_mu 2 /\ exists r, 0 < r /\ gauss_cut (/ 1000) (gauss_mu 2) < r.
Proof. exact gauss_case. Qed.

(* ------------------------------------------------------------------ *)
(** * C78: the Gaussian nucleus near the origin *)

Theorem C78_gaussian : forall erf eps Z mu, is_erf erf -> 0 < eps <= / 42 -> 0 <= Z -> 0 < mu ->
  (gauss_cut eps mu * mu) ^ 6 = 42 * eps /\ V_gauss eps erf Z mu 0 = Fin (- Z * (2 / sqrt PI) * mu) /\
  forall r, 0 < r -> exists v, V_gauss eps erf Z mu r = Fin v /\
    (gauss_cut eps mu < r -> v = - Z * erf (mu * r) / r) /\
    - Z * erf (mu * r) / r <= v <= - Z * erf (mu * r) / r + Z * (2 / sqrt PI) * mu * ((mu * r) ^ 8 / 216) /\
    - Z / r <= v <= 0 /\ - Z * (2 / sqrt PI) * mu <= v.
Proof. exact gauss_all. Qed.
Print Assumptions C78_gaussian.
(** An error function exists. *)
Example C78_case : exists erf, is_erf erf.
Proof. exact (ex_intro _ _ erf_exists). Qed.

(* ------------------------------------------------------------------ *)
(** * C79: the regularized nucleus *)

(** Beyond the expansion radius r phi(Z r) solves the radial equation with energy -Z^2/2. *)
Theorem C79_ground_state : forall erf, is_erf erf -> forall eps Z a b r, 0 < Z -> 0 < r -> cbrt eps < Z * r ->
  exists u1 u2, slopes (fun s => Z * s * phi erf a b (Z * s)) r u1 u2 /\
    - / 2 * u2 + V_regularized eps erf Z a b r * (Z * r * phi erf a b (Z * r)) = - Z ^ 2 / 2 * (Z * r * phi erf a b (Z * r)).
Proof. exact regularized_ground. Qed.
Print Assumptions C79_ground_state.
(** It has no node. *)
Theorem C79_positive : forall erf a b r, 0 < phi erf a b r.
Proof. exact phi_pos. Qed.
Print Assumptions C79_positive.
(** The expansion used close to the nucleus agrees with the closed form to eighth order. *)
Theorem C79_taylor : forall erf, is_erf erf -> forall a b, 0 < a -> exists C, forall eps Z r, 0 < Z -> 0 < r -> Z * r <= 1 ->
  Rabs (V_regularized eps erf Z a b r - Z ^ 2 * V_analytic erf a b (Z * r)) <= C * Z ^ 2 * (Z * r) ^ 8.
Proof. exact regularized_taylor. Qed.
Print Assumptions C79_taylor.
Example C79_case : cbrt (/ 1000) = / 10 /\ cbrt (/ 1000) < 2 * 1.
Proof. exact reg_case. Qed.

(* ------------------------------------------------------------------ *)
(** * C80: the search for the normalised regularized nucleus *)

(** A returned parameter is within five epsilon of one at which the norm is exactly one. *)
Theorem C80_found : forall erf N rad wgt a eps fuel b, 0 < eps -> find_b eps (phi_normalization erf N rad wgt a) fuel = Ok b ->
  exists b0, phi_normalization erf N rad wgt a b0 = 1 /\ Rabs (b0 - b) <= 5 * eps * b.
Proof. exact norm_search. Qed.
Print Assumptions C80_found.
(** It lies in the grid, in a bracket of the target. *)
Theorem C80_bracket : forall eps nrm fuel b, find_b eps nrm fuel = Ok b ->
  exists l r, b_grid 0 <= l < r /\ r <= b_grid (npts - 1) /\ b = (l + r) / 2 /\ nrm r <= 1 <= nrm l /\ (nrm b = 1 \/ r - l <= 10 * eps * b).
Proof. exact find_sound. Qed.
Print Assumptions C80_bracket.
(** The search returns when the grid point closest to the target is not an end of the grid. *)
Theorem C80_total : forall erf N rad wgt a eps, 0 < eps -> (0 < N)%nat -> (forall i, (i < N)%nat -> 0 < rad i /\ 0 < wgt i) ->
  (exists i, (0 < i < npts - 1)%nat /\ forall j, (j < npts)%nat -> j <> i ->
     Rabs (phi_normalization erf N rad wgt a (b_grid i) - 1) < Rabs (phi_normalization erf N rad wgt a (b_grid j) - 1)) ->
  exists n0, forall fuel, (n0 <= fuel)%nat -> exists b, find_b eps (phi_normalization erf N rad wgt a) fuel = Ok b.
Proof. exact norm_found. Qed.
Print Assumptions C80_total.
(** When the target lies beyond an end of the grid the code reads outside the grid instead of
    throwing. *)
Theorem C80_ends_refuted : forall erf N rad wgt a eps fuel, (0 < N)%nat -> (forall i, (i < N)%nat -> 0 < rad i /\ 0 < wgt i) ->
  phi_normalization erf N rad wgt a (b_grid 0) <= 1 \/ 1 <= phi_normalization erf N rad wgt a (b_grid (npts - 1)) ->
  find_b eps (phi_normalization erf N rad wgt a) fuel = UB.
Proof. exact norm_ends. Qed.
Print Assumptions C80_ends_refuted.
Theorem C80_grid : b_grid 0 = / 1000 /\ b_grid (npts - 1) = 10.
Proof. exact grid_ends. Qed.
Print Assumptions C80_grid.
Example C80_case : exists n0, forall fuel, (n0 <= fuel)%nat -> exists b, find_b (/ 1000) (fun b => 2 - b) fuel = Ok b.
Proof. exact search_case. Qed.
Example C80_throws : forall fuel, find_b (/ 1000) (fun _ => 2) fuel = Throw LogicError.
Proof. exact search_throws. Qed.
Example C80_ends_case : exists rad wgt : vec, (forall i, (i < 1)%nat -> 0 < rad i /\ 0 < wgt i) /\ forall fuel, find_b (/ 1000) (phi_normalization PotErf.erf 1 rad wgt 1) fuel = UB.
Proof. exact ends_case. Qed.

(* ------------------------------------------------------------------ *)
(** * C81: radial orbitals *)

Theorem C81_slater : forall l zeta, 0 < zeta -> is_improper (fun r => radial_STO r l zeta * radial_STO r l zeta * (r * r)) 0 1.
Proof. exact sto_norm. Qed.
Print Assumptions C81_slater.
Theorem C81_gaussian : forall erf, is_erf erf -> forall l alpha, 0 < alpha -> is_improper (fun r => radial_GTO r l alpha * radial_GTO r l alpha * (r * r)) 0 1.
Proof. exact gto_norm. Qed.
Print Assumptions C81_gaussian.
Example C81_case : radial_STO 1 0 1 = 2 * exp (- 1) /\ double_factorial 5 = 15 /\ factorial 4 = 24.
Proof. exact orb_case. Qed.

(* ------------------------------------------------------------------ *)
(** * C82: model atoms *)

(** Attractive, never deeper than the bare nucleus; GSZ at least as deep as a singly charged
    ion. *)
Theorem C82_thomasfermi : forall Z r, (1 <= Z)%Z -> 0 < r -> exists v, V_TFAtom Z r = Fin v /\ - IZR Z / r <= v < 0.
Proof. exact tf_atom. Qed.
Print Assumptions C82_thomasfermi.
Theorem C82_gsz : forall Z r, (1 <= Z <= 102)%Z -> 0 < r -> exists v, V_GSZAtom Z r = Ok (Fin v) /\ - IZR Z / r <= v <= - 1 / r.
Proof. exact gsz_atom. Qed.
Print Assumptions C82_gsz.
Theorem C82_sap : forall nelem nrad tab Z fuel lo hi, rising nrad (tab 0%nat) -> (2 <= nrad)%nat -> (1 <= Z < Z.of_nat nelem)%Z -> (nrad <= fuel)%nat ->
  (forall i, (i < nrad)%nat -> lo <= tab (Z.to_nat Z) i <= hi) ->
  forall r, 0 < r -> exists v, V_SAPAtom nelem nrad LIP_ORDER tab fuel Z r = Ok (Fin v) /\ - hi / r <= v <= - lo / r.
Proof. exact sap_atom. Qed.
Print Assumptions C82_sap.
Theorem C82_sapfe : forall charge bval r, 0 < r -> V_SAPFEAtom (Some (charge, bval)) r = Fin (- charge r / r) /\ V_SAPFEAtom None r = Fin 0.
Proof. exact sapfe_atom. Qed.
Print Assumptions C82_sapfe.
Theorem C82_sapfe_breaks : forall charge bval a b x, In x (breaks_SAPFEAtom (Some (charge, bval)) a b) <-> In x bval /\ a < x < b.
Proof. exact sapfe_breaks. Qed.
Print Assumptions C82_sapfe_breaks.
(** At the origin itself they are minus infinity. *)
Theorem C82_origin : (forall Z, 0 < Z -> V_point Z 0 = NInf) /\ (forall Z, (1 <= Z)%Z -> V_TFAtom Z 0 = NInf) /\ forall Z, (1 <= Z <= 102)%Z -> V_GSZAtom Z 0 = Ok NInf.
Proof. exact at_origin. Qed.
Print Assumptions C82_origin.
Example C82_case : exists v, V_GSZAtom 10 1 = Ok (Fin v) /\ - 10 / 1 <= v <= - 1 / 1.
Proof. exact atom_case. Qed.
