(** Properties of the quadrature for orbitals with a definite m (C97-C99). *)
Require Import Reals ZArith List Bool Arith.
Require Import Verif.Prelude Verif.FEModel Verif.FESpec Verif.AngModel Verif.JKModel Verif.DftModel Verif.DftSpec Verif.DftWit Verif.DdfModel Verif.DdfSpec Verif.QuadModel Verif.PmModel Verif.PmSpec Verif.PmDrv Verif.PmMore Verif.PmPhi.
Import ListNotations.
Local Open Scope R_scope.

(** The energy, the number of electrons, the kinetic energy and the Fock matrix are the sums over the points
    of the half plane phi = 0, weighted by 2 pi, for the part of the density that does not mix m; elements of
    the Fock matrix between different m are zero.  The shortcut for densities that are the same for m and -m
    changes nothing for such densities.  Functionals of the Laplacian are included. *)
Theorem C97_restricted : forall lib b Rh ru fn, pm_grid_ok b Rh ru -> functional_ok lib fn -> (0 < di_nbf b)%nat ->
  forall absm P, is_density (di_nbf b) P -> (absm = true -> absm_symmetric b (dent P)) ->
  exists H, pm_eval_Fxc absm lib b Rh ru fn P
      = Ok (H, (spec_exc1 lib fn (di_nbf b) (mdiag b (dent P)) (di_points b Rh (plane ru)),
                spec_nel (di_nbf b) (mdiag b (dent P)) (di_points b Rh (plane ru)),
                if uses fn (is_tau lib) then spec_ekin (di_nbf b) (mdiag b (dent P)) (di_points b Rh (plane ru)) else 0)) /\
    is_mat H (di_nbf b) (di_nbf b) (mdiag b (spec_fock1 lib fn (di_nbf b) (mdiag b (dent P)) (di_points b Rh (plane ru)))).
Proof. exact pm_eval_Fxc_ok. Qed.
Print Assumptions C97_restricted.
Theorem C97_unrestricted : forall lib b Rh ru fn, pm_grid_ok b Rh ru -> functional_ok lib fn -> (0 < di_nbf b)%nat ->
  forall absm Pa Pb beta, is_density (di_nbf b) Pa -> is_density (di_nbf b) Pb ->
  exists Ha Hb, pm_eval_Fxc_pol absm lib b Rh ru fn Pa Pb beta
      = Ok (Ha, Hb, (spec_exc2 lib fn (di_nbf b) (mdiag b (dent Pa)) (mdiag b (dent Pb)) (di_points b Rh (plane ru)),
                spec_nel (di_nbf b) (mdiag b (dent Pa)) (di_points b Rh (plane ru)) + spec_nel (di_nbf b) (mdiag b (dent Pb)) (di_points b Rh (plane ru)),
                if uses fn (is_tau lib) then spec_ekin (di_nbf b) (mdiag b (dent Pa)) (di_points b Rh (plane ru)) + spec_ekin (di_nbf b) (mdiag b (dent Pb)) (di_points b Rh (plane ru)) else 0)) /\
    is_mat Ha (di_nbf b) (di_nbf b) (mdiag b (spec_fock2 lib fn (di_nbf b) (mdiag b (dent Pa)) (mdiag b (dent Pb)) 0 (di_points b Rh (plane ru)))) /\
    is_mat Hb (di_nbf b) (di_nbf b)
      (if beta then mdiag b (spec_fock2 lib fn (di_nbf b) (mdiag b (dent Pa)) (mdiag b (dent Pb)) 1 (di_points b Rh (plane ru))) else fun _ _ => 0).
Proof. exact pm_eval_Fxc_pol_ok. Qed.
Print Assumptions C97_unrestricted.
(** The condition on the shells holds for every list of maximal values of l. *)
Theorem C97_shells : forall lmax, shells_ok (lm_to_l_m lmax).
Proof. exact lm_shells_ok. Qed.
Print Assumptions C97_shells.
(** An empty density and a density of another size are refused on every grid that has a point. *)
Theorem C97_empty : forall b Rh ru, pm_grid_ok b Rh ru -> (exists iel, (iel < get_nelem (ab_fe b))%nat /\ ab_r b iel <> []) ->
  forall lib fn absm, functional_ok lib fn ->
  (forall P, no_entries P -> pm_eval_Fxc absm lib b Rh ru fn P = Throw RuntimeError) /\
  (forall Pa Pb beta, no_entries Pa \/ no_entries Pb -> pm_eval_Fxc_pol absm lib b Rh ru fn Pa Pb beta = Throw RuntimeError).
Proof. exact pm_empty. Qed.
Print Assumptions C97_empty.
Theorem C97_size : forall b Rh ru, pm_grid_ok b Rh ru -> (exists iel, (iel < get_nelem (ab_fe b))%nat /\ ab_r b iel <> []) ->
  forall lib fn absm, functional_ok lib fn ->
  (forall P, ~ no_entries P -> wrong_size b P -> pm_eval_Fxc absm lib b Rh ru fn P = Throw LogicError) /\
  (forall Pa Pb beta, ~ no_entries Pa -> ~ no_entries Pb -> wrong_size b Pa \/ wrong_size b Pb ->
     pm_eval_Fxc_pol absm lib b Rh ru fn Pa Pb beta = Throw LogicError).
Proof. exact pm_size. Qed.
Print Assumptions C97_size.

(** The Fock matrix is symmetric, and it is the derivative of the reported energy with respect to the density
    matrix, if what libxc returns as derivatives are derivatives. *)
Theorem C98_restricted : forall b Rh ru, pm_grid_ok b Rh ru -> (0 < di_nbf b)%nat -> forall lib fn absm P D H s E, functional_ok lib fn ->
  is_density (di_nbf b) P -> is_density (di_nbf b) D -> (absm = true -> absm_symmetric b (dent P) /\ absm_symmetric b (dent D)) ->
  (forall q ip, In q (di_points b Rh (plane ru)) -> In ip (parts fn) ->
     xc_derivatives lib false (fn_thr fn) ip (args1 (di_nbf b) (mdiag b (dent P)) q)) ->
  pm_eval_Fxc absm lib b Rh ru fn P = Ok (H, s) ->
  (forall t, exists H N K, pm_eval_Fxc absm lib b Rh ru fn (shifted P D t) = Ok (H, (E t, N, K))) ->
  sym_mat (di_nbf b) (dent H) /\ derivable_pt_lim E 0 (contract (di_nbf b) (dent D) (dent H)).
Proof. exact pm_energy_gradient1. Qed.
Print Assumptions C98_restricted.
Theorem C98_unrestricted : forall b Rh ru, pm_grid_ok b Rh ru -> (0 < di_nbf b)%nat -> forall lib fn absm Pa Pb Da Db Ha Hb s E, functional_ok lib fn ->
  is_density (di_nbf b) Pa -> is_density (di_nbf b) Pb -> is_density (di_nbf b) Da -> is_density (di_nbf b) Db ->
  (forall q ip, In q (di_points b Rh (plane ru)) -> In ip (parts fn) ->
     xc_derivatives lib true (fn_thr fn) ip (args2 (di_nbf b) (mdiag b (dent Pa)) (mdiag b (dent Pb)) q)) ->
  pm_eval_Fxc_pol absm lib b Rh ru fn Pa Pb true = Ok (Ha, Hb, s) ->
  (forall t, exists Ha Hb N K, pm_eval_Fxc_pol absm lib b Rh ru fn (shifted Pa Da t) (shifted Pb Db t) true = Ok (Ha, Hb, (E t, N, K))) ->
  sym_mat (di_nbf b) (dent Ha) /\ sym_mat (di_nbf b) (dent Hb) /\
  derivable_pt_lim E 0 (contract (di_nbf b) (dent Da) (dent Ha) + contract (di_nbf b) (dent Db) (dent Hb)).
Proof. exact pm_energy_gradient2. Qed.
Print Assumptions C98_unrestricted.
(** A restricted calculation is an unrestricted one with half of the density for each spin. *)
Theorem C98_closed_shell : forall b Rh ru, pm_grid_ok b Rh ru -> (0 < di_nbf b)%nat -> forall lib fn absm P H Ha Hb s s', functional_ok lib fn ->
  is_density (di_nbf b) P -> (absm = true -> absm_symmetric b (dent P)) ->
  (forall ip, In ip (parts fn) -> xc_spin_symmetric lib (fn_thr fn) ip) ->
  pm_eval_Fxc absm lib b Rh ru fn P = Ok (H, s) -> pm_eval_Fxc_pol absm lib b Rh ru fn (half P) (half P) true = Ok (Ha, Hb, s') ->
  s' = s /\ is_mat Ha (di_nbf b) (di_nbf b) (dent H) /\ is_mat Hb (di_nbf b) (di_nbf b) (dent H).
Proof. exact pm_closed_shell. Qed.
Print Assumptions C98_closed_shell.
(** For densities of orbitals with occupations that are not negative libxc is asked only for physical
    arguments. *)
Theorem C98_physical1 : forall b Rh ru, pm_grid_ok b Rh ru -> (0 < di_nbf b)%nat -> forall lib lib' fn absm no o C P H H' s s', functional_ok lib fn ->
  is_density (di_nbf b) P -> (absm = true -> absm_symmetric b (dent P)) ->
  (forall k, (k < no)%nat -> 0 <= o k) -> orbital_density (di_nbf b) no o C (dent P) -> agree false physical1 lib lib' ->
  pm_eval_Fxc absm lib b Rh ru fn P = Ok (H, s) -> pm_eval_Fxc absm lib' b Rh ru fn P = Ok (H', s') ->
  s = s' /\ is_mat H' (di_nbf b) (di_nbf b) (dent H).
Proof. exact pm_physical1. Qed.
Print Assumptions C98_physical1.
Theorem C98_physical2 : forall b Rh ru, pm_grid_ok b Rh ru -> (0 < di_nbf b)%nat ->
  forall lib lib' fn absm no o C Pa no' o' C' Pb beta Ha Hb Ha' Hb' s s', functional_ok lib fn ->
  is_density (di_nbf b) Pa -> is_density (di_nbf b) Pb ->
  (forall k, (k < no)%nat -> 0 <= o k) -> orbital_density (di_nbf b) no o C (dent Pa) ->
  (forall k, (k < no')%nat -> 0 <= o' k) -> orbital_density (di_nbf b) no' o' C' (dent Pb) -> agree true physical2 lib lib' ->
  pm_eval_Fxc_pol absm lib b Rh ru fn Pa Pb beta = Ok (Ha, Hb, s) -> pm_eval_Fxc_pol absm lib' b Rh ru fn Pa Pb beta = Ok (Ha', Hb', s') ->
  s = s' /\ is_mat Ha' (di_nbf b) (di_nbf b) (dent Ha) /\ is_mat Hb' (di_nbf b) (di_nbf b) (dent Hb).
Proof. exact pm_physical2. Qed.
Print Assumptions C98_physical2.

(** For a density that does not mix m, the grid with analytic phi integration and the three-dimensional grid
    with the same nodes in nu and more points around the axis than the largest difference of m give the same
    energy, numbers and Fock matrix, for functionals both accept. *)
Theorem C99_restricted : forall b Rh ru nphi, pm_grid_ok b Rh ru -> turning b -> enough_points b nphi -> (0 < di_nbf b)%nat ->
  forall lib fn absm P H s, functional_ok lib fn -> uses fn (is_lapl lib) = false -> is_density (di_nbf b) P ->
  m_diagonal b (dent P) -> (absm = true -> absm_symmetric b (dent P)) -> pm_eval_Fxc absm lib b Rh ru fn P = Ok (H, s) ->
  exists H', di_eval_Fxc lib b Rh (around ru nphi) fn P = Ok (H', s) /\ is_mat H' (di_nbf b) (di_nbf b) (dent H).
Proof. exact grids_agree1. Qed.
Print Assumptions C99_restricted.
Theorem C99_unrestricted : forall b Rh ru nphi, pm_grid_ok b Rh ru -> turning b -> enough_points b nphi -> (0 < di_nbf b)%nat ->
  forall lib fn absm Pa Pb beta Ha Hb s, functional_ok lib fn -> uses fn (is_lapl lib) = false ->
  is_density (di_nbf b) Pa -> is_density (di_nbf b) Pb -> m_diagonal b (dent Pa) -> m_diagonal b (dent Pb) ->
  pm_eval_Fxc_pol absm lib b Rh ru fn Pa Pb beta = Ok (Ha, Hb, s) ->
  exists Ha' Hb', di_eval_Fxc_pol lib b Rh (around ru nphi) fn Pa Pb beta = Ok (Ha', Hb', s) /\
    is_mat Ha' (di_nbf b) (di_nbf b) (dent Ha) /\ is_mat Hb' (di_nbf b) (di_nbf b) (dent Hb).
Proof. exact grids_agree2. Qed.
Print Assumptions C99_unrestricted.
(** The points around the axis are those of the compound rule of the three-dimensional grid. *)
Theorem C99_rule : forall ru nphi, (0 < nphi)%nat ->
  let '(cth, phi, w) := compound_rule (length ru) (fun i => fst (nth i ru (0, 0))) (fun i => snd (nth i ru (0, 0))) nphi in
  around ru nphi = map (fun k => (cth k, phi k, w k)) (seq 0 (length ru * nphi)).
Proof. exact around_rule. Qed.
Print Assumptions C99_rule.

(** Three elements, two sigma shells and both pi shells, twelve functions of which two are removed, two points
    per radius; a GGA with a meta-GGA, and a functional of the Laplacian; a density with the symmetry of the
    shortcut. *)
Example C97_grid : pm_grid_ok wpm 1 wnu.
Proof. exact wpm_ok. Qed.
Example C97_functions : at_nbf wpm = 12%nat /\ di_nbf wpm = 10%nat /\ map (fn_m wpm) (seq 0 10) = [0; 0; 0; 0; 0; 0; 1; 1; -1; -1]%Z.
Proof. exact wpm_n. Qed.
Example C97_points : exists iel, (iel < get_nelem (ab_fe wpm))%nat /\ ab_r wpm iel <> [].
Proof. exact wpm_point. Qed.
Example C97_functionals : functional_ok wlib wfn /\ functional_ok wlib wfn_lapl /\ uses wfn_lapl (is_lapl wlib) = true.
Proof. exact (conj wfn_ok (conj wfn_lapl_ok eq_refl)). Qed.
Example C97_density : is_density 10 wpmP /\ absm_symmetric wpm (dent wpmP).
Proof. exact (conj wpmP_ok wpmP_symmetric). Qed.
Example C98_energies1 : forall absm fn P D, functional_ok wlib fn -> is_density 10 P -> is_density 10 D ->
  (absm = true -> absm_symmetric wpm (dent P) /\ absm_symmetric wpm (dent D)) ->
  exists E, forall t, exists H N K, pm_eval_Fxc absm wlib wpm 1 wnu fn (shifted P D t) = Ok (H, (E t, N, K)).
Proof. exact wpmE1. Qed.
Example C98_energies2 : forall absm fn Pa Pb Da Db, functional_ok wlib fn -> is_density 10 Pa -> is_density 10 Pb -> is_density 10 Da -> is_density 10 Db ->
  exists E, forall t, exists Ha Hb N K, pm_eval_Fxc_pol absm wlib wpm 1 wnu fn (shifted Pa Da t) (shifted Pb Db t) true = Ok (Ha, Hb, (E t, N, K)).
Proof. exact wpmE2. Qed.
Example C98_orbitals : orbital_density 10 1 (fun _ => 1) (fun i _ => wpmg i) (dent wpmP).
Proof. exact wpmP_orbitals. Qed.
Example C99_basis : turning wpm /\ enough_points wpm 3.
Proof. exact (conj wpm_turning wpm_enough). Qed.
Example C99_density : is_density 10 wpmD /\ m_diagonal wpm (dent wpmD) /\ absm_symmetric wpm (dent wpmD).
Proof. exact wpmD_ok. Qed.
