(** Properties of the exchange-correlation quadrature of a diatomic molecule (C95, C96). *)
Require Import Reals ZArith List Bool Arith.
Require Import Verif.Prelude Verif.FEModel Verif.FESpec Verif.AngModel Verif.JKModel Verif.DftModel Verif.DftSpec Verif.DftWit Verif.DdfModel Verif.DdfSpec Verif.DdfDrv Verif.DdfMore.
Import ListNotations.
Local Open Scope R_scope.

(** For functionals that do not depend on the Laplacian, the energy, the number of electrons, the kinetic
    energy and the Fock matrix are the sums over the points of the grid in prolate spheroidal coordinates, in
    the basis of the functions that survive the condition at the axis. *)
Theorem C95_restricted : forall lib b Rh ru fn, di_grid_ok b Rh ru -> functional_ok lib fn -> uses fn (is_lapl lib) = false -> (0 < at_nbf b)%nat ->
  forall P, is_density (di_nbf b) P ->
  exists H, di_eval_Fxc lib b Rh ru fn P
      = Ok (H, (spec_exc1 lib fn (di_nbf b) (dent P) (di_points b Rh ru), spec_nel (di_nbf b) (dent P) (di_points b Rh ru),
                if uses fn (is_tau lib) then spec_ekin (di_nbf b) (dent P) (di_points b Rh ru) else 0)) /\
    is_mat H (di_nbf b) (di_nbf b) (spec_fock1 lib fn (di_nbf b) (dent P) (di_points b Rh ru)).
Proof. exact di_eval_Fxc_ok. Qed.
Print Assumptions C95_restricted.
Theorem C95_unrestricted : forall lib b Rh ru fn, di_grid_ok b Rh ru -> functional_ok lib fn -> uses fn (is_lapl lib) = false -> (0 < at_nbf b)%nat ->
  forall Pa Pb beta, is_density (di_nbf b) Pa -> is_density (di_nbf b) Pb ->
  exists Ha Hb, di_eval_Fxc_pol lib b Rh ru fn Pa Pb beta
      = Ok (Ha, Hb, (spec_exc2 lib fn (di_nbf b) (dent Pa) (dent Pb) (di_points b Rh ru),
                spec_nel (di_nbf b) (dent Pa) (di_points b Rh ru) + spec_nel (di_nbf b) (dent Pb) (di_points b Rh ru),
                if uses fn (is_tau lib) then spec_ekin (di_nbf b) (dent Pa) (di_points b Rh ru) + spec_ekin (di_nbf b) (dent Pb) (di_points b Rh ru) else 0)) /\
    is_mat Ha (di_nbf b) (di_nbf b) (spec_fock2 lib fn (di_nbf b) (dent Pa) (dent Pb) 0 (di_points b Rh ru)) /\
    is_mat Hb (di_nbf b) (di_nbf b) (if beta then spec_fock2 lib fn (di_nbf b) (dent Pa) (dent Pb) 1 (di_points b Rh ru) else fun _ _ => 0).
Proof. exact di_eval_Fxc_pol_ok. Qed.
Print Assumptions C95_unrestricted.
(** A functional that depends on the Laplacian is refused on every grid that has a point. *)
Theorem C95_laplacian : forall b Rh ru, di_grid_ok b Rh ru -> forall lib fn, functional_ok lib fn -> uses fn (is_lapl lib) = true ->
  (exists iel, (iel < get_nelem (ab_fe b))%nat /\ ab_r b iel <> []) ->
  (forall P, is_density (di_nbf b) P -> di_eval_Fxc lib b Rh ru fn P = Throw LogicError) /\
  (forall Pa Pb beta, is_density (di_nbf b) Pa -> is_density (di_nbf b) Pb -> di_eval_Fxc_pol lib b Rh ru fn Pa Pb beta = Throw LogicError).
Proof. exact di_laplacian. Qed.
Print Assumptions C95_laplacian.
(** A density of another size is refused. *)
Theorem C95_size : forall b Rh ru, di_grid_ok b Rh ru -> forall lib fn, functional_ok lib fn ->
  (forall P, drows P <> di_nbf b \/ dcols P <> di_nbf b -> di_eval_Fxc lib b Rh ru fn P = Throw LogicError) /\
  (forall Pa Pb beta, drows Pa <> di_nbf b \/ dcols Pa <> di_nbf b \/ drows Pb <> di_nbf b \/ dcols Pb <> di_nbf b ->
     di_eval_Fxc_pol lib b Rh ru fn Pa Pb beta = Throw LogicError).
Proof. exact di_size. Qed.
Print Assumptions C95_size.

(** The Fock matrix is symmetric, and it is the derivative of the reported energy with respect to the density
    matrix, if what libxc returns as derivatives are derivatives. *)
Theorem C96_restricted : forall b Rh ru, di_grid_ok b Rh ru -> (0 < at_nbf b)%nat -> forall lib fn P D H s E, functional_ok lib fn ->
  uses fn (is_lapl lib) = false -> is_density (di_nbf b) P -> is_density (di_nbf b) D ->
  (forall q ip, In q (di_points b Rh ru) -> In ip (parts fn) -> xc_derivatives lib false (fn_thr fn) ip (args1 (di_nbf b) (dent P) q)) ->
  di_eval_Fxc lib b Rh ru fn P = Ok (H, s) ->
  (forall t, exists H N K, di_eval_Fxc lib b Rh ru fn (shifted P D t) = Ok (H, (E t, N, K))) ->
  sym_mat (di_nbf b) (dent H) /\ derivable_pt_lim E 0 (contract (di_nbf b) (dent D) (dent H)).
Proof. exact di_gradient1. Qed.
Print Assumptions C96_restricted.
Theorem C96_unrestricted : forall b Rh ru, di_grid_ok b Rh ru -> (0 < at_nbf b)%nat -> forall lib fn Pa Pb Da Db Ha Hb s E, functional_ok lib fn ->
  uses fn (is_lapl lib) = false ->
  is_density (di_nbf b) Pa -> is_density (di_nbf b) Pb -> is_density (di_nbf b) Da -> is_density (di_nbf b) Db ->
  (forall q ip, In q (di_points b Rh ru) -> In ip (parts fn) -> xc_derivatives lib true (fn_thr fn) ip (args2 (di_nbf b) (dent Pa) (dent Pb) q)) ->
  di_eval_Fxc_pol lib b Rh ru fn Pa Pb true = Ok (Ha, Hb, s) ->
  (forall t, exists Ha Hb N K, di_eval_Fxc_pol lib b Rh ru fn (shifted Pa Da t) (shifted Pb Db t) true = Ok (Ha, Hb, (E t, N, K))) ->
  sym_mat (di_nbf b) (dent Ha) /\ sym_mat (di_nbf b) (dent Hb) /\
  derivable_pt_lim E 0 (contract (di_nbf b) (dent Da) (dent Ha) + contract (di_nbf b) (dent Db) (dent Hb)).
Proof. exact di_gradient2. Qed.
Print Assumptions C96_unrestricted.
(** A restricted calculation is an unrestricted one with half of the density for each spin. *)
Theorem C96_closed_shell : forall b Rh ru, di_grid_ok b Rh ru -> (0 < at_nbf b)%nat -> forall lib fn P H Ha Hb s s', functional_ok lib fn ->
  uses fn (is_lapl lib) = false -> is_density (di_nbf b) P ->
  (forall ip, In ip (parts fn) -> xc_spin_symmetric lib (fn_thr fn) ip) ->
  di_eval_Fxc lib b Rh ru fn P = Ok (H, s) -> di_eval_Fxc_pol lib b Rh ru fn (half P) (half P) true = Ok (Ha, Hb, s') ->
  s' = s /\ is_mat Ha (di_nbf b) (di_nbf b) (dent H) /\ is_mat Hb (di_nbf b) (di_nbf b) (dent H).
Proof. exact di_closed_shell. Qed.
Print Assumptions C96_closed_shell.
(** For densities of orbitals with occupations that are not negative libxc is asked only for physical
    arguments. *)
Theorem C96_physical1 : forall b Rh ru, di_grid_ok b Rh ru -> (0 < at_nbf b)%nat -> forall lib lib' fn no o C P H H' s s', functional_ok lib fn ->
  uses fn (is_lapl lib) = false -> is_density (di_nbf b) P ->
  (forall k, (k < no)%nat -> 0 <= o k) -> orbital_density (di_nbf b) no o C (dent P) -> agree false physical1 lib lib' ->
  di_eval_Fxc lib b Rh ru fn P = Ok (H, s) -> di_eval_Fxc lib' b Rh ru fn P = Ok (H', s') ->
  s = s' /\ is_mat H' (di_nbf b) (di_nbf b) (dent H).
Proof. exact di_physical1. Qed.
Print Assumptions C96_physical1.
Theorem C96_physical2 : forall b Rh ru, di_grid_ok b Rh ru -> (0 < at_nbf b)%nat ->
  forall lib lib' fn no o C Pa no' o' C' Pb beta Ha Hb Ha' Hb' s s', functional_ok lib fn -> uses fn (is_lapl lib) = false ->
  is_density (di_nbf b) Pa -> is_density (di_nbf b) Pb ->
  (forall k, (k < no)%nat -> 0 <= o k) -> orbital_density (di_nbf b) no o C (dent Pa) ->
  (forall k, (k < no')%nat -> 0 <= o' k) -> orbital_density (di_nbf b) no' o' C' (dent Pb) -> agree true physical2 lib lib' ->
  di_eval_Fxc_pol lib b Rh ru fn Pa Pb beta = Ok (Ha, Hb, s) -> di_eval_Fxc_pol lib' b Rh ru fn Pa Pb beta = Ok (Ha', Hb', s') ->
  s = s' /\ is_mat Ha' (di_nbf b) (di_nbf b) (dent Ha) /\ is_mat Hb' (di_nbf b) (di_nbf b) (dent Hb).
Proof. exact di_physical2. Qed.
Print Assumptions C96_physical2.

(** Three elements, a sigma and a pi shell, six functions of which one is removed, two points per radius, a
    GGA with a meta-GGA, a density of six orbitals; a functional of the Laplacian. *)
Example C95_grid : di_grid_ok wdi 1 wru.
Proof. exact wdi_ok. Qed.
Example C95_functions : at_nbf wdi = 6%nat /\ di_nbf wdi = 5%nat /\ map (di_fn wdi) [0; 1; 2; 3; 4]%nat = [0; 1; 2; 4; 5]%nat.
Proof. exact wdi_n. Qed.
Example C95_functional : functional_ok wlib wfn /\ uses wfn (is_lapl wlib) = false.
Proof. exact (conj wfn_ok eq_refl). Qed.
Example C95_functional_lapl : functional_ok wlib wfn_lapl /\ uses wfn_lapl (is_lapl wlib) = true.
Proof. exact (conj wfn_lapl_ok eq_refl). Qed.
Example C95_density : is_density 5 wdP.
Proof. exact wdP_ok. Qed.
Example C96_energies1 : forall P D, is_density 5 P -> is_density 5 D -> exists E, forall t, exists H N K,
  di_eval_Fxc wlib wdi 1 wru wfn (shifted P D t) = Ok (H, (E t, N, K)).
Proof. exact wdE1. Qed.
Example C96_energies2 : forall Pa Pb Da Db, is_density 5 Pa -> is_density 5 Pb -> is_density 5 Da -> is_density 5 Db -> exists E, forall t, exists Ha Hb N K,
  di_eval_Fxc_pol wlib wdi 1 wru wfn (shifted Pa Da t) (shifted Pb Db t) true = Ok (Ha, Hb, (E t, N, K)).
Proof. exact wdE2. Qed.
Example C96_orbitals : orbital_density 5 6 (fun _ => 1) wdC (dent wdP).
Proof. exact wdP_orbitals. Qed.
