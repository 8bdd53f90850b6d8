(** Properties of the exchange-correlation quadrature of an atom (C91, C92, C93, C94). *)
Require Import Reals ZArith List Bool Arith Permutation.
Require Import Verif.Prelude Verif.FEModel Verif.FESpec Verif.AngModel Verif.JKModel Verif.DftModel Verif.DftSpec Verif.DftDrv Verif.DftMore Verif.DftWit.
Import ListNotations.
Local Open Scope R_scope.

(** However the elements are divided over threads and however the threads' reads and writes of the shared
    matrix interleave, the energy, the number of electrons, the kinetic energy and the Fock matrix are the
    sums over the points of the grid; every thread ends after finitely many of its own steps. *)
Theorem C91_restricted : forall lib b ru fn, at_grid_ok b ru -> functional_ok lib fn -> forall P ev od,
  (0 < at_nbf b)%nat -> is_density (at_nbf b) P -> schedule_ok (get_nelem (ab_fe b)) (mkS ev od [] []) ->
  exists N, forall a1 a2,
    (at_eval_Fxc lib b ru fn P (mkS ev od a1 a2) = OutOfFuel /\
     exists t, (t < length ev)%nat /\ (count_occ Nat.eq_dec a1 t < N \/ count_occ Nat.eq_dec a2 t < N)%nat) \/
    exists H, at_eval_Fxc lib b ru fn P (mkS ev od a1 a2)
        = Ok (H, (spec_exc1 lib fn (at_nbf b) (dent P) (at_points b ru), spec_nel (at_nbf b) (dent P) (at_points b ru),
                  if uses fn (is_tau lib) then spec_ekin (at_nbf b) (dent P) (at_points b ru) else 0)) /\
      is_mat H (at_nbf b) (at_nbf b) (spec_fock1 lib fn (at_nbf b) (dent P) (at_points b ru)).
Proof. exact at_eval_Fxc_ok. Qed.
Print Assumptions C91_restricted.
Theorem C91_unrestricted : forall b ru, at_grid_ok b ru -> (0 < at_nbf b)%nat -> forall lib fn Pa Pb beta ev od, functional_ok lib fn ->
  is_density (at_nbf b) Pa -> is_density (at_nbf b) Pb -> schedule_ok (get_nelem (ab_fe b)) (mkS ev od [] []) ->
  uses fn (is_lapl lib) = false \/ uses fn (is_tau lib) = true /\ beta = true ->
  exists N, forall a1 a2,
    (at_eval_Fxc_pol lib b ru fn Pa Pb beta (mkS ev od a1 a2) = OutOfFuel /\
     exists t, (t < length ev)%nat /\ (count_occ Nat.eq_dec a1 t < N \/ count_occ Nat.eq_dec a2 t < N)%nat) \/
    exists Ha Hb, at_eval_Fxc_pol lib b ru fn Pa Pb beta (mkS ev od a1 a2)
        = Ok (Ha, Hb, (spec_exc2 lib fn (at_nbf b) (dent Pa) (dent Pb) (at_points b ru),
              spec_nel (at_nbf b) (dent Pa) (at_points b ru) + spec_nel (at_nbf b) (dent Pb) (at_points b ru),
              if uses fn (is_tau lib) then spec_ekin (at_nbf b) (dent Pa) (at_points b ru) + spec_ekin (at_nbf b) (dent Pb) (at_points b ru) else 0)) /\
      is_mat Ha (at_nbf b) (at_nbf b) (spec_fock2 lib fn (at_nbf b) (dent Pa) (dent Pb) 0 (at_points b ru)) /\
      is_mat Hb (at_nbf b) (at_nbf b) (if beta then spec_fock2 lib fn (at_nbf b) (dent Pa) (dent Pb) 1 (at_points b ru) else fun _ _ => 0).
Proof. exact unrestricted_ok. Qed.
Print Assumptions C91_unrestricted.
(** If two threads may add to the same entry at the same time, an addition can be lost; this is why elements
    with a common function are not done in the same loop. *)
Example C91_lost_update : exists H ths,
  run_adders [0; 1; 0; 1]%nat (fun _ => dzero 1 1) [(None, [(0%nat, 0%nat, 0%nat, 1)]); (None, [(0%nat, 0%nat, 0%nat, 1)])] = (H, ths) /\
  all_done ths = true /\ dent (H 0%nat) 0%nat 0%nat = 1.
Proof. exact lost_update. Qed.

(** The Fock matrix is symmetric, and it is the derivative of the reported energy with respect to the
    density matrix, if what libxc returns as derivatives are derivatives. *)
Theorem C92_restricted : forall b ru, at_grid_ok b ru -> (0 < at_nbf b)%nat -> forall lib fn P D sc H E0 N0 K0 E, functional_ok lib fn ->
  is_density (at_nbf b) P -> is_density (at_nbf b) D ->
  (forall q ip, In q (at_points b ru) -> In ip (parts fn) -> xc_derivatives lib false (fn_thr fn) ip (args1 (at_nbf b) (dent P) q)) ->
  schedule_ok (get_nelem (ab_fe b)) sc -> at_eval_Fxc lib b ru fn P sc = Ok (H, (E0, N0, K0)) ->
  (forall t, exists sc H N K, schedule_ok (get_nelem (ab_fe b)) sc /\ at_eval_Fxc lib b ru fn (shifted P D t) sc = Ok (H, (E t, N, K))) ->
  sym_mat (at_nbf b) (dent H) /\ derivable_pt_lim E 0 (contract (at_nbf b) (dent D) (dent H)).
Proof. exact restricted_gradient. Qed.
Print Assumptions C92_restricted.
(** Missing: functionals of the Laplacian that do not depend on the kinetic energy density, for which it is
    false ([C92_laplacian_refuted]). *)
Theorem C92_unrestricted_partial : forall b ru, at_grid_ok b ru -> (0 < at_nbf b)%nat ->
  forall lib fn Pa Pb Da Db sc Ha Hb E0 N0 K0 E, functional_ok lib fn ->
  is_density (at_nbf b) Pa -> is_density (at_nbf b) Pb -> is_density (at_nbf b) Da -> is_density (at_nbf b) Db ->
  uses fn (is_lapl lib) = false \/ uses fn (is_tau lib) = true ->
  (forall q ip, In q (at_points b ru) -> In ip (parts fn) -> xc_derivatives lib true (fn_thr fn) ip (args2 (at_nbf b) (dent Pa) (dent Pb) q)) ->
  schedule_ok (get_nelem (ab_fe b)) sc -> at_eval_Fxc_pol lib b ru fn Pa Pb true sc = Ok (Ha, Hb, (E0, N0, K0)) ->
  (forall t, exists sc Ha Hb N K, schedule_ok (get_nelem (ab_fe b)) sc /\
     at_eval_Fxc_pol lib b ru fn (shifted Pa Da t) (shifted Pb Db t) true sc = Ok (Ha, Hb, (E t, N, K))) ->
  sym_mat (at_nbf b) (dent Ha) /\ sym_mat (at_nbf b) (dent Hb) /\
  derivable_pt_lim E 0 (contract (at_nbf b) (dent Da) (dent Ha) + contract (at_nbf b) (dent Db) (dent Hb)).
Proof. exact unrestricted_gradient. Qed.
Print Assumptions C92_unrestricted_partial.
Theorem C92_laplacian_refuted : exists lib b ru fn Pa Pb Da Db sc Ha Hb s E,
  at_grid_ok b ru /\ functional_ok lib fn /\ (0 < at_nbf b)%nat /\
  is_density (at_nbf b) Pa /\ is_density (at_nbf b) Pb /\ is_density (at_nbf b) Da /\ is_density (at_nbf b) Db /\
  (forall q ip, In ip (parts fn) -> xc_derivatives lib true (fn_thr fn) ip (args2 (at_nbf b) (dent Pa) (dent Pb) q)) /\
  schedule_ok (get_nelem (ab_fe b)) sc /\ at_eval_Fxc_pol lib b ru fn Pa Pb true sc = Ok (Ha, Hb, s) /\
  (forall t, exists sc Ha Hb N K, schedule_ok (get_nelem (ab_fe b)) sc /\
     at_eval_Fxc_pol lib b ru fn (shifted Pa Da t) (shifted Pb Db t) true sc = Ok (Ha, Hb, (E t, N, K))) /\
  ~ derivable_pt_lim E 0 (contract (at_nbf b) (dent Da) (dent Ha) + contract (at_nbf b) (dent Db) (dent Hb)).
Proof. exact laplacian_refuted. Qed.
Print Assumptions C92_laplacian_refuted.
(** Without the second matrix, a functional of the Laplacian adds to a matrix that does not exist. *)
Theorem C91_beta_refuted : exists lib b ru fn Pa Pb ev od, at_grid_ok b ru /\ functional_ok lib fn /\ (0 < at_nbf b)%nat /\
  is_density (at_nbf b) Pa /\ is_density (at_nbf b) Pb /\ schedule_ok (get_nelem (ab_fe b)) (mkS ev od [] []) /\
  forall a1 a2, at_eval_Fxc_pol lib b ru fn Pa Pb false (mkS ev od a1 a2) = UB.
Proof. exact beta_refuted. Qed.
Print Assumptions C91_beta_refuted.

(** A restricted calculation is an unrestricted one with half of the density for each spin. *)
Theorem C93_closed_shell : forall b ru, at_grid_ok b ru -> (0 < at_nbf b)%nat -> forall lib fn P sc sc' H Ha Hb s s', functional_ok lib fn ->
  is_density (at_nbf b) P -> uses fn (is_lapl lib) = false \/ uses fn (is_tau lib) = true ->
  (forall ip, In ip (parts fn) -> xc_spin_symmetric lib (fn_thr fn) ip) ->
  schedule_ok (get_nelem (ab_fe b)) sc -> schedule_ok (get_nelem (ab_fe b)) sc' ->
  at_eval_Fxc lib b ru fn P sc = Ok (H, s) -> at_eval_Fxc_pol lib b ru fn (half P) (half P) true sc' = Ok (Ha, Hb, s') ->
  s' = s /\ is_mat Ha (at_nbf b) (at_nbf b) (dent H) /\ is_mat Hb (at_nbf b) (at_nbf b) (dent H).
Proof. exact closed_shell. Qed.
Print Assumptions C93_closed_shell.

(** For densities of orbitals with occupations that are not negative the results depend only on what libxc
    returns for physical arguments: libxc is asked for nothing else. *)
Theorem C94_restricted : forall b ru, at_grid_ok b ru -> (0 < at_nbf b)%nat -> forall lib lib' fn no o C P sc sc' H H' s s', functional_ok lib fn ->
  is_density (at_nbf b) P -> (forall k, (k < no)%nat -> 0 <= o k) -> orbital_density (at_nbf b) no o C (dent P) -> agree false physical1 lib lib' ->
  schedule_ok (get_nelem (ab_fe b)) sc -> schedule_ok (get_nelem (ab_fe b)) sc' ->
  at_eval_Fxc lib b ru fn P sc = Ok (H, s) -> at_eval_Fxc lib' b ru fn P sc' = Ok (H', s') ->
  s = s' /\ is_mat H' (at_nbf b) (at_nbf b) (dent H).
Proof. exact restricted_physical. Qed.
Print Assumptions C94_restricted.
Theorem C94_unrestricted : forall b ru, at_grid_ok b ru -> (0 < at_nbf b)%nat ->
  forall lib lib' fn no o C Pa no' o' C' Pb beta sc sc' Ha Hb Ha' Hb' s s', functional_ok lib fn ->
  is_density (at_nbf b) Pa -> is_density (at_nbf b) Pb ->
  (forall k, (k < no)%nat -> 0 <= o k) -> orbital_density (at_nbf b) no o C (dent Pa) ->
  (forall k, (k < no')%nat -> 0 <= o' k) -> orbital_density (at_nbf b) no' o' C' (dent Pb) -> agree true physical2 lib lib' ->
  uses fn (is_lapl lib) = false \/ uses fn (is_tau lib) = true /\ beta = true ->
  schedule_ok (get_nelem (ab_fe b)) sc -> schedule_ok (get_nelem (ab_fe b)) sc' ->
  at_eval_Fxc_pol lib b ru fn Pa Pb beta sc = Ok (Ha, Hb, s) -> at_eval_Fxc_pol lib' b ru fn Pa Pb beta sc' = Ok (Ha', Hb', s') ->
  s = s' /\ is_mat Ha' (at_nbf b) (at_nbf b) (dent Ha) /\ is_mat Hb' (at_nbf b) (at_nbf b) (dent Hb).
Proof. exact unrestricted_physical. Qed.
Print Assumptions C94_unrestricted.

(** Three elements, two shells, two points per sphere, two threads, a GGA with a meta-GGA, a density of five
    orbitals. *)
Example C91_grid : at_grid_ok wb wru /\ at_nbf wb = 4%nat /\ get_nelem (ab_fe wb) = 3%nat.
Proof. exact (conj wb_ok (conj wb_n wb_nel)). Qed.
Example C91_functional : functional_ok wlib wfn.
Proof. exact wfn_ok. Qed.
Example C91_schedule : schedule_ok (get_nelem (ab_fe wb)) (mkS [[2]; [0]]%nat [[]; [1]]%nat [] []).
Proof. exact wsched. Qed.
Example C91_density : is_density 4 wP.
Proof. exact wP_ok. Qed.
Example C92_derivatives1 : forall n P q ip, In ip (parts wfn) -> xc_derivatives wlib false (fn_thr wfn) ip (args1 n P q).
Proof. exact wfn_derivatives1. Qed.
Example C92_derivatives2 : forall n Pa Pb q ip, In ip (parts wfn) -> xc_derivatives wlib true (fn_thr wfn) ip (args2 n Pa Pb q).
Proof. exact wfn_derivatives2. Qed.
Example C92_energies1 : forall P D, is_density 4 P -> is_density 4 D -> exists E, forall t, exists sc H N K, schedule_ok (get_nelem (ab_fe wb)) sc /\
  at_eval_Fxc wlib wb wru wfn (shifted P D t) sc = Ok (H, (E t, N, K)).
Proof. exact wE1. Qed.
Example C92_energies2 : forall Pa Pb Da Db, is_density 4 Pa -> is_density 4 Pb -> is_density 4 Da -> is_density 4 Db ->
  exists E, forall t, exists sc Ha Hb N K, schedule_ok (get_nelem (ab_fe wb)) sc /\
  at_eval_Fxc_pol wlib wb wru wfn (shifted Pa Da t) (shifted Pb Db t) true sc = Ok (Ha, Hb, (E t, N, K)).
Proof. exact wE2. Qed.
Example C93_spins : forall ip, In ip (parts wfn) -> xc_spin_symmetric wlib (fn_thr wfn) ip.
Proof. exact wfn_spin. Qed.
Example C94_orbitals : orbital_density 4 5 (fun _ => 1) wC (dent wP).
Proof. exact wP_orbitals. Qed.
