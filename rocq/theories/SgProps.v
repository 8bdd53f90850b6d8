(** Properties of the exchange-correlation quadrature of spherical atoms (C100-C103). *)
Require Import Reals ZArith List Bool Arith Permutation.
Require Import Verif.Prelude Verif.FEModel Verif.FESpec Verif.AngModel Verif.JKModel Verif.DftModel Verif.DftSpec Verif.DftWit Verif.SgModel Verif.SgSpec Verif.SgAtSpec Verif.SgDrv Verif.SgMore Verif.SgAt Verif.SgWit.
Import ListNotations.
Local Open Scope R_scope.

(** For every distribution of the elements over threads and every interleaving of the threads' additions to
    the result, the energy, the number of electrons and the Fock matrices are the sums over the points of the
    radial quadrature.  The calculation does not end only if some thread stops running. *)
Theorem C100_restricted : forall lib b fn, sg_grid_ok b -> functional_ok lib fn ->
  forall P ev od, cube_ok (at_nr b) P -> schedule_ok (get_nelem (ab_fe b)) (mkS ev od [] []) ->
  exists N, forall a1 a2,
    (sg_eval_Fxc lib b fn P (mkS ev od a1 a2) = OutOfFuel /\
     exists t, (t < length ev)%nat /\ (count_occ Nat.eq_dec a1 t < N \/ count_occ Nat.eq_dec a2 t < N)%nat) \/
    exists H, sg_eval_Fxc lib b fn P (mkS ev od a1 a2) = Ok (H, (rexc1 lib fn (at_nr b) P (sg_points b), rnel (at_nr b) P (sg_points b))) /\
      is_cube H (length P) (at_nr b) (rfock1 lib fn (at_nr b) P (sg_points b)).
Proof. exact sg_eval_Fxc_ok. Qed.
Print Assumptions C100_restricted.
Theorem C100_unrestricted : forall lib b fn, sg_grid_ok b -> functional_ok lib fn ->
  forall Pa Pb beta ev od, cube_ok (at_nr b) Pa -> cube_ok (at_nr b) Pb -> schedule_ok (get_nelem (ab_fe b)) (mkS ev od [] []) ->
  exists N, forall a1 a2,
    (sg_eval_Fxc_pol lib b fn Pa Pb beta (mkS ev od a1 a2) = OutOfFuel /\
     exists t, (t < length ev)%nat /\ (count_occ Nat.eq_dec a1 t < N \/ count_occ Nat.eq_dec a2 t < N)%nat) \/
    exists Ha Hb, sg_eval_Fxc_pol lib b fn Pa Pb beta (mkS ev od a1 a2)
        = Ok (Ha, Hb, (rexc2 lib fn (at_nr b) Pa Pb (sg_points b), rnel (at_nr b) Pa (sg_points b) + rnel (at_nr b) Pb (sg_points b))) /\
      is_cube Ha (length Pa) (at_nr b) (rfock2 lib fn (at_nr b) Pa Pb 0 (sg_points b)) /\
      is_cube Hb (length Pb) (at_nr b) (if beta then rfock2 lib fn (at_nr b) Pa Pb 1 (sg_points b) else fun _ _ _ => 0).
Proof. exact sg_eval_Fxc_pol_ok. Qed.
Print Assumptions C100_unrestricted.
(** A functional libxc does not know is refused before anything is computed.  An empty list of densities is
    outside what the code can handle. *)
Theorem C100_unknown : forall (b : abasis) lib fn,
  (0 < fn_x fn)%Z /\ xc_known lib (fn_x fn) = false \/ (fn_x fn <= 0)%Z /\ (0 < fn_c fn)%Z /\ xc_known lib (fn_c fn) = false ->
  (forall P sc, P <> [] -> sg_eval_Fxc lib b fn P sc = Throw RuntimeError) /\
  (forall Pa Pb beta sc, Pa <> [] -> Pb <> [] -> sg_eval_Fxc_pol lib b fn Pa Pb beta sc = Throw RuntimeError).
Proof. exact sg_unknown. Qed.
Print Assumptions C100_unknown.
Theorem C100_empty_refuted : forall (b : abasis) lib fn, (forall sc, sg_eval_Fxc lib b fn [] sc = UB) /\
  (forall Pa Pb beta sc, Pa = [] \/ Pb = [] -> sg_eval_Fxc_pol lib b fn Pa Pb beta sc = UB).
Proof. exact sg_empty. Qed.
Print Assumptions C100_empty_refuted.
(** Three elements, two radial functions, s and p orbitals, a functional with a GGA and a meta-GGA, two threads *)
Example C100_example : sg_grid_ok wb /\ functional_ok wlib wfn /\ cube_ok (at_nr wb) wcube /\ schedule_ok (get_nelem (ab_fe wb)) (mkS [[2]; [0]]%nat [[]; [1]]%nat [] []).
Proof. exact (conj wb_sg (conj wfn_ok (conj wcube_ok wsched))). Qed.
Example C100_example_runs : (exists a H N, sg_eval_Fxc wlib wb wfn wcube (mkS [[2]; [0]]%nat [[]; [1]]%nat a a) = Ok (H, (rexc1 wlib wfn 2 wcube (sg_points wb), N))) /\
  exists a Ha Hb N, sg_eval_Fxc_pol wlib wb wfn wcube wcube true (mkS [[2]; [0]]%nat [[]; [1]]%nat a a) = Ok (Ha, Hb, (rexc2 wlib wfn 2 wcube wcube (sg_points wb), N)).
Proof. exact (conj (sg_runs1 wlib wb wfn wcube _ _ wb_sg wfn_ok wcube_ok wsched) (sg_runs2 wlib wb wfn wcube wcube _ _ wb_sg wfn_ok wcube_ok wcube_ok wsched)). Qed.

(** The Fock matrices are symmetric, and they are the derivatives of the reported energy with respect to the
    density matrices, if what libxc returns as derivatives are derivatives and, for functionals of the kinetic
    energy density, the part of it from the motion around the nucleus is above zero or does not change. *)
Theorem C101_restricted : forall b, sg_grid_ok b -> forall lib fn P D sc H s E, functional_ok lib fn ->
  cube_ok (at_nr b) P -> cube_ok (at_nr b) D -> length D = length P ->
  (forall q, In q (sg_points b) -> uses fn (is_tau lib) = true -> 0 < rang (at_nr b) P q \/ rang (at_nr b) D q = 0) ->
  (forall q ip, In q (sg_points b) -> In ip (parts fn) -> xc_derivatives lib false (fn_thr fn) ip (rargs1 (at_nr b) P q)) ->
  schedule_ok (get_nelem (ab_fe b)) sc -> sg_eval_Fxc lib b fn P sc = Ok (H, s) ->
  (forall t, exists sc H N, schedule_ok (get_nelem (ab_fe b)) sc /\ sg_eval_Fxc lib b fn (shifted_cube P D t) sc = Ok (H, (E t, N))) ->
  (forall l, (l < length P)%nat -> sym_mat (at_nr b) (part H l)) /\ derivable_pt_lim E 0 (rsum (at_nr b) D (part H)).
Proof. exact sg_gradient1. Qed.
Print Assumptions C101_restricted.
Theorem C101_unrestricted : forall b, sg_grid_ok b -> forall lib fn Pa Da Pb Db sc Ha Hb s E, functional_ok lib fn ->
  cube_ok (at_nr b) Pa -> cube_ok (at_nr b) Da -> length Da = length Pa ->
  cube_ok (at_nr b) Pb -> cube_ok (at_nr b) Db -> length Db = length Pb ->
  (forall q, In q (sg_points b) -> uses fn (is_tau lib) = true ->
     (0 < rang (at_nr b) Pa q \/ rang (at_nr b) Da q = 0) /\ (0 < rang (at_nr b) Pb q \/ rang (at_nr b) Db q = 0)) ->
  (forall q ip, In q (sg_points b) -> In ip (parts fn) -> xc_derivatives lib true (fn_thr fn) ip (rargs2 (at_nr b) Pa Pb q)) ->
  schedule_ok (get_nelem (ab_fe b)) sc -> sg_eval_Fxc_pol lib b fn Pa Pb true sc = Ok (Ha, Hb, s) ->
  (forall t, exists sc Ha Hb N, schedule_ok (get_nelem (ab_fe b)) sc /\
     sg_eval_Fxc_pol lib b fn (shifted_cube Pa Da t) (shifted_cube Pb Db t) true sc = Ok (Ha, Hb, (E t, N))) ->
  (forall l, (l < length Pa)%nat -> sym_mat (at_nr b) (part Ha l)) /\ (forall l, (l < length Pb)%nat -> sym_mat (at_nr b) (part Hb l)) /\
  derivable_pt_lim E 0 (rsum (at_nr b) Da (part Ha) + rsum (at_nr b) Db (part Hb)).
Proof. exact sg_gradient2. Qed.
Print Assumptions C101_unrestricted.
(** For densities of orbitals that part is never below zero. *)
Theorem C101_orbitals : forall (b : abasis) P D no o C, (forall l k, (l < length P)%nat -> (k < no l)%nat -> 0 <= o l k) -> orbital_cube (at_nr b) no o C P ->
  forall q, rang (at_nr b) P q <> 0 \/ rang (at_nr b) D q = 0 -> 0 < rang (at_nr b) P q \/ rang (at_nr b) D q = 0.
Proof. exact orbital_smooth. Qed.
Print Assumptions C101_orbitals.
(** Without the condition the claim fails: where that part is below zero the energy is computed with zero
    instead, the Fock matrix is not. *)
Theorem C101_clamp_refuted : exists lib b fn P D sc H s E, sg_grid_ok b /\ functional_ok lib fn /\ cube_ok (at_nr b) P /\ cube_ok (at_nr b) D /\ length D = length P /\
  (forall q ip, In ip (parts fn) -> xc_derivatives lib false (fn_thr fn) ip (rargs1 (at_nr b) P q)) /\
  schedule_ok (get_nelem (ab_fe b)) sc /\ sg_eval_Fxc lib b fn P sc = Ok (H, s) /\
  (forall t, exists sc H N, schedule_ok (get_nelem (ab_fe b)) sc /\ sg_eval_Fxc lib b fn (shifted_cube P D t) sc = Ok (H, (E t, N))) /\
  ~ derivable_pt_lim E 0 (rsum (at_nr b) D (part H)).
Proof. exact clamp_refuted. Qed.
Print Assumptions C101_clamp_refuted.
Example C101_example : (forall q, In q (sg_points wb) -> 0 < rang 2 wcube q) /\
  (forall n P q ip, In ip (parts wfn) -> xc_derivatives wlib false (fn_thr wfn) ip (rargs1 n P q)) /\
  (forall n Pa Pb q ip, In ip (parts wfn) -> xc_derivatives wlib true (fn_thr wfn) ip (rargs2 n Pa Pb q)).
Proof. exact (conj wsmooth (conj wfn_rderivatives1 wfn_rderivatives2)). Qed.
Example C101_example_energy1 : forall P D, cube_ok 2 P -> cube_ok 2 D -> length D = length P -> exists E, forall t, exists sc H N,
  schedule_ok (get_nelem (ab_fe wb)) sc /\ sg_eval_Fxc wlib wb wfn (shifted_cube P D t) sc = Ok (H, (E t, N)).
Proof. exact wrE1. Qed.
Example C101_example_energy2 : forall Pa Da Pb Db, cube_ok 2 Pa -> cube_ok 2 Da -> length Da = length Pa -> cube_ok 2 Pb -> cube_ok 2 Db -> length Db = length Pb ->
  exists E, forall t, exists sc Ha Hb N, schedule_ok (get_nelem (ab_fe wb)) sc /\
  sg_eval_Fxc_pol wlib wb wfn (shifted_cube Pa Da t) (shifted_cube Pb Db t) true sc = Ok (Ha, Hb, (E t, N)).
Proof. exact wrE2. Qed.

(** Both spins with half of the density each give the energy, the number of electrons and the Fock matrices of
    the restricted calculation, if libxc treats the spins alike. *)
Theorem C102_closed_shell : forall b, sg_grid_ok b -> forall lib fn P sc sc' H Ha Hb s s', functional_ok lib fn -> cube_ok (at_nr b) P ->
  (forall ip, In ip (parts fn) -> xc_spin_symmetric lib (fn_thr fn) ip) ->
  schedule_ok (get_nelem (ab_fe b)) sc -> schedule_ok (get_nelem (ab_fe b)) sc' ->
  sg_eval_Fxc lib b fn P sc = Ok (H, s) -> sg_eval_Fxc_pol lib b fn (half_cube P) (half_cube P) true sc' = Ok (Ha, Hb, s') ->
  s' = s /\ is_cube Ha (length P) (at_nr b) (part H) /\ is_cube Hb (length P) (at_nr b) (part H).
Proof. exact sg_closed_shell. Qed.
Print Assumptions C102_closed_shell.
(** For densities of orbitals with occupations that are not negative, libxc is only asked for arguments with
    n >= 0, sigma >= 0, tau >= 0 and sigma <= 8 n tau: what it returns elsewhere changes nothing. *)
Theorem C102_physical_restricted : forall b, sg_grid_ok b -> forall lib lib' fn no o C P sc sc' H H' s s', functional_ok lib fn -> cube_ok (at_nr b) P ->
  (forall l k, (l < length P)%nat -> (k < no l)%nat -> 0 <= o l k) -> orbital_cube (at_nr b) no o C P -> agree false physical1 lib lib' ->
  schedule_ok (get_nelem (ab_fe b)) sc -> schedule_ok (get_nelem (ab_fe b)) sc' ->
  sg_eval_Fxc lib b fn P sc = Ok (H, s) -> sg_eval_Fxc lib' b fn P sc' = Ok (H', s') ->
  s = s' /\ is_cube H' (length P) (at_nr b) (part H).
Proof. exact sg_physical1. Qed.
Print Assumptions C102_physical_restricted.
Theorem C102_physical_unrestricted : forall b, sg_grid_ok b -> forall lib lib' fn no o C Pa no' o' C' Pb beta sc sc' Ha Hb Ha' Hb' s s',
  functional_ok lib fn -> cube_ok (at_nr b) Pa -> cube_ok (at_nr b) Pb ->
  (forall l k, (l < length Pa)%nat -> (k < no l)%nat -> 0 <= o l k) -> orbital_cube (at_nr b) no o C Pa ->
  (forall l k, (l < length Pb)%nat -> (k < no' l)%nat -> 0 <= o' l k) -> orbital_cube (at_nr b) no' o' C' Pb ->
  agree true physical2 lib lib' -> schedule_ok (get_nelem (ab_fe b)) sc -> schedule_ok (get_nelem (ab_fe b)) sc' ->
  sg_eval_Fxc_pol lib b fn Pa Pb beta sc = Ok (Ha, Hb, s) -> sg_eval_Fxc_pol lib' b fn Pa Pb beta sc' = Ok (Ha', Hb', s') ->
  s = s' /\ is_cube Ha' (length Pa) (at_nr b) (part Ha) /\ is_cube Hb' (length Pb) (at_nr b) (part Hb).
Proof. exact sg_physical2. Qed.
Print Assumptions C102_physical_unrestricted.
Example C102_example : orbital_cube 2 (fun _ => 3%nat) (fun _ _ => 1) (fun _ => wC2) wcube /\
  (forall ip, In ip (parts wfn) -> xc_spin_symmetric wlib (fn_thr wfn) ip).
Proof. exact (conj wcube_orbitals wfn_spin). Qed.

(** An atom whose orbitals are occupied equally for every m gives, on the quadrature over points of space with
    any angular rule of total weight 4 pi away from the z axis, the same energy and number of electrons as the
    radial quadrature; the Fock matrix averaged over m is the radial one. *)
Theorem C103_restricted : forall b ru nl lib fn, at_grid_ok b ru -> Permutation (ab_sh b) (full_shells nl) -> harmonics (ab_Y b) nl -> lsum ru a_w = 4 * PI -> functional_ok lib fn ->
  forall Ps P sc sc' H H' E N K E' N', (0 < at_nbf b)%nat -> cube_ok (at_nr b) Ps -> length Ps = nl -> is_density (at_nbf b) P -> spherical b Ps P ->
  (forall q, In q (sg_points b) -> uses fn (is_tau lib) = true -> 0 <= rang (at_nr b) Ps q) ->
  schedule_ok (get_nelem (ab_fe b)) sc -> schedule_ok (get_nelem (ab_fe b)) sc' ->
  at_eval_Fxc lib b ru fn P sc = Ok (H, (E, N, K)) -> sg_eval_Fxc lib b fn Ps sc' = Ok (H', (E', N')) ->
  E = E' /\ N = N' /\ forall l i j, (l < nl)%nat -> (i < at_nr b)%nat -> (j < at_nr b)%nat ->
    shell_trace b H l i j = INR (2 * l + 1) / (4 * PI) * part H' l i j.
Proof. exact agreement1. Qed.
Print Assumptions C103_restricted.
Theorem C103_unrestricted : forall b ru nl lib fn, at_grid_ok b ru -> Permutation (ab_sh b) (full_shells nl) -> harmonics (ab_Y b) nl -> lsum ru a_w = 4 * PI -> functional_ok lib fn ->
  forall Psa Psb Pa Pb beta sc sc' Ha Hb Ha' Hb' E N K E' N', (0 < at_nbf b)%nat ->
  cube_ok (at_nr b) Psa -> length Psa = nl -> is_density (at_nbf b) Pa -> spherical b Psa Pa ->
  cube_ok (at_nr b) Psb -> length Psb = nl -> is_density (at_nbf b) Pb -> spherical b Psb Pb ->
  uses fn (is_lapl lib) = false \/ uses fn (is_tau lib) = true /\ beta = true ->
  (forall q, In q (sg_points b) -> uses fn (is_tau lib) = true -> 0 <= rang (at_nr b) Psa q /\ 0 <= rang (at_nr b) Psb q) ->
  schedule_ok (get_nelem (ab_fe b)) sc -> schedule_ok (get_nelem (ab_fe b)) sc' ->
  at_eval_Fxc_pol lib b ru fn Pa Pb beta sc = Ok (Ha, Hb, (E, N, K)) -> sg_eval_Fxc_pol lib b fn Psa Psb beta sc' = Ok (Ha', Hb', (E', N')) ->
  E = E' /\ N = N' /\ forall l i j, (l < nl)%nat -> (i < at_nr b)%nat -> (j < at_nr b)%nat ->
    shell_trace b Ha l i j = INR (2 * l + 1) / (4 * PI) * part Ha' l i j /\
    shell_trace b Hb l i j = INR (2 * l + 1) / (4 * PI) * part Hb' l i j.
Proof. exact agreement2. Qed.
Print Assumptions C103_unrestricted.
(** s and p shells with the spherical harmonics up to l = 1, two points on the sphere, two radial functions *)
Example C103_example : at_grid_ok wb4 wru4 /\ Permutation (ab_sh wb4) (full_shells 2) /\ harmonics (ab_Y wb4) 2 /\ lsum wru4 a_w = 4 * PI /\ (0 < at_nbf wb4)%nat /\
  cube_ok (at_nr wb4) wcube /\ is_density (at_nbf wb4) (whole wb4 wcube) /\ spherical wb4 wcube (whole wb4 wcube) /\ forall q, 0 <= rang (at_nr wb4) wcube q.
Proof. exact wagree_example. Qed.
