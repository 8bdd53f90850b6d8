(** What the quadrature of an exchange-correlation functional has to compute, in terms of
    the values of the basis functions in the points of the grid. *)
Require Import Reals ZArith List Bool Arith Permutation.
Require Import Verif.Prelude Verif.FEModel Verif.FESpec Verif.AngModel Verif.JKModel Verif.DftModel.
Import ListNotations.
Local Open Scope R_scope.

(** A point of the grid: its weight and the values (real and imaginary part), the
    components of the gradient and the Laplacian of every basis function. *)
Record gpoint := mkP { p_w : R; p_f : nat -> R * R; p_g : nat -> nat -> R * R; p_l : nat -> R * R }.

(** Re(x^* y) *)
Definition reprod (x y : R * R) : R := fst x * fst y + snd x * snd y.
(** The contributions of the pair (i, j) to the density, its gradient, the kinetic energy
    density and the Laplacian. *)
Definition pair_n (q : gpoint) (i j : nat) : R := reprod (p_f q i) (p_f q j).
Definition pair_g (q : gpoint) (c i j : nat) : R := reprod (p_f q i) (p_g q c j) + reprod (p_g q c i) (p_f q j).
Definition pair_gg (q : gpoint) (i j : nat) : R := sum 3 (fun c => reprod (p_g q c i) (p_g q c j)).
Definition pair_t (q : gpoint) (i j : nat) : R := / 2 * pair_gg q i j.
Definition pair_l (q : gpoint) (i j : nat) : R :=
  reprod (p_f q i) (p_l q j) + reprod (p_l q i) (p_f q j) + 2 * pair_gg q i j.

(** sum_ij P_ij x_ij over the [n] basis functions *)
Definition contract (n : nat) (P x : mat) : R := sum n (fun i => sum n (fun j => P i j * x i j)).
Definition dens (n : nat) (P : mat) (q : gpoint) : R := contract n P (pair_n q).
Definition grad (n : nat) (P : mat) (q : gpoint) (c : nat) : R := contract n P (pair_g q c).
Definition tau (n : nat) (P : mat) (q : gpoint) : R := contract n P (pair_t q).
Definition lapl (n : nat) (P : mat) (q : gpoint) : R := contract n P (pair_l q).
Definition dot3 (x y : nat -> R) : R := sum 3 (fun c => x c * y c).

(** The input of a functional in one point. *)
Record xargs := mkA { a_rho : list R; a_sigma : list R; a_lapl : list R; a_tau : list R }.
Definition args1 (n : nat) (P : mat) (q : gpoint) : xargs :=
  mkA [dens n P q] [dot3 (grad n P q) (grad n P q)] [lapl n P q] [tau n P q].
Definition args2 (n : nat) (Pa Pb : mat) (q : gpoint) : xargs :=
  mkA [dens n Pa q; dens n Pb q]
      [dot3 (grad n Pa q) (grad n Pa q); dot3 (grad n Pa q) (grad n Pb q); dot3 (grad n Pb q) (grad n Pb q)]
      [lapl n Pa q; lapl n Pb q] [tau n Pa q; tau n Pb q].

(** What libxc gives for the functional [id]; a meta-GGA sees the Laplacian and the
    kinetic energy density only if it asks for them. *)
Definition xc_at (lib : libxc) (pol : bool) (thr : R) (id : Z) (pars : list R) (a : xargs) : xcout :=
  match xc_family lib id with
  | LDA => xc_lda lib id pol thr pars (a_rho a)
  | GGA => xc_gga lib id pol thr pars (a_rho a) (a_sigma a)
  | _ => xc_mgga lib id pol thr pars (a_rho a) (a_sigma a)
           (if xc_lapl lib id then Some (a_lapl a) else None) (if xc_tau lib id then Some (a_tau a) else None)
  end.
(** The functionals in use: identifiers above zero. *)
Definition parts (fn : functional) : list (Z * list R) :=
  filter (fun ip => (0 <? fst ip)%Z) [(fn_x fn, fn_xp fn); (fn_c fn, fn_cp fn)].
Definition is_gga (lib : libxc) (id : Z) : bool := match xc_family lib id with LDA => false | _ => true end.
Definition is_tau (lib : libxc) (id : Z) : bool := match xc_family lib id with MGGA => xc_tau lib id | _ => false end.
Definition is_lapl (lib : libxc) (id : Z) : bool := match xc_family lib id with MGGA => xc_lapl lib id | _ => false end.
(** The functionals in use exist, are LDAs, GGAs, or meta-GGAs that depend on the kinetic
    energy density or the Laplacian, and got the right number of parameters or none. *)
Definition functional_ok (lib : libxc) (fn : functional) : Prop :=
  forall id pars, In (id, pars) (parts fn) ->
    xc_known lib id = true /\ xc_family lib id <> OtherFamily /\
    (xc_family lib id = MGGA -> xc_tau lib id = true \/ xc_lapl lib id = true) /\
    (pars = [] \/ length pars = xc_npar lib id).

(** The sum of [f] over the functionals in use that satisfy [c]. *)
Definition over (lib : libxc) (pol : bool) (fn : functional) (c : Z -> bool) (f : xcout -> R) (a : xargs) : R :=
  lsum (parts fn) (fun ip => if c (fst ip) then f (xc_at lib pol (fn_thr fn) (fst ip) (snd ip) a) else 0).
Definition e_exc lib pol fn a := over lib pol fn (xc_have_exc lib) o_exc a.
Definition e_vrho lib pol fn a (s : nat) := over lib pol fn (fun _ => true) (fun o => o_vrho o s) a.
Definition e_vsigma lib pol fn a (s : nat) := over lib pol fn (is_gga lib) (fun o => o_vsigma o s) a.
Definition e_vtau lib pol fn a (s : nat) := over lib pol fn (is_tau lib) (fun o => o_vtau o s) a.
Definition e_vlapl lib pol fn a (s : nat) := over lib pol fn (is_lapl lib) (fun o => o_vlapl o s) a.
Definition uses (fn : functional) (c : Z -> bool) : bool := existsb (fun ip => c (fst ip)) (parts fn).

(** Energies *)
Definition spec_exc1 lib fn n P (pts : list gpoint) : R :=
  lsum pts (fun q => p_w q * e_exc lib false fn (args1 n P q) * dens n P q).
Definition spec_exc2 lib fn n Pa Pb (pts : list gpoint) : R :=
  lsum pts (fun q => p_w q * e_exc lib true fn (args2 n Pa Pb q) * (dens n Pa q + dens n Pb q)).
Definition spec_nel n P (pts : list gpoint) : R := lsum pts (fun q => p_w q * dens n P q).
Definition spec_ekin n P (pts : list gpoint) : R := lsum pts (fun q => p_w q * tau n P q).

(** The Fock matrix of one point (without its weight): the derivative of the energy
    density with respect to the coefficients of the density matrix. *)
Definition fock1 lib fn n P (q : gpoint) (i j : nat) : R :=
  let a := args1 n P q in
  e_vrho lib false fn a 0 * pair_n q i j
  + e_vsigma lib false fn a 0 * (2 * dot3 (grad n P q) (fun c => pair_g q c i j))
  + e_vtau lib false fn a 0 * pair_t q i j
  + e_vlapl lib false fn a 0 * pair_l q i j.
Definition spec_fock1 lib fn n P (pts : list gpoint) (i j : nat) : R :=
  lsum pts (fun q => p_w q * fock1 lib fn n P q i j).
(** Spin s of two: the entries 0, 1, 2 of sigma are (up, up), (up, down), (down, down). *)
Definition fock2 lib fn n Pa Pb (s : nat) (q : gpoint) (i j : nat) : R :=
  let a := args2 n Pa Pb q in
  let own := if Nat.eqb s 0 then Pa else Pb in let other := if Nat.eqb s 0 then Pb else Pa in
  e_vrho lib true fn a s * pair_n q i j
  + e_vsigma lib true fn a (2 * s) * (2 * dot3 (grad n own q) (fun c => pair_g q c i j))
  + e_vsigma lib true fn a 1 * dot3 (grad n other q) (fun c => pair_g q c i j)
  + e_vtau lib true fn a s * pair_t q i j
  + e_vlapl lib true fn a s * pair_l q i j.
Definition spec_fock2 lib fn n Pa Pb s (pts : list gpoint) (i j : nat) : R :=
  lsum pts (fun q => p_w q * fock2 lib fn n Pa Pb s q i j).

(** A symmetric n x n matrix *)
Definition sym_mat (n : nat) (P : mat) : Prop := forall i j, (i < n)%nat -> (j < n)%nat -> P i j = P j i.
Definition is_density (n : nat) (P : dmat) : Prop := drows P = n /\ dcols P = n /\ sym_mat n (dent P).
(** A matrix given by its entries *)
Definition is_mat (A : dmat) (n m : nat) (h : nat -> nat -> R) : Prop :=
  drows A = n /\ dcols A = m /\ forall i j, (i < n)%nat -> (j < m)%nat -> dent A i j = h i j.

(* ------------------------------------------------------------------ *)
(** * The grid of an atom *)

Definition at_nr (b : abasis) : nat := match get_nbf (ab_fe b) with Ok n => Z.to_nat n | _ => 0%nat end.
(** Basis function i is the radial function i mod Nr in shell i / Nr. *)
Definition at_nbf (b : abasis) : nat := (length (ab_sh b) * at_nr b)%nat.
(** The radial function k in radial point ir of element iel, from the table [A] of the
    functions of this element. *)
Definition radial_value (b : abasis) (A : nat -> dmat) (iel ir k : nat) : R :=
  let '(first, n) := elem_range (ab_fe b) iel in
  if (Nat.leb first k && Nat.ltb k (first + n))%bool then dent (A iel) ir (k - first)%nat else 0.
(** d Y_lm / d theta = m cot(theta) Y_lm + sqrt((l-m)(l+m+1)) exp(-i phi) Y_l,m+1 *)
Definition dtheta (Y : Z -> Z -> R -> R -> R * R) (l m : Z) (cth phi : R) : R * R :=
  cadd (cscal (IZR m * (cth / sqrt (1 - cth * cth))) (Y l m cth phi))
       (cscal (sqrt (IZR ((l - m) * (l + m + 1)))) (cmul (cos phi, - sin phi) (Y l (m + 1)%Z cth phi))).
(** Point (iel, ia, ir): spherical coordinates, gradient in the orthonormal directions of
    r, theta and phi. *)
Definition at_point (b : abasis) (ru : rule) (iel ia ir : nat) : gpoint :=
  let r := nth ir (ab_r b iel) 0 in
  let cth := a_cth (ang ru ia) in let phi := a_phi (ang ru ia) in let sth := sqrt (1 - cth * cth) in
  let l i := fst (shell (ab_sh b) (i / at_nr b)) in let m i := snd (shell (ab_sh b) (i / at_nr b)) in
  let Y i := ab_Y b (l i) (m i) cth phi in
  let f i := radial_value b (ab_f b) iel ir (i mod at_nr b) in
  let f' i := radial_value b (ab_d b) iel ir (i mod at_nr b) in
  let f'' i := radial_value b (ab_l b) iel ir (i mod at_nr b) in
  mkP (a_w (ang ru ia) * nth ir (ab_wrad b iel) 0 * (r * r))
    (fun i => cscal (f i) (Y i))
    (fun c i => match c with
                | 0%nat => cscal (f' i) (Y i)
                | 1%nat => cscal (f i / r) (dtheta (ab_Y b) (l i) (m i) cth phi)
                | _ => cscal (f i / (r * sth)) (cmul (0, IZR (m i)) (Y i))
                end)
    (fun i => cscal (f'' i + 2 * f' i / r - IZR (l i * (l i + 1)) * f i / (r * r)) (Y i)).
Definition at_elem_points (b : abasis) (ru : rule) (iel : nat) : list gpoint :=
  flat_map (fun ia => map (fun ir => at_point b ru iel ia ir) (seq 0 (length (ab_r b iel)))) (seq 0 (length ru)).
Definition at_points (b : abasis) (ru : rule) : list gpoint :=
  flat_map (at_elem_points b ru) (seq 0 (get_nelem (ab_fe b))).

(** The basis is a valid finite element basis with shells m <= l, its tables have the
    right size, and no point lies on the z axis. *)
Definition at_grid_ok (b : abasis) (ru : rule) : Prop :=
  valid_fe (ab_fe b) /\
  (forall l m, In (l, m) (ab_sh b) -> (m <= l)%Z) /\
  (forall ia, (ia < length ru)%nat -> -1 < a_cth (ang ru ia) < 1) /\
  (forall iel, (iel < get_nelem (ab_fe b))%nat ->
     (forall r, In r (ab_r b iel) -> 0 < r) /\
     length (ab_wrad b iel) = length (ab_r b iel) /\
     (forall A, In A [ab_f b iel; ab_d b iel; ab_l b iel] ->
        drows A = length (ab_r b iel) /\ dcols A = snd (elem_range (ab_fe b) iel))).

(** Both loops are divided over the same number of threads, and every element is done by
    exactly one of them. *)
Definition schedule_ok (nel : nat) (sc : schedule) : Prop :=
  length (s_even sc) = length (s_odd sc) /\
  Permutation (concat (s_even sc)) (filter Nat.even (seq 0 nel)) /\
  Permutation (concat (s_odd sc)) (filter Nat.odd (seq 0 nel)).

(* ------------------------------------------------------------------ *)
(** * Contracts of libxc *)

(** A curve of arguments that goes through [a] for t = 0 with velocity [d]. *)
Definition curve (c : R -> xargs) (a d : xargs) : Prop :=
  c 0 = a /\
  (forall t, length (a_rho (c t)) = length (a_rho a)) /\ (forall t, length (a_sigma (c t)) = length (a_sigma a)) /\
  (forall t, length (a_lapl (c t)) = length (a_lapl a)) /\ (forall t, length (a_tau (c t)) = length (a_tau a)) /\
  forall k, derivable_pt_lim (fun t => nth k (a_rho (c t)) 0) 0 (nth k (a_rho d) 0) /\
            derivable_pt_lim (fun t => nth k (a_sigma (c t)) 0) 0 (nth k (a_sigma d) 0) /\
            derivable_pt_lim (fun t => nth k (a_lapl (c t)) 0) 0 (nth k (a_lapl d) 0) /\
            derivable_pt_lim (fun t => nth k (a_tau (c t)) 0) 0 (nth k (a_tau d) 0).
(** The energy per volume: the energy per particle times the density of all spins. *)
Definition edens lib pol thr id pars (a : xargs) : R :=
  o_exc (xc_at lib pol thr id pars a) * sum (length (a_rho a)) (fun s => nth s (a_rho a) 0).
(** The functional has an energy, and what it returns as its derivatives in [a] are the
    derivatives of the energy per volume. *)
Definition xc_derivatives lib pol thr (ip : Z * list R) (a : xargs) : Prop :=
  let '(id, pars) := ip in let o := xc_at lib pol thr id pars a in
  xc_have_exc lib id = true /\
  forall c d, curve c a d -> derivable_pt_lim (fun t => edens lib pol thr id pars (c t)) 0
    (sum (length (a_rho a)) (fun s => o_vrho o s * nth s (a_rho d) 0)
     + (if is_gga lib id then sum (length (a_sigma a)) (fun s => o_vsigma o s * nth s (a_sigma d) 0) else 0)
     + (if is_tau lib id then sum (length (a_tau a)) (fun s => o_vtau o s * nth s (a_tau d) 0) else 0)
     + (if is_lapl lib id then sum (length (a_lapl a)) (fun s => o_vlapl o s * nth s (a_lapl d) 0) else 0)).
(** What the functional returns for one density with rho, sigma, lapl, tau is what it
    returns for two spins with half of the density each. *)
Definition half_spins (rho sigma lapl tau : R) : xargs :=
  mkA [rho / 2; rho / 2] [sigma / 4; sigma / 4; sigma / 4] [lapl / 2; lapl / 2] [tau / 2; tau / 2].
Definition xc_spin_symmetric lib thr (ip : Z * list R) : Prop :=
  let '(id, pars) := ip in
  forall rho sigma lapl tau,
    let o1 := xc_at lib false thr id pars (mkA [rho] [sigma] [lapl] [tau]) in
    let o2 := xc_at lib true thr id pars (half_spins rho sigma lapl tau) in
    o_exc o2 = o_exc o1 /\
    (forall s, (s < 2)%nat -> o_vrho o2 s = o_vrho o1 0%nat) /\
    (is_gga lib id = true -> o_vsigma o2 2%nat = o_vsigma o2 0%nat /\ 2 * o_vsigma o2 0%nat + o_vsigma o2 1%nat = 4 * o_vsigma o1 0%nat) /\
    (is_tau lib id = true -> forall s, (s < 2)%nat -> o_vtau o2 s = o_vtau o1 0%nat) /\
    (is_lapl lib id = true -> forall s, (s < 2)%nat -> o_vlapl o2 s = o_vlapl o1 0%nat).

(** A density matrix of orbitals C(:,k) with occupations o_k *)
Definition orbital_density (n no : nat) (o : vec) (C : mat) (P : mat) : Prop :=
  forall i j, (i < n)%nat -> (j < n)%nat -> P i j = sum no (fun k => o k * C i k * C j k).
(** P + t D *)
Definition shifted (P D : dmat) (t : R) : dmat := mkD (drows P) (dcols P) (fun i j => dent P i j + t * dent D i j).
(** P / 2 *)
Definition half (P : dmat) : dmat := mkD (drows P) (dcols P) (fun i j => dent P i j / 2).

(** What a density of orbitals with occupations that are not negative looks like in a
    point: n, tau, sigma >= 0, sigma <= 8 n tau and |sigma_ab|^2 <= sigma_aa sigma_bb. *)
Definition physical1 (a : xargs) : Prop :=
  exists rho sigma lapl tau, a = mkA [rho] [sigma] [lapl] [tau] /\ 0 <= rho /\ 0 <= tau /\ 0 <= sigma <= 8 * rho * tau.
Definition physical2 (a : xargs) : Prop :=
  exists ra rb saa sab sbb la lb ta tb, a = mkA [ra; rb] [saa; sab; sbb] [la; lb] [ta; tb] /\
    0 <= ra /\ 0 <= rb /\ 0 <= ta /\ 0 <= tb /\ 0 <= saa <= 8 * ra * ta /\ 0 <= sbb <= 8 * rb * tb /\ sab * sab <= saa * sbb.
(** Two libraries with the same functionals, which return the same for arguments in [dom]. *)
Definition agree (pol : bool) (dom : xargs -> Prop) (lib lib' : libxc) : Prop :=
  (forall id, xc_known lib id = xc_known lib' id /\ xc_family lib id = xc_family lib' id /\ xc_tau lib id = xc_tau lib' id /\
              xc_lapl lib id = xc_lapl lib' id /\ xc_have_exc lib id = xc_have_exc lib' id /\ xc_npar lib id = xc_npar lib' id) /\
  forall thr id pars a, dom a -> xc_at lib pol thr id pars a = xc_at lib' pol thr id pars a.
