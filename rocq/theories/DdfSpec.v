(** The grid of a diatomic molecule. *)
Require Import Reals ZArith List Bool Arith.
Require Import Verif.Prelude Verif.FEModel Verif.FESpec Verif.AngModel Verif.AngSpec Verif.JKModel Verif.DftModel Verif.DftSpec.
Import ListNotations.
Local Open Scope R_scope.

(** The functions that survive the condition at the nuclear axis, among the radial
    functions (number mod Nr) of the shells (number / Nr). *)
Definition di_functions (b : abasis) : list nat := positions survives (all_functions (ab_sh b) (at_nr b)).
Definition di_nbf (b : abasis) : nat := length (di_functions b).
Definition di_fn (b : abasis) (i : nat) : nat := nth i (di_functions b) 0%nat.
(** A point for the functions numbered by [ix]. *)
Definition pull (ix : nat -> nat) (q : gpoint) : gpoint :=
  mkP (p_w q) (fun i => p_f q (ix i)) (fun c i => p_g q c (ix i)) (fun i => p_l q (ix i)).

(** Point (iel, ir, ia) in prolate spheroidal coordinates mu, nu, phi with scale factors
    h_mu = h_nu = Rh sqrt(sinh^2 mu + sin^2 nu) and h_phi = Rh sinh mu sin nu; the volume
    element is h_mu h_nu h_phi, with sin nu in the weight of the angular rule.  A function
    is its radial function times the spherical harmonic of (nu, phi); gradient in the
    orthonormal directions. *)
Definition di_raw_point (b : abasis) (Rh : R) (ru : rule) (iel ir ia : nat) : gpoint :=
  let mu := nth ir (ab_r b iel) 0 in
  let cth := a_cth (ang ru ia) in let phi := a_phi (ang ru ia) in let sth := sqrt (1 - cth * cth) in
  let h := Rh * sqrt (sinh mu * sinh mu + sth * sth) in
  let l i := fst (shell (ab_sh b) (i / at_nr b)) in let m i := snd (shell (ab_sh b) (i / at_nr b)) in
  let Y i := ab_Y b (l i) (m i) cth phi in
  let f i := radial_value b (ab_f b) iel ir (i mod at_nr b) in
  let f' i := radial_value b (ab_d b) iel ir (i mod at_nr b) in
  let f'' i := radial_value b (ab_l b) iel ir (i mod at_nr b) in
  mkP (a_w (ang ru ia) * nth ir (ab_wrad b iel) 0 * (h * h * (Rh * sinh mu)))
    (fun i => cscal (f i) (Y i))
    (fun c i => match c with
                | 0%nat => cscal (f' i / h) (Y i)
                | 1%nat => cscal (f i / h) (dtheta (ab_Y b) (l i) (m i) cth phi)
                | _ => cscal (f i / (Rh * sinh mu * sth)) (cmul (0, IZR (m i)) (Y i))
                end)
    (fun i => cscal ((f'' i + cosh mu / sinh mu * f' i
                      - (IZR (l i * (l i + 1)) + IZR (m i * m i) / (sinh mu * sinh mu)) * f i) / (h * h)) (Y i)).
Definition di_row_points (b : abasis) (Rh : R) (ru : rule) (iel ir : nat) : list gpoint :=
  map (fun ia => di_raw_point b Rh ru iel ir ia) (seq 0 (length ru)).
Definition di_raw_points (b : abasis) (Rh : R) (ru : rule) : list gpoint :=
  flat_map (fun iel => flat_map (di_row_points b Rh ru iel) (seq 0 (length (ab_r b iel)))) (seq 0 (get_nelem (ab_fe b))).
Definition di_points (b : abasis) (Rh : R) (ru : rule) : list gpoint := map (pull (di_fn b)) (di_raw_points b Rh ru).

(** The bond is longer than zero, the basis and its tables are consistent and no point is
    on the axis. *)
Definition di_grid_ok (b : abasis) (Rh : R) (ru : rule) : Prop := 0 < Rh /\ at_grid_ok b ru.
