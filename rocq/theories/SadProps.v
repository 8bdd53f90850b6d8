(** Properties of the spherically averaged atom and of the tabulated atoms. *)
Require Import Reals Lra Lia List Arith Bool ZArith.
Require Import Verif.Prelude Verif.FEModel Verif.FESpec.
Require Import Verif.SadModel Verif.SadSpec Verif.SadProofs Verif.SadRoot Verif.SadField Verif.SadAtom Verif.SadDens Verif.SadWit.
Import ListNotations.
Open Scope R_scope.

(* ------------------------------------------------------------------ *)
(** * C39: vdw_radius *)

(** 0 if no quadrature point is above the threshold. *)
Theorem C39_none : forall nel npts xq rad first len bf P thr eps, small nel -> (1 <= npts)%nat ->
  (forall e i, (e < nel)%nat -> (i < npts)%nat -> point_density first len bf P e (xq i) <= thr) ->
  vdw_radius nel npts xq rad first len bf P thr eps = Ok 0.
Proof. exact vdw_none. Qed.
Print Assumptions C39_none.
Example C39_none_case : forall e i, (e < 1)%nat -> (i < 3)%nat -> point_density wfirst wlen2 (wbf ramp) (wP (2 * PI)) e (wx i) <= 1.
Proof. exact (fun e i _ Hi => eq_ind_r (fun y => y <= 1) (ramp_le i Hi) (wdens ramp e (wx i))). Qed.

(** Otherwise a point next to the quadrature point closest to the threshold, in the
    outermost element that exceeds it.  The search solves for density = tolerance: if the
    neighbours bracket that level, the result is within half the tolerance of a crossing;
    if the density exceeds the tolerance between the neighbours, it is the right one. *)
Theorem C39_level_partial : forall nel npts xq rad first len bf P thr eps r, small nel -> (2 <= npts)%nat -> points_ok npts xq ->
  (exists e, (e < nel)%nat /\ exists i, (i < npts)%nat /\ thr < point_density first len bf P e (xq i)) ->
  vdw_radius nel npts xq rad first len bf P thr eps = Ok r ->
  exists e i a b x, (e < nel)%nat /\
    (exists i, (i < npts)%nat /\ thr < point_density first len bf P e (xq i)) /\
    (forall k, (e < k)%nat -> (k < nel)%nat -> ~ exists i, (i < npts)%nat /\ thr < point_density first len bf P k (xq i)) /\
    (i < npts)%nat /\
    (forall k, (k < npts)%nat -> Rabs (point_density first len bf P e (xq i) - thr) <= Rabs (point_density first len bf P e (xq k) - thr)) /\
    (forall k, (k < i)%nat -> Rabs (point_density first len bf P e (xq i) - thr) < Rabs (point_density first len bf P e (xq k) - thr)) /\
    neighbours npts xq i a b /\ a <= x <= b /\ r = rad e x /\
    (0 < eps -> continuous_on (point_density first len bf P e) (-1) 1 ->
       point_density first len bf P e b <= eps <= point_density first len bf P e a ->
       exists y, a <= y <= b /\ Rabs (y - x) <= eps / 2 /\ point_density first len bf P e y = eps) /\
    ((forall z, a <= z <= b -> eps < point_density first len bf P e z) -> b - x < eps / 2).
Proof. exact vdw_some. Qed.
Print Assumptions C39_level_partial.

(** If the tolerance is the threshold, a density decreasing in every element is met. *)
Theorem C39_equal_partial : forall nel npts xq rad first len bf P thr r, small nel -> (2 <= npts)%nat -> points_ok npts xq -> 0 < thr ->
  (exists e, (e < nel)%nat /\ exists i, (i < npts)%nat /\ thr < point_density first len bf P e (xq i)) ->
  (forall e, (e < nel)%nat -> continuous_on (point_density first len bf P e) (-1) 1 /\ decreasing_on (point_density first len bf P e) (-1) 1) ->
  (forall e, (e < nel)%nat ->
     (forall k, (e < k)%nat -> (k < nel)%nat -> ~ exists i, (i < npts)%nat /\ thr < point_density first len bf P k (xq i)) ->
     point_density first len bf P e 1 <= thr) ->
  vdw_radius nel npts xq rad first len bf P thr thr = Ok r ->
  exists e x y, (e < nel)%nat /\ -1 <= x <= 1 /\ -1 <= y <= 1 /\ r = rad e x /\ Rabs (y - x) <= thr / 2 /\ point_density first len bf P e y = thr.
Proof. exact vdw_equal. Qed.
Print Assumptions C39_equal_partial.

(** The iteration limit is not reached for tolerances above 2^-98. *)
Theorem C39_returns : forall nel npts xq rad first len bf P thr eps, small nel -> (2 <= npts)%nat -> points_ok npts xq -> / 2 ^ 98 < eps ->
  exists r, vdw_radius nel npts xq rad first len bf P thr eps = Ok r.
Proof. exact vdw_returns. Qed.
Print Assumptions C39_returns.

Example C39_case : small 1 /\ points_ok 3 wx /\ continuous_on ramp (-1) 1 /\ decreasing_on ramp (-1) 1 /\
  (forall e x, point_density wfirst wlen2 (wbf ramp) (wP (2 * PI)) e x = ramp x) /\ 1 / 2 < ramp (wx 0) /\ ramp 1 <= 1 / 2.
Proof. exact vdw_case. Qed.

(** The documented level is missed: for a density falling linearly through the threshold
    the returned radius is off by more than seven times the tolerance. *)
Theorem C39_level_refuted : exists r, vdw_radius 1 3 wx shift_rad wfirst wlen2 (wbf ramp) (wP (2 * PI)) (1 / 2) (1 / 16) = Ok r /\
  forall y, -1 <= y <= 1 -> point_density wfirst wlen2 (wbf ramp) (wP (2 * PI)) 0 y = 1 / 2 -> 7 * (1 / 16) < Rabs (r - shift_rad 0 y).
Proof. exact vdw_wrong. Qed.
Print Assumptions C39_level_refuted.

(* ------------------------------------------------------------------ *)
(** * C40: electron_count_radius *)

(** For a count between 0 and the number of electrons the search ends at a coordinate
    within the tolerance of one outside of which exactly eps electrons are found. *)
Theorem C40_count : forall nel rad first len S part P eps thr, small nel ->
  0 < eps <= sum nel (fun e => block_trace (first e) (len e) P (S e)) -> 0 < thr ->
  (forall e, (e < nel)%nat -> continuous_on (fun m => block_trace (first e) (len e) P (part e m)) (-1) 1 /\
     block_trace (first e) (len e) P (part e (-1)) = block_trace (first e) (len e) P (S e) /\
     block_trace (first e) (len e) P (part e 1) = 0) ->
  exists n0 e m y, (e < nel)%nat /\ -1 <= m <= 1 /\ -1 <= y <= 1 /\ Rabs (y - m) < thr /\
    block_trace (first e) (len e) P (part e y) + above nel (fun e => block_trace (first e) (len e) P (S e)) e = eps /\
    forall fuel, (n0 <= fuel)%nat -> electron_count_radius nel rad first len fuel S part P eps thr = Ok (rad e m).
Proof. exact count_ok. Qed.
Print Assumptions C40_count.
Example C40_count_case : small 2 /\ 0 < 3 / 2 <= sum 2 (fun e => block_trace (wfirst e) (wlen1 e) wP1 (wS e)) /\
  forall e, (e < 2)%nat -> continuous_on (fun m => block_trace (wfirst e) (wlen1 e) wP1 (wpart e m)) (-1) 1 /\
    block_trace (wfirst e) (wlen1 e) wP1 (wpart e (-1)) = block_trace (wfirst e) (wlen1 e) wP1 (wS e) /\
    block_trace (wfirst e) (wlen1 e) wP1 (wpart e 1) = 0.
Proof. exact count_wit. Qed.

(** For more electrons than there are the code reads an element that does not exist. *)
Theorem C40_beyond : forall nel rad first len S part P eps thr fuel, small nel ->
  (forall e, (e < nel)%nat -> 0 <= block_trace (first e) (len e) P (S e)) -> 0 < eps ->
  sum nel (fun e => block_trace (first e) (len e) P (S e)) < eps ->
  electron_count_radius nel rad first len fuel S part P eps thr = UB.
Proof. exact count_beyond. Qed.
Print Assumptions C40_beyond.
Theorem C40_index_refuted : forall fuel, electron_count_radius 2 shift_rad wfirst wlen1 fuel wS wpart wP1 3 (1 / 8) = UB.
Proof. exact count_wit_beyond. Qed.
Print Assumptions C40_index_refuted.

(* ------------------------------------------------------------------ *)
(** * C41: screening *)

(** Entry of a point: the charges of all elements below, and r times the in-element
    potential and the moments of all elements above; zero at the nucleus. *)
Theorem C41_veff : forall nel npts xq rad first len zm mo pot P, small nel -> (1 <= nel)%nat ->
  (forall e i, (e < nel)%nat -> (i < npts)%nat -> rad e (xq i) <> 0) ->
  exists V, coulomb_screening nel npts xq rad first len zm mo pot P = Ok V /\ V 0%nat = 0 /\
    forall e i, (e < nel)%nat -> (i < npts)%nat ->
      V (1 + e * npts + i)%nat =
        sum e (fun j => block_trace (first j) (len j) P (zm j))
        + rad e (xq i) * (sum (len e) (fun a => sum (len e) (fun b =>
                             pot e i (b * len e + a)%nat * P (first e + a)%nat (first e + b)%nat))
                          + above nel (fun j => block_trace (first j) (len j) P (mo j)) e).
Proof. exact screening_ok. Qed.
Print Assumptions C41_veff.

(** With exact matrices this is r times the Hartree potential of 4 pi rho = d. *)
Theorem C41_potential : forall b, valid_fe b -> forall npts xq first len zm mo pot P d, small (get_nelem b) ->
  (forall i, (i < npts)%nat -> -1 <= xq i <= 1) ->
  (forall e i, (e < get_nelem b)%nat -> (i < npts)%nat -> radius_of b e (xq i) <> 0) ->
  (forall e, (e < get_nelem b)%nat ->
     is_int (charge d) (left_end b e) (right_end b e) (block_trace (first e) (len e) P (zm e)) /\
     is_int (moment d) (left_end b e) (right_end b e) (block_trace (first e) (len e) P (mo e))) ->
  (forall e i, (e < get_nelem b)%nat -> (i < npts)%nat -> exists qi mi,
     is_int (charge d) (left_end b e) (radius_of b e (xq i)) qi /\ is_int (moment d) (radius_of b e (xq i)) (right_end b e) mi /\
     sum (len e) (fun a => sum (len e) (fun c => pot e i (c * len e + a)%nat * P (first e + a)%nat (first e + c)%nat))
       = qi / radius_of b e (xq i) + mi) ->
  exists V, coulomb_screening (get_nelem b) npts xq (radius_of b) first len zm mo pot P = Ok V /\ V 0%nat = 0 /\
    forall e i, (e < get_nelem b)%nat -> (i < npts)%nat -> exists q m,
      is_int (charge d) (nth 0 (fe_bval b) 0) (radius_of b e (xq i)) q /\
      is_int (moment d) (radius_of b e (xq i)) (last_end b) m /\
      V (1 + e * npts + i)%nat = q + radius_of b e (xq i) * m.
Proof. exact screening_int. Qed.
Print Assumptions C41_potential.
Example C41_potential_case :
  (forall i, (i < 1)%nat -> -1 <= wmid i <= 1) /\
  (forall e i, (e < get_nelem wgrid)%nat -> (i < 1)%nat -> radius_of wgrid e (wmid i) <> 0) /\
  (forall e, (e < get_nelem wgrid)%nat ->
     is_int (charge one) (left_end wgrid e) (right_end wgrid e) (block_trace (wfirst e) (wlen1 e) wP1 (wzm e)) /\
     is_int (moment one) (left_end wgrid e) (right_end wgrid e) (block_trace (wfirst e) (wlen1 e) wP1 (wmo e))) /\
  (forall e i, (e < get_nelem wgrid)%nat -> (i < 1)%nat -> exists qi mi,
     is_int (charge one) (left_end wgrid e) (radius_of wgrid e (wmid i)) qi /\
     is_int (moment one) (radius_of wgrid e (wmid i)) (right_end wgrid e) mi /\
     sum (wlen1 e) (fun a => sum (wlen1 e) (fun c => wpot e i (c * wlen1 e + a)%nat * wP1 (wfirst e + a)%nat (wfirst e + c)%nat))
       = qi / radius_of wgrid e (wmid i) + mi).
Proof. exact screening_wit. Qed.

(** The tabulated atom: the constructor succeeds, and inside the grid enclosed_charge is
    the integral of the charge up to r and hartree_screening that plus r times the moment
    beyond r, up to the errors of the in-element rule. *)
Theorem C41_atom : forall b, valid_fe b -> forall first len bf P nq xq wq d err, represents b (rho4 first len bf P) d ->
  (forall q, (q < nq)%nat -> -1 <= xq q <= 1) -> 0 <= err ->
  rule_error b nq xq wq (charge d) err -> rule_error b nq xq wq (moment d) err ->
  forall N M, is_int (charge d) (nth 0 (fe_bval b) 0) (last_end b) N -> is_int (moment d) (nth 0 (fe_bval b) 0) (last_end b) M ->
  exists t, make_atom b first len bf P nq xq wq = Ok t /\ Rlast t = last_end b /\ Rabs (Ntot t - N) <= INR (get_nelem b) * err /\
  forall fuel r, (get_nelem b <= fuel)%nat -> nth 0 (fe_bval b) 0 <= r -> 0 < r -> r < last_end b ->
    exists q m ve vh, is_int (charge d) (nth 0 (fe_bval b) 0) r q /\ is_int (moment d) r (last_end b) m /\
      enclosed_charge b first len bf P nq xq wq fuel t r = Ok ve /\ hartree_screening b first len bf P nq xq wq fuel t r = Ok vh /\
      Rabs (ve - q) <= INR (get_nelem b) * err /\ Rabs (vh - (q + r * m)) <= INR (get_nelem b) * err * (1 + r).
Proof. exact atom_ok. Qed.
Print Assumptions C41_atom.
(** Outside of the grid. *)
Theorem C41_outside : forall b first len bf P nq xq wq fuel t r,
  (r <= 0 -> enclosed_charge b first len bf P nq xq wq fuel t r = Ok 0 /\ hartree_screening b first len bf P nq xq wq fuel t r = Ok 0) /\
  (0 < r -> Rlast t <= r -> enclosed_charge b first len bf P nq xq wq fuel t r = Ok (Ntot t) /\
     hartree_screening b first len bf P nq xq wq fuel t r = Ok (Ntot t)).
Proof. exact outside_ok. Qed.
Print Assumptions C41_outside.
(** A nonnegative density: 0 <= enclosed charge <= screening <= number of electrons, and the
    enclosed charge does not decrease. *)
Theorem C41_bounds : forall b first len bf P nq xq wq d N M, valid_fe b -> represents b (rho4 first len bf P) d ->
  (forall q, (q < nq)%nat -> -1 <= xq q <= 1) ->
  rule_error b nq xq wq (charge d) 0 -> rule_error b nq xq wq (moment d) 0 ->
  is_int (charge d) (nth 0 (fe_bval b) 0) (last_end b) N -> is_int (moment d) (nth 0 (fe_bval b) 0) (last_end b) M ->
  (forall s, 0 <= d s) ->
  exists t, make_atom b first len bf P nq xq wq = Ok t /\ Ntot t = N /\
  forall fuel r, (get_nelem b <= fuel)%nat -> nth 0 (fe_bval b) 0 <= r -> 0 < r -> r < last_end b ->
    exists ve vh, enclosed_charge b first len bf P nq xq wq fuel t r = Ok ve /\ hartree_screening b first len bf P nq xq wq fuel t r = Ok vh /\
      0 <= ve /\ ve <= vh /\ vh <= Ntot t /\
      forall r' ve', r <= r' -> r' < last_end b -> enclosed_charge b first len bf P nq xq wq fuel t r' = Ok ve' -> ve <= ve'.
Proof. exact bounds_ok. Qed.
Print Assumptions C41_bounds.
Example C41_atom_case : valid_fe wgrid /\ represents wgrid (rho4 wfirst wlen1 wbf1 wP1) one /\
  (forall q, (q < 3)%nat -> -1 <= lx q <= 1) /\ rule_error wgrid 3 lx lw (charge one) 0 /\ rule_error wgrid 3 lx lw (moment one) 0 /\
  is_int (charge one) (nth 0 (fe_bval wgrid) 0) (last_end wgrid) (8 / 3) /\ is_int (moment one) (nth 0 (fe_bval wgrid) 0) (last_end wgrid) 2.
Proof. exact (conj wgrid_ok (conj wone (conj lx_ok (conj (charge_rule wgrid) (conj (moment_rule wgrid) (conj wgrid_charge wgrid_moment)))))). Qed.

(* ------------------------------------------------------------------ *)
(** * C71: the arrays over all quadrature points *)

(** Entry 0 is the nucleus, entry 1 + e npts + i point i of element e. *)
Theorem C71_layout : forall nel npts xq rad first len bf df lf wrad P c nuc, (1 <= nel)%nat ->
  exists w r o o1 o2 n g l,
    quadrature_weights nel npts wrad = Ok w /\ radii nel npts xq rad = Ok r /\
    orbital_derivative nel npts xq first len df c = Ok o1 /\ orbital_second_derivative nel npts xq first len lf c = Ok o2 /\
    orbital nel npts xq first len bf c nuc = Ok o /\ electron_density_all nel npts xq rad first len bf P false nuc = Ok n /\
    electron_density_gradient nel npts xq first len bf df P = Ok g /\
    electron_density_laplacian nel npts xq rad first len bf df lf P = Ok l /\
    w 0%nat = 0 /\ r 0%nat = 0 /\ o 0%nat = nuc /\ o1 0%nat = 0 /\ o2 0%nat = 0 /\ n 0%nat = nuc /\ g 0%nat = 0 /\ l 0%nat = 0 /\
    forall e i, (e < nel)%nat -> (i < npts)%nat ->
      w (1 + e * npts + i)%nat = wrad e i /\ r (1 + e * npts + i)%nat = rad e (xq i) /\
      o (1 + e * npts + i)%nat = orbital_at (first e) (len e) (bf e (xq i)) c /\
      o1 (1 + e * npts + i)%nat = orbital_at (first e) (len e) (df e (xq i)) c /\
      o2 (1 + e * npts + i)%nat = orbital_at (first e) (len e) (lf e (xq i)) c /\
      n (1 + e * npts + i)%nat = pairing (first e) (len e) P (bf e (xq i)) (bf e (xq i)) /\
      g (1 + e * npts + i)%nat = 2 * pairing (first e) (len e) P (bf e (xq i)) (df e (xq i)) /\
      l (1 + e * npts + i)%nat = 2 * (pairing (first e) (len e) P (df e (xq i)) (df e (xq i)) + pairing (first e) (len e) P (bf e (xq i)) (lf e (xq i)))
        + 2 * (2 * pairing (first e) (len e) P (bf e (xq i)) (df e (xq i))) / rad e (xq i).
Proof. exact layout_ok. Qed.
Print Assumptions C71_layout.

(** Summing weight times r^2 density over the arrays is the quadrature over all elements. *)
Theorem C71_integral : forall nel npts xq rad first len bf wrad P nuc w n, (1 <= nel)%nat ->
  quadrature_weights nel npts wrad = Ok w -> electron_density_all nel npts xq rad first len bf P true nuc = Ok n ->
  sum (1 + nel * npts) (fun k => w k * n k)
  = sum nel (fun e => sum npts (fun i => wrad e i * (rad e (xq i) ^ 2 * pairing (first e) (len e) P (bf e (xq i)) (bf e (xq i))))).
Proof. exact integral_ok. Qed.
Print Assumptions C71_integral.
Example C71_case : exists w, quadrature_weights 2 3 (fun e i => INR (e * 3 + i)) = Ok w /\ w 6%nat = 5.
Proof. exact layout_case. Qed.

(* ------------------------------------------------------------------ *)
(** * C72: derivatives of the density *)

(** Inside an element, with df and lf the first and second derivatives of bf in r, the
    gradient is the derivative of the density and r^2 times the Laplacian the derivative of
    r^2 times the gradient.  [X] is the primitive coordinate as a function of the radius. *)
Theorem C72_derivatives : forall rad first len bf df lf P e (X : R -> R) r, symmetric_block (first e) (len e) P -> r <> 0 -> rad e (X r) = r ->
  (forall a, (a < len e)%nat -> derivable_pt_lim (fun s => bf e (X s) a) r (df e (X r) a)) ->
  (forall a, (a < len e)%nat -> derivable_pt_lim (fun s => df e (X s) a) r (lf e (X r) a)) ->
  derivable_pt_lim (fun s => electron_density rad first len bf P false e (X s)) r (density_gradient first len bf df P e (X r)) /\
  derivable_pt_lim (fun s => s * s * density_gradient first len bf df P e (X s)) r (r * r * density_laplacian rad first len bf df lf P e (X r)).
Proof. exact derivatives_ok. Qed.
Print Assumptions C72_derivatives.
(** The same for density, density_gradient and density_laplacian of a tabulated atom. *)
Theorem C72_atom : forall b first len bf df lf P t fuel, valid_fe b -> (get_nelem b <= fuel)%nat -> Rlast t = last_end b ->
  0 <= nth 0 (fe_bval b) 0 ->
  forall e r g g', (e < get_nelem b)%nat -> left_end b e < r < right_end b e -> symmetric_block (first e) (len e) P ->
  (forall a, (a < len e)%nat -> derivable_pt_lim (fun s => bf e (prim_of b e s) a) r (df e (prim_of b e r) a)) ->
  (forall s, density b first len bf P fuel t s = Ok (g s)) -> (forall s, atom_gradient b first len bf df P fuel t s = Ok (g' s)) ->
  derivable_pt_lim g r (g' r) /\
  ((forall a, (a < len e)%nat -> derivable_pt_lim (fun s => df e (prim_of b e s) a) r (lf e (prim_of b e r) a)) ->
   exists l, atom_laplacian b first len bf df lf P fuel t r = Ok l /\ derivable_pt_lim (fun s => s * s * g' s) r (r * r * l)).
Proof. exact gradient_ok. Qed.
Print Assumptions C72_atom.
Example C72_case : forall e r a, (e < 2)%nat ->
  derivable_pt_lim (fun s => fall e (prim_of wgrid e s) a) r (fall1 e (prim_of wgrid e r) a) /\
  derivable_pt_lim (fun s => fall1 e (prim_of wgrid e s) a) r (fall2 e (prim_of wgrid e r) a).
Proof. exact fall_der. Qed.

(** The density of a tabulated atom: sum over the orbitals of occupation times square, over
    4 pi; zero outside of the grid. *)
Theorem C72_orbitals : forall b first len bf t fuel nl norb occ C d, valid_fe b -> (get_nelem b <= fuel)%nat -> Rlast t = last_end b ->
  (forall e x, (e < get_nelem b)%nat -> -1 <= x <= 1 ->
     d (radius_of b e x) = sum nl (fun l => sum (norb l) (fun o => occ l o * orbital_at (first e) (len e) (bf e x) (fun i => C l i o) ^ 2))) ->
  forall r, nth 0 (fe_bval b) 0 <= r ->
  (0 < r <= last_end b -> density b first len bf (contract nl norb occ C) fuel t r = Ok (d r / (4 * PI))) /\
  (r <= 0 \/ last_end b < r -> density b first len bf (contract nl norb occ C) fuel t r = Ok 0).
Proof. exact orbital_density. Qed.
Print Assumptions C72_orbitals.
Theorem C72_check : forall mZ lm Z l, check mZ lm Z l = Ok tt <-> (1 <= Z <= mZ)%Z /\ (0 <= l <= lm)%Z.
Proof. exact check_ok. Qed.
Print Assumptions C72_check.

(* ------------------------------------------------------------------ *)
(** * C73: kinetic energy density *)
Theorem C73_kinetic : forall rad first len bf df nl (norb : nat -> nat) (occ : nat -> vec) (C : nat -> nat -> vec) e x,
  rad e x <> 0 -> (forall l o, (l < nl)%nat -> (o < norb l)%nat -> 0 <= occ l o) ->
  kinetic_density rad first len bf df nl (fun l i j => sum (norb l) (fun o => occ l o * (C l o i * C l o j))) e x
  = 1 / 2 * sum nl (fun l => sum (norb l) (fun o => occ l o *
      (orbital_at (first e) (len e) (df e x) (C l o) ^ 2 + INR (l * (l + 1)) * orbital_at (first e) (len e) (bf e x) (C l o) ^ 2 / rad e x ^ 2))).
Proof. exact kinetic_orbitals. Qed.
Print Assumptions C73_kinetic.
Theorem C73_lower : forall rad first len bf df nl Pl e x,
  1 / 2 * sum nl (fun l => pairing (first e) (len e) (Pl l) (df e x) (df e x)) <= kinetic_density rad first len bf df nl Pl e x.
Proof. exact kinetic_lower. Qed.
Print Assumptions C73_lower.
Theorem C73_array : forall nel npts xq rad first len bf df nl Pl, (1 <= nel)%nat -> (1 <= nl)%nat ->
  exists t, kinetic_energy_density nel npts xq rad first len bf df nl Pl = Ok t /\ t 0%nat = 0 /\
    forall e i, (e < nel)%nat -> (i < npts)%nat -> t (1 + e * npts + i)%nat = kinetic_density rad first len bf df nl Pl e (xq i).
Proof. exact kinetic_array. Qed.
Print Assumptions C73_array.
Example C73_case : kinetic_density shift_rad wfirst wlen1 wbf1 wbf1 2 (fun l i j => sum 1 (fun o => 2 * (1 * 1))) 0 0 = 4.
Proof. exact kinetic_case. Qed.

(* ------------------------------------------------------------------ *)
(** * C74: electron_density_maximum_radius *)

(** Whatever is returned, no quadrature point exceeds the density there by 100 DBL_EPSILON. *)
Theorem C74_guard : forall nel npts xq rad first len bf P (rsq : bool) fuel deps eps r, points_ok npts xq ->
  electron_density_maximum_radius nel npts xq rad first len bf fuel deps P rsq eps = Ok r ->
  exists e x, (e < nel)%nat /\ -1 <= x <= 1 /\ r = rad e x /\
    forall k i, (k < nel)%nat -> (i < npts)%nat ->
      pairing (first k) (len k) P (bf k (xq i)) (bf k (xq i)) * (if rsq then rad k (xq i) ^ 2 else 1)
      < pairing (first e) (len e) P (bf e x) (bf e x) * (if rsq then rad e x ^ 2 else 1) + 100 * deps.
Proof. exact max_guard. Qed.
Print Assumptions C74_guard.
(** If one quadrature point is the highest and the density has one peak between its
    neighbours, the search ends within half the tolerance of the peak. *)
Theorem C74_peak : forall nel npts xq rad first len bf P (rsq : bool) deps eps e i p a b, points_ok npts xq -> (2 <= npts)%nat -> (e < nel)%nat -> (i < npts)%nat -> 0 < eps ->
  (forall k j, (k < nel)%nat -> (j < npts)%nat -> (k, j) <> (e, i) ->
     pairing (first k) (len k) P (bf k (xq j)) (bf k (xq j)) * (if rsq then rad k (xq j) ^ 2 else 1)
     < pairing (first e) (len e) P (bf e (xq i)) (bf e (xq i)) * (if rsq then rad e (xq i) ^ 2 else 1)) ->
  neighbours npts xq i a b ->
  peak (fun x => pairing (first e) (len e) P (bf e x) (bf e x) * (if rsq then rad e x ^ 2 else 1)) a b p ->
  exists n0 x, a <= x <= b /\ Rabs (x - p) <= eps / 2 /\ forall fuel, (n0 <= fuel)%nat ->
    electron_density_maximum_radius nel npts xq rad first len bf fuel deps P rsq eps
    = if Rleb (100 * deps) (pairing (first e) (len e) P (bf e (xq i)) (bf e (xq i)) * (if rsq then rad e (xq i) ^ 2 else 1)
                            - pairing (first e) (len e) P (bf e x) (bf e x) * (if rsq then rad e x ^ 2 else 1))
      then Throw LogicError else Ok (rad e x).
Proof. exact max_peak. Qed.
Print Assumptions C74_peak.
Example C74_case : points_ok 3 wx /\ neighbours 3 wx 1 (-(1/2)) (1/2) /\ peak hump (-(1/2)) (1/2) (1/8) /\
  (forall e x, pairing (wfirst e) (wlen2 e) (wP (1 / 2)) (wbf hump e x) (wbf hump e x) = hump x) /\
  forall j, (j < 3)%nat -> j <> 1%nat -> hump (wx j) < hump (wx 1).
Proof. exact peak_case. Qed.
