(** What the quadrature of an exchange-correlation functional has to compute in an atom
    whose density is spherical. *)
Require Import Reals ZArith List Bool Arith.
Require Import Verif.Prelude Verif.FEModel Verif.FESpec Verif.AngModel Verif.JKModel Verif.DftModel Verif.DftSpec.
Import ListNotations.
Local Open Scope R_scope.

(** A radius with the weight of its sphere, and the values and the first and second
    derivative of every radial function f_i. *)
Record rpoint := mkR { q_r : R; q_w : R; q_f : nat -> R; q_d : nat -> R; q_l : nat -> R }.

(** A density is a list: number l has the density matrix of the orbitals of angular
    momentum l. *)
Definition part (Ps : list dmat) (l : nat) : mat := dent (nth l Ps dempty).
(** sum_l sum_ij P^l_ij x_lij *)
Definition rsum (n : nat) (Ps : list dmat) (x : nat -> mat) : R := sum (length Ps) (fun l => contract n (part Ps l) (x l)).
(** f_i f_j, its derivative, f'_i f'_j, (f_i f_j)'' + 2 (f_i f_j)' / r and l(l+1) f_i f_j / r^2 *)
Definition r_n (q : rpoint) (i j : nat) : R := q_f q i * q_f q j.
Definition r_g (q : rpoint) (i j : nat) : R := q_f q i * q_d q j + q_d q i * q_f q j.
Definition r_k (q : rpoint) (i j : nat) : R := q_d q i * q_d q j.
Definition r_l (q : rpoint) (i j : nat) : R :=
  q_f q i * q_l q j + 2 * (q_d q i * q_d q j) + q_l q i * q_f q j + 2 / q_r q * r_g q i j.
Definition r_a (q : rpoint) (l i j : nat) : R := INR (l * (l + 1)) / (q_r q * q_r q) * r_n q i j.

Definition rdens n Ps q : R := rsum n Ps (fun _ => r_n q).
Definition rgrad n Ps q : R := rsum n Ps (fun _ => r_g q).
Definition rlapl n Ps q : R := rsum n Ps (fun _ => r_l q).
(** The part of twice the kinetic energy density that comes from the motion around the
    nucleus; it is not negative if the density comes from orbitals, and cut off at zero
    otherwise. *)
Definition rang n Ps q : R := rsum n Ps (fun l => r_a q l).
Definition rtau n Ps q : R := / 2 * (rsum n Ps (fun _ => r_k q) + Rmax (rang n Ps q) 0).

Definition rargs1 n Ps q : xargs := mkA [rdens n Ps q] [rgrad n Ps q * rgrad n Ps q] [rlapl n Ps q] [rtau n Ps q].
Definition rargs2 n Pa Pb q : xargs :=
  mkA [rdens n Pa q; rdens n Pb q] [rgrad n Pa q * rgrad n Pa q; rgrad n Pa q * rgrad n Pb q; rgrad n Pb q * rgrad n Pb q]
      [rlapl n Pa q; rlapl n Pb q] [rtau n Pa q; rtau n Pb q].
Definition rexc1 lib fn n Ps (pts : list rpoint) : R := lsum pts (fun q => q_w q * e_exc lib false fn (rargs1 n Ps q) * rdens n Ps q).
Definition rexc2 lib fn n Pa Pb (pts : list rpoint) : R :=
  lsum pts (fun q => q_w q * e_exc lib true fn (rargs2 n Pa Pb q) * (rdens n Pa q + rdens n Pb q)).
Definition rnel n Ps (pts : list rpoint) : R := lsum pts (fun q => q_w q * rdens n Ps q).

(** The Fock matrix of the orbitals with angular momentum l *)
Definition rfock1 lib fn n Ps (pts : list rpoint) (l i j : nat) : R :=
  lsum pts (fun q => let a := rargs1 n Ps q in
    q_w q * (e_vrho lib false fn a 0 * r_n q i j
             + e_vsigma lib false fn a 0 * (2 * rgrad n Ps q * r_g q i j)
             + e_vtau lib false fn a 0 * (/ 2 * (r_k q i j + r_a q l i j))
             + e_vlapl lib false fn a 0 * r_l q i j)).
Definition rfock2 lib fn n Pa Pb (s : nat) (pts : list rpoint) (l i j : nat) : R :=
  let own := if Nat.eqb s 0 then Pa else Pb in let other := if Nat.eqb s 0 then Pb else Pa in
  lsum pts (fun q => let a := rargs2 n Pa Pb q in
    q_w q * (e_vrho lib true fn a s * r_n q i j
             + e_vsigma lib true fn a (2 * s) * (2 * rgrad n own q * r_g q i j)
             + e_vsigma lib true fn a 1 * (rgrad n other q * r_g q i j)
             + e_vtau lib true fn a s * (/ 2 * (r_k q i j + r_a q l i j))
             + e_vlapl lib true fn a s * r_l q i j)).

(** The points of the radial quadrature, with the volume 4 pi r^2 of the spheres *)
Definition sg_point (b : abasis) (iel ir : nat) : rpoint :=
  let r := nth ir (ab_r b iel) 0 in
  mkR r (4 * PI * (r * r) * nth ir (ab_wrad b iel) 0)
    (radial_value b (ab_f b) iel ir) (radial_value b (ab_d b) iel ir) (radial_value b (ab_l b) iel ir).
Definition sg_elem_points (b : abasis) (iel : nat) : list rpoint := map (sg_point b iel) (seq 0 (length (ab_r b iel))).
Definition sg_points (b : abasis) : list rpoint := flat_map (sg_elem_points b) (seq 0 (get_nelem (ab_fe b))).

(** A valid finite element basis with tables of the right size and radii above zero. *)
Definition sg_grid_ok (b : abasis) : Prop :=
  valid_fe (ab_fe b) /\
  (forall iel, (iel < get_nelem (ab_fe b))%nat ->
     (forall r, In r (ab_r b iel) -> 0 < r) /\
     length (ab_wrad b iel) = length (ab_r b iel) /\
     (forall A, In A [ab_f b iel; ab_d b iel; ab_l b iel] ->
        drows A = length (ab_r b iel) /\ dcols A = snd (elem_range (ab_fe b) iel))).
(** At least one slice, and every slice is a symmetric matrix over the radial functions *)
Definition cube_ok (n : nat) (Ps : list dmat) : Prop := Ps <> [] /\ forall P, In P Ps -> is_density n P.
(** A list of matrices given by their entries *)
Definition is_cube (H : list dmat) (nl n : nat) (h : nat -> mat) : Prop :=
  length H = nl /\ forall l, (l < nl)%nat -> is_mat (nth l H dempty) n n (h l).
(** P + t D and P / 2 for every slice *)
Definition shifted_cube (Ps Ds : list dmat) (t : R) : list dmat := map (fun PD => shifted (fst PD) (snd PD) t) (combine Ps Ds).
Definition half_cube (Ps : list dmat) : list dmat := map half Ps.
(** The slices are densities of orbitals: orbital k of slice l has the occupation o l k *)
Definition orbital_cube (n : nat) (no : nat -> nat) (o : nat -> vec) (C : nat -> mat) (Ps : list dmat) : Prop :=
  forall l, (l < length Ps)%nat -> orbital_density n (no l) (o l) (C l) (part Ps l).
