(** Properties C10 and C11: radial grids. *)
Require Import Reals ZArith List Lra.
Require Import Verif.Prelude Verif.GridModel Verif.GridSpec Verif.GridProofs.
Import ListNotations.
Local Open Scope R_scope.

(* ---------------------------- C10 ---------------------------------- *)

(** Every supported grid type gives num_el+1 strictly increasing values from
    exactly 0 to exactly rmax. *)
Theorem grid_increasing : forall rmax num_el igrid zexp,
  0 < rmax -> (0 < num_el)%Z -> admissible igrid zexp ->
  exists l, get_grid rmax num_el igrid zexp = Ok l /\ grid_from_0_to rmax num_el l.
Proof. exact get_grid_ok. Qed.
Print Assumptions grid_increasing.

(** It throws exactly for unknown grid types and for a geometric ratio outside
    (0,1). *)
Theorem grid_throws_iff : forall rmax num_el igrid zexp,
  (exists e, get_grid rmax num_el igrid zexp = Throw e) <->
  (~ (1 <= igrid <= 5)%Z \/ (igrid = 5%Z /\ ~ 0 < zexp < 1)).
Proof. exact get_grid_throws. Qed.
Print Assumptions grid_throws_iff.

(** A non-positive exponent is not rejected: the polynomial grid then is not
    increasing. *)
Theorem grid_negative_exponent_refuted : exists l,
  get_grid 1 2 3 (-1) = Ok l /\ ~ increasing l.
Proof. exact negative_exponent_bad. Qed.
Print Assumptions grid_negative_exponent_refuted.

Example grid_case : 0 < 40 /\ (0 < 10)%Z /\ admissible 4 2 /\ admissible 5 (1 / 2).
Proof. unfold admissible. repeat split; try lra. right; left. split; [right; reflexivity|lra]. right; right. split; [reflexivity|lra]. Qed.

(* ---------------------------- C11 ---------------------------------- *)

(** Point nucleus at the origin: the plain grid. *)
Theorem plain_grid : forall m Rrms Nelem Rmax igrid zexp Nelem0 igrid0 zexp0 Zc Rhalf sc,
  m = POINT_NUCLEUS \/ m = REGULARIZED_NUCLEUS ->
  0 < Rmax -> (0 < Nelem)%Z -> admissible igrid zexp ->
  exists l, form_grid m Rrms Nelem Rmax igrid zexp Nelem0 igrid0 zexp0 Zc 0 0 Rhalf false sc = Ok l /\
    grid_from_0_to Rmax Nelem l.
Proof.
  exact (fun m Rrms N Rmax ig z N0 ig0 z0 Zc Rh sc Hm H1 H2 H3 =>
    eq_ind_r (fun g => exists l, g = Ok l /\ grid_from_0_to Rmax N l)
      (get_grid_ok Rmax N ig z H1 H2 H3)
      (form_grid_plain m Rrms N Rmax ig z N0 ig0 z0 Zc Rh sc Hm)).
Qed.
Print Assumptions plain_grid.

(** Off-centre nuclei: the grid has the requested end point, and both the
    off-centre position and the point between the charges are boundaries. *)
Theorem offcenter_grid : forall m Rrms Nelem Rmax igrid zexp Nelem0 igrid0 zexp0 Zc Zl Zr Rhalf sc,
  m = POINT_NUCLEUS \/ m = REGULARIZED_NUCLEUS ->
  (0 <= Zc)%Z -> (0 <= Zl)%Z -> (0 <= Zr)%Z -> (0 < Zl + Zr)%Z ->
  0 < Rhalf < Rmax -> (0 < Nelem)%Z -> (0 < Nelem0)%Z -> admissible igrid zexp ->
  exists l,
    form_grid m Rrms Nelem Rmax igrid zexp Nelem0 igrid0 zexp0 Zc Zl Zr Rhalf false sc = Ok l /\
    grid_from_0_to Rmax ((if (Zc =? 0)%Z then Nelem0 else 2 * Nelem0) + Nelem) l /\
    In Rhalf l /\ In (IZR Zc * Rhalf / IZR (Zc + Z.max Zl Zr)) l.
Proof. exact form_grid_offcenter. Qed.
Print Assumptions offcenter_grid.

(** Finite nuclei: strictly increasing from 0 with the nuclear radius among the
    boundaries, but the end point is Rmax plus the nuclear radius.  Missing from
    the full property: the grid ends at Rmax (see the next theorem). *)
Theorem finite_nucleus_grid_partial :
  forall m Rrms rnuc Nelem Rmax igrid zexp Nelem0 igrid0 zexp0 Zc Rhalf sc,
  ((m = HOLLOW_NUCLEUS /\ rnuc = Rrms) \/
   (m = SPHERICAL_NUCLEUS /\ rnuc = sqrt (5 / 3) * Rrms) \/
   (m = GAUSSIAN_NUCLEUS /\ rnuc = 3 * Rrms)) ->
  0 < rnuc < Rmax -> (0 < Nelem)%Z -> (0 < Nelem0)%Z ->
  admissible igrid zexp -> admissible igrid0 zexp0 ->
  exists l,
    form_grid m Rrms Nelem Rmax igrid zexp Nelem0 igrid0 zexp0 Zc 0 0 Rhalf false sc = Ok l /\
    grid_from_0_to (Rmax + rnuc) (2 * Nelem0 + Nelem) l /\ In rnuc l.
Proof. exact form_grid_finite. Qed.
Print Assumptions finite_nucleus_grid_partial.

(** The finite-nucleus grid never ends at the requested Rmax. *)
Theorem finite_nucleus_end_refuted :
  forall m Rrms rnuc Nelem Rmax igrid zexp Nelem0 igrid0 zexp0 Zc Rhalf sc l,
  ((m = HOLLOW_NUCLEUS /\ rnuc = Rrms) \/
   (m = SPHERICAL_NUCLEUS /\ rnuc = sqrt (5 / 3) * Rrms) \/
   (m = GAUSSIAN_NUCLEUS /\ rnuc = 3 * Rrms)) ->
  0 < rnuc < Rmax -> (0 < Nelem)%Z -> (0 < Nelem0)%Z ->
  admissible igrid zexp -> admissible igrid0 zexp0 ->
  form_grid m Rrms Nelem Rmax igrid zexp Nelem0 igrid0 zexp0 Zc 0 0 Rhalf false sc = Ok l ->
  last l 0 <> Rmax.
Proof. exact finite_end_differs. Qed.
Print Assumptions finite_nucleus_end_refuted.

(** Asking for an extra boundary inside the grid adds exactly that boundary. *)
Theorem grid_added_boundary :
  forall m Rrms Nelem Rmax igrid zexp Nelem0 igrid0 zexp0 Zc Zl Zr Rhalf sc l r n,
  form_grid m Rrms Nelem Rmax igrid zexp Nelem0 igrid0 zexp0 Zc Zl Zr Rhalf false 0 = Ok l ->
  grid_from_0_to r n l -> 0 <= sc <= r ->
  exists l',
    form_grid m Rrms Nelem Rmax igrid zexp Nelem0 igrid0 zexp0 Zc Zl Zr Rhalf true sc = Ok l' /\
    grid_from_0_to r (n + if in_dec Req_EM_T sc l then 0 else 1) l' /\
    (forall v, In v l' <-> v = sc \/ In v l).
Proof.
  exact (fun m Rrms N Rmax ig z N0 ig0 z0 Zc Zl Zr Rh sc l r n H G Hs =>
    ex_intro _ _ (conj (form_grid_add m Rrms N Rmax ig z N0 ig0 z0 Zc Zl Zr Rh sc l H)
                       (add_element_ok r n l sc G Hs))).
Qed.
Print Assumptions grid_added_boundary.

(** Off-centre charges with a finite nucleus, and unknown models, throw. *)
Theorem nuclear_grid_throws :
  forall m Rrms Nelem Rmax igrid zexp Nelem0 igrid0 zexp0 Zc Zl Zr Rhalf add_el sc,
  (m <> POINT_NUCLEUS /\ m <> REGULARIZED_NUCLEUS /\ (Zl <> 0 \/ Zr <> 0)%Z) \/
  m = NOSUCH_NUCLEUS ->
  form_grid m Rrms Nelem Rmax igrid zexp Nelem0 igrid0 zexp0 Zc Zl Zr Rhalf add_el sc
    = Throw LogicError.
Proof. exact form_grid_throws. Qed.
Print Assumptions nuclear_grid_throws.

Example nuclear_cases :
  (GAUSSIAN_NUCLEUS = GAUSSIAN_NUCLEUS /\ 3 = 3 * 1) /\ 0 < 3 < 40 /\
  (0 <= 6)%Z /\ (0 <= 0)%Z /\ (0 <= 1)%Z /\ (0 < 0 + 1)%Z /\ 0 < 1 < 40 /\ admissible 1 0.
Proof. unfold admissible. repeat split; try lra; try discriminate. auto. Qed.
