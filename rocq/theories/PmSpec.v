(** The grid of a diatomic molecule whose orbitals have a definite m. *)
Require Import Reals ZArith List Bool Arith.
Require Import Verif.Prelude Verif.FEModel Verif.FESpec Verif.AngModel Verif.AngSpec Verif.JKModel Verif.DftModel Verif.DftSpec Verif.DdfSpec.
Import ListNotations.
Local Open Scope R_scope.

(** The rule (cos nu, w) as points of the half plane phi = 0; integration over phi has
    given 2 pi. *)
Definition plane (ru : list (R * R)) : rule := map (fun q => (fst q, 0, 2 * PI * snd q)) ru.

(** l, m and the radial function of a function of the basis that still has the functions
    removed by the boundary conditions. *)
Definition raw_l (b : abasis) (i : nat) : Z := fst (shell (ab_sh b) (i / at_nr b)).
Definition raw_m (b : abasis) (i : nat) : Z := snd (shell (ab_sh b) (i / at_nr b)).
Definition raw_k (b : abasis) (i : nat) : nat := (i mod at_nr b)%nat.
Definition fn_m (b : abasis) (i : nat) : Z := raw_m b (di_fn b i).
(** The part of a matrix that does not mix m *)
Definition mdiag (b : abasis) (P : mat) (i j : nat) : R := if (fn_m b i =? fn_m b j)%Z then P i j else 0.
(** The same function with the opposite m *)
Definition raw_mates (b : abasis) (i i' : nat) : Prop := raw_l b i' = raw_l b i /\ raw_m b i' = (- raw_m b i)%Z /\ raw_k b i' = raw_k b i.
(** The density of m is the density of -m. *)
Definition absm_symmetric (b : abasis) (P : mat) : Prop :=
  forall i j i' j', (i < di_nbf b)%nat -> (j < di_nbf b)%nat -> (i' < di_nbf b)%nat -> (j' < di_nbf b)%nat ->
    fn_m b i = fn_m b j -> raw_mates b (di_fn b i) (di_fn b i') -> raw_mates b (di_fn b j) (di_fn b j') -> P i' j' = P i j.

(** The values of l of the shells of m *)
Definition ls (sh : list (Z * Z)) (m : Z) : list Z := map fst (filter (fun lm => (snd lm =? m)%Z) sh).
(** -l <= m <= l, and a basis with as many shells of m as of -m has them for the same
    values of l in the same order. *)
Definition shells_ok (sh : list (Z * Z)) : Prop :=
  (forall l m, In (l, m) sh -> (- l <= m <= l)%Z) /\
  forall m, length (ls sh (- m)) = length (ls sh m) -> ls sh (- m) = ls sh m.
(** What the spherical harmonics satisfy in the half plane phi = 0: they are real, and
    Y_l,-m = (-1)^m Y_lm, also for the derivative. *)
Definition sign (m : Z) : R := if Z.even m then 1 else -1.
Definition harmonics_ok (b : abasis) (c : R) : Prop :=
  forall l m, (- l <= m <= l)%Z ->
    snd (ab_Y b l m c 0) = 0 /\ ab_Y b l (- m)%Z c 0 = cscal (sign m) (ab_Y b l m c 0) /\
    dtheta (ab_Y b) l (- m)%Z c 0 = cscal (sign m) (dtheta (ab_Y b) l m c 0).
Definition pm_grid_ok (b : abasis) (Rh : R) (ru : list (R * R)) : Prop :=
  di_grid_ok b Rh (plane ru) /\ shells_ok (ab_sh b) /\ (forall q, In q ru -> harmonics_ok b (fst q)).

Definition no_entries (P : dmat) : Prop := drows P = 0%nat \/ dcols P = 0%nat.
Definition wrong_size (b : abasis) (P : dmat) : Prop := drows P <> di_nbf b \/ dcols P <> di_nbf b.

(** An example: three elements, the shells sigma(l=0), sigma(l=1), pi(l=1) for both signs
    of m, spherical harmonics up to a common factor, and zero for l > 1. *)
Definition wY (l m : Z) (c phi : R) : R * R :=
  if Z.eqb l 0 then (if Z.eqb m 0 then 1 else 0, 0)
  else if Z.eqb l 1 then
    if Z.eqb m 0 then (sqrt 2 * c, 0)
    else if Z.eqb m 1 then (- sqrt (1 - c * c) * cos phi, - sqrt (1 - c * c) * sin phi)
    else if Z.eqb m (-1) then (sqrt (1 - c * c) * cos phi, - sqrt (1 - c * c) * sin phi)
    else (0, 0)
  else (0, 0).
Definition wpm : abasis :=
  let f := mkFE LIP 2 [0; 1; 2; 3] false false true false in
  mkAB [(0, 0); (1, 0); (1, 1); (1, -1)]%Z f (fun iel => [INR iel + / 2]) (fun _ => [1])
    (fun iel => mkD 1 (snd (elem_range f iel)) (fun _ _ => 1)) (fun iel => mkD 1 (snd (elem_range f iel)) (fun _ _ => 1))
    (fun iel => mkD 1 (snd (elem_range f iel)) (fun _ _ => 0)) wY.
Definition wnu : list (R * R) := [(/ 2, 1); (- / 3, 2)].
Definition wpmg (i : nat) : R := 1 + IZR (raw_l wpm (di_fn wpm i)) + INR (raw_k wpm (di_fn wpm i)).
Definition wpmP : dmat := mkD 10 10 (fun i j => wpmg i * wpmg j).

(** * The same grid with points around the axis *)
(** nphi points around the axis for every node in nu *)
Definition around (ru : list (R * R)) (nphi : nat) : rule :=
  flat_map (fun q => map (fun j => (fst q, INR j * (2 * PI / INR nphi), snd q * (2 * PI / INR nphi))) (seq 0 nphi)) ru.
(** Y_lm(nu, phi) = exp(i m phi) Y_lm(nu, 0) *)
Definition turning (b : abasis) : Prop :=
  forall l m c phi, (- l <= m <= l)%Z -> ab_Y b l m c phi = cmul (cos (IZR m * phi), sin (IZR m * phi)) (ab_Y b l m c 0).
(** A density that does not mix m; enough points for the differences of m. *)
Definition m_diagonal (b : abasis) (P : mat) : Prop :=
  forall i j, (i < di_nbf b)%nat -> (j < di_nbf b)%nat -> fn_m b i <> fn_m b j -> P i j = 0.
Definition enough_points (b : abasis) (nphi : nat) : Prop :=
  (0 < nphi)%nat /\ forall i j, (i < di_nbf b)%nat -> (j < di_nbf b)%nat -> (Z.abs (fn_m b i - fn_m b j) < Z.of_nat nphi)%Z.
Definition wpmD : dmat := mkD 10 10 (mdiag wpm (dent wpmP)).
