(** Vocabulary for the jellium program. *)
Require Import Reals ZArith List Bool Arith Permutation.
Require Import Verif.Prelude Verif.GridSpec Verif.AijModel.
Import ListNotations.
Open Scope R_scope.

(** How many entries do not exceed a number. *)
Definition count_upto (x : Z) (l : list Z) : Z := Z.of_nat (length (filter (fun m => (m <=? x)%Z) l)).

(** Positive radius per electron; no negative charges. *)
Definition physical (j : jin) : Prop := 0 < j_rs j /\ (0 <= j_nj j)%Z /\ (j_vac j = true -> (j_Q j <= j_Z j)%Z).

(** Charge within r of a shell between ri and ro, with one charge per ball of radius rs. *)
Definition enclosed (rs ri ro r : R) : R := (Rmin ro (Rmax ri r) ^ 3 - ri ^ 3) / rs ^ 3.
(** V is the potential of that charge: Gauss' law everywhere, Coulomb's law outside, continuous
    in the centre. *)
Definition potential_of (rs ri ro : R) (V : R -> R) : Prop :=
  (forall r, 0 < r -> derivable_pt_lim V r (- (enclosed rs ri ro r / r ^ 2))) /\
  (forall r, ro <= r -> 0 < r -> V r = enclosed rs ri ro r / r) /\
  (forall eps, 0 < eps -> exists d, 0 < d /\ forall r, 0 <= r < d -> Rabs (V r - V 0) < eps).
(** E is the integral of f from a to b, through any antiderivative, and there is one. *)
Definition integral_is (f : R -> R) (a b E : R) : Prop :=
  (exists F, forall r, a <= r <= b -> derivable_pt_lim F r (f r)) /\
  (forall F, (forall r, a <= r <= b -> derivable_pt_lim F r (f r)) -> F b - F a = E).
(** Charge per unit radius of the background. *)
Definition radial_charge (rs r : R) : R := 3 * r ^ 2 / rs ^ 3.

(** The fewest elements no longer than h that cover a length. *)
Definition fewest (len h : R) (n : Z) : Prop := IZR (n - 1) * h < len <= IZR n * h.
(** The input whose grid has no vacancy but the same box. *)
Definition filled (j : jin) : jin :=
  mkJ (j_Z j) (j_Q j) (j_Z j - j_Q j + j_nj j) (j_rs j) false (j_nufreq j) (j_Rmax j) (j_nelem j) (j_igrid j) (j_zexp j).
(** Boundaries in ascending order, repetitions allowed. *)
Definition ascending (l : list R) : Prop := forall i k, (i < k)%nat -> (k < length l)%nat -> nth i l 0 <= nth k l 0.
(** Input for which a grid is asked: atomic elements of an admissible kind, uniform elements
    asked for, within the table of magic numbers. *)
Definition asks_grid (j : jin) : Prop :=
  physical j /\ (0 < j_nj j < 99284)%Z /\ 0 < j_nufreq j /\ (0 < j_nelem j)%Z /\ admissible (j_igrid j) (j_zexp j).

(** Sum over the blocks and over their orbitals. *)
Definition over_orbitals (bs : list block) (f : nat -> mat -> nat -> R) : R :=
  sum (length bs) (fun l => sum (length (snd (nth l bs (mzero, [])))) (fun o =>
    nth o (snd (nth l bs (mzero, []))) 0 * f l (fst (nth l bs (mzero, []))) o)).
(** Expectation value of a matrix in an orbital. *)
Definition expect (n : nat) (A C : mat) (o : nat) : R := sum n (fun i => sum n (fun k => C i o * A i k * C k o)).
(** Trace of a product. *)
Definition trace2 (n : nat) (P A : mat) : R := sum n (fun i => mmul n P A i i).
