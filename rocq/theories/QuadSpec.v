(** Vocabulary for the quadrature properties. *)
Require Import Reals List Arith Bool.
Require Import Verif.Prelude.
Import ListNotations.
Open Scope R_scope.

(* ------------------------------------------------------------------ *)
(** * Refinement *)

(** The orders a doubling ladder visits: n0, 2 n0, 4 n0, ... up to the cap. *)
Definition order (nmax n0 i : nat) : nat :=
  if (nmax <=? n0)%nat then n0 else Nat.min (n0 * 2 ^ i) nmax.

(** IEEE comparisons: false as soon as a NaN takes part. *)
Definition fle (a b : fp) : Prop := fleb a b = true.
Definition flt (a b : fp) : Prop := fltb a b = true.

(** c (s + t) for a scale s that may be infinite or NaN. *)
Definition rel (c t : R) (s : fp) : fp :=
  match s with Fin r => Fin (c * (r + t)) | y => y end.
Definition times (c : R) (s : fp) : fp := match s with Fin r => Fin (c * r) | y => y end.

(** A largest absolute value: NaN or not negative. *)
Definition magnitude (v : fp) : Prop := v = NaN \/ fle (Fin 0) v.

(** When the refinement is accepted at step [k]: [d k] is the change of the block from
    step k-1 to step k, [s k] its size.  Either the change is below the target,
    or it is below the square root of the precision and has not halved, or has not
    shrunk eightfold over two doublings. *)
Definition settled (tol sqrteps : R) (d s : nat -> fp) (k : nat) : Prop :=
  ((1 <= k)%nat /\ fle (d k) (rel tol tol (s k)))
  \/ ((2 <= k)%nat /\ fle (d k) (rel sqrteps tol (s k)) /\ flt (times (1 / 2) (d (k - 1)%nat)) (d k))
  \/ ((3 <= k)%nat /\ fle (d k) (rel sqrteps tol (s k)) /\ flt (times (1 / 8) (d (k - 2)%nat)) (d k)).

(** The same for the two-centre integrals: below the target, or below the square
    root of the precision and either at the roundoff floor or not halved. *)
Definition settled2 (tol sqrteps floor_rel : R) (d s : nat -> fp) (k : nat) : Prop :=
  ((1 <= k)%nat /\ fle (d k) (rel tol tol (s k)))
  \/ ((1 <= k)%nat /\ fle (d k) (rel sqrteps tol (s k))
      /\ (fle (d k) (rel floor_rel tol (s k)) \/ ((2 <= k)%nat /\ flt (times (1 / 2) (d (k - 1)%nat)) (d k)))).

(** [k] is the first step that is accepted or reaches the cap. *)
Definition first_stop (nmax n0 : nat) (ok : nat -> Prop) (k : nat) : Prop :=
  (ok k \/ (nmax <= order nmax n0 k)%nat) /\
  forall i, (i < k)%nat -> ~ ok i /\ (order nmax n0 i < nmax)%nat.

(* ------------------------------------------------------------------ *)
(** * Panels *)

(** The panels lie one after another and cover [l, r]. *)
Fixpoint tiles (l r : R) (ps : list (R * R)) : Prop :=
  match ps with
  | [] => l = r
  | p :: q => fst p = l /\ fst p < snd p /\ tiles (snd p) r q
  end.

(** No break point is strictly between the images of a and b. *)
Definition smooth (mid sf : R) (bps : list R) (a b : R) : Prop :=
  forall p, In p bps -> ~ (mid + sf * a < p < mid + sf * b).

(* ------------------------------------------------------------------ *)
(** * Quadrature sums *)

(** The rule (x, w) of the reference interval [-1, 1] applied to g on [lo, hi]. *)
Definition quad (nq : nat) (x w : vec) (lo hi : R) (g : R -> R) : R :=
  sum nq (fun q => w q * ((hi - lo) / 2) * g ((hi + lo) / 2 + (hi - lo) / 2 * x q)).

(** The rule's points on [lo, hi]. *)
Definition node (x : vec) (lo hi : R) (q : nat) : R := (hi + lo) / 2 + (hi - lo) / 2 * x q.

(** The left end of the piece that ends at point [p]. *)
Definition piece_lo (x : vec) (lo hi : R) (p : nat) : R :=
  match p with O => lo | S k => node x lo hi k end.

(** A product of two functions of the element [lo, hi] as a function of the radius. *)
Definition pair_density (N : nat) (bf : R -> nat -> R) (lo hi : R) (c : nat) (r : R) : R :=
  let t := (r - (hi + lo) / 2) / ((hi - lo) / 2) in bf t (c / N)%nat * bf t (c mod N)%nat.

(** The same pair written the other way round. *)
Definition flip (N c : nat) : nat := (c mod N * N + c / N)%nat.

(* ------------------------------------------------------------------ *)
(** * Two grids *)

Definition increasing_upto (n : nat) (a : vec) : Prop := forall i, (i < n)%nat -> a i < a (S i).

(** The integral of [g] from [lo] to point [q], piece by piece. *)
Definition upto (nq : nat) (x w : vec) (lo hi : R) (g : R -> R) (q : nat) : R :=
  sum (S q) (fun p => quad nq x w (piece_lo x lo hi p) (node x lo hi p) g).

(** The kernel separates at every point of the rule, except that the first point may be
    the lower end of the element. *)
Definition separates (nq : nat) (x : vec) (lo hi : R) (k : R -> R -> R) (small big : R -> R) : Prop :=
  forall p, (p < nq)%nat -> (p = 0%nat /\ node x lo hi 0 = lo) \/
    (big (node x lo hi p) <> 0 /\ forall t, k t (node x lo hi p) = small t * big (node x lo hi p)).

(** What the pair of elements (i, j) contributes to entry (u, v) if the functions
    of element i are fa i, ..., fa i + ca i - 1 (and likewise for j). *)
Definition share (fa ca fb cb : nat -> nat) (B : nat -> nat -> mat) (u v i j : nat) : R :=
  if ((fa i <=? u) && (u <? fa i + ca i) && ((fb j <=? v) && (v <? fb j + cb j)))%nat%bool
  then B i j (u - fa i)%nat (v - fb j)%nat else 0.
