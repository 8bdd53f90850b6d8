(** Vocabulary for the expansion of the complementary error function kernel. *)
Require Import Reals List Arith ZArith.
Require Import Verif.Prelude Verif.SadSpec Verif.PotSpec.
Open Scope R_scope.

(** The complementary error function. *)
Definition is_erfc (erfc : R -> R) : Prop := exists erf, is_erf erf /\ forall x, erfc x = 1 - erf x.

(** The Legendre polynomials, by Bonnet's recurrence. *)
Definition legendre (P : nat -> R -> R) : Prop :=
  forall x, P 0%nat x = 1 /\ P 1%nat x = x /\
  forall n, INR (n + 2) * P (n + 2)%nat x = (2 * INR n + 3) * x * P (n + 1)%nat x - INR (n + 1) * P n x.

(** [v] is the coefficient of P_n(cos) in the Legendre expansion of erfc(d)/d, where d is the
    distance between points at distances [X] and [x] from the origin. *)
Definition distance (X x t : R) : R := sqrt (X * X + x * x - 2 * X * x * t).
Definition multipole (erfc : R -> R) (P : nat -> R -> R) (n : nat) (X x v : R) : Prop :=
  exists w, is_int (fun t => erfc (distance X x t) / distance X x t * P n t) (-1) 1 w /\ v = (2 * INR n + 1) / 2 * w.
(** The same integral with the distance itself as the variable, which is also defined when the
    two points may coincide. *)
Definition multipole_dist (erfc : R -> R) (P : nat -> R -> R) (n : nat) (X x v : R) : Prop :=
  exists w, is_int (fun d => erfc d * P n ((X * X + x * x - d * d) / (2 * X * x))) (Rabs (X - x)) (X + x) w /\
  v = (2 * INR n + 1) / (2 * X * x) * w.

(** The generalised binomial coefficient n (n-1) ... (n-m+1) / m!. *)
Fixpoint binomial (n : Z) (m : nat) : R :=
  match m with O => 1 | S k => binomial n k * IZR (n - Z.of_nat k) / INR (S k) end.

(** The family of derivatives of a function. *)
Definition derivatives (f : R -> R) (d : nat -> R -> R) : Prop :=
  (forall x, d 0%nat x = f x) /\ forall j x, derivable_pt_lim (d j) x (d (S j) x).

(** The radial functions of the Taylor expansion of f(|X - x|) about x = 0, for a function f of
    the distance: [h 0 k] is the k-th Laplacian of f, and each [h (n+1) k] is -1/r d/dr of
    [h n k].  The coefficient of x^(n+2k) P_n(cos) is
    (2n+1) X^n h_nk(X) / ((2k)!! (2n+2k+1)!!). *)
Definition radial_family (f : R -> R) (h : nat -> nat -> R -> R) : Prop :=
  forall X, 0 < X ->
    h 0%nat 0%nat X = f X /\
    (forall n k, derivable_pt_lim (h n k) X (- X * h (S n) k X)) /\
    (forall k, exists first second, (forall r, 0 < r -> derivable_pt_lim (h 0%nat k) r (first r)) /\ derivable_pt_lim first X second /\
       h 0%nat (S k) X = second + 2 / X * first X).
(** The product of the odd numbers below 2n, and of the even numbers from 2 to 2n. *)
Fixpoint odds (n : nat) : R := match n with O => 1 | S k => (2 * INR k + 1) * odds k end.
Fixpoint evens (n : nat) : R := match n with O => 1 | S k => 2 * INR (S k) * evens k end.
Definition taylor (h : nat -> nat -> R -> R) (n k : nat) (X : R) : R :=
  (2 * INR n + 1) * X ^ n * h n k X / (evens k * odds (n + k + 1)).
