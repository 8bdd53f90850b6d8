(** Vocabulary for the properties of the spherically averaged atom. *)
Require Import Reals List Arith Bool ZArith.
Require Import Verif.Prelude Verif.FEModel.
Import ListNotations.
Open Scope R_scope.

(** An element count a size_t can hold, below its largest value. *)
Definition small (n : nat) : Prop := (Z.of_nat n < 2 ^ 64 - 1)%Z.

(** [v] is the Riemann integral of g over [a, b] (standard library). *)
Definition is_int (g : R -> R) (a b v : R) : Prop := exists pr : Riemann_integrable g a b, RiemannInt pr = v.

(** sum_ab u_a P_ab v_b over the functions of an element, whose first global index is f
    and which are n many. *)
Definition pairing (f n : nat) (P : mat) (u v : vec) : R :=
  sum n (fun a => sum n (fun b => u a * P (f + a)%nat (f + b)%nat * v b)).

(** The electron density (per volume) at the primitive coordinate x of element e. *)
Definition point_density (first len : nat -> nat) (bf : nat -> R -> vec) (P : mat) (e : nat) (x : R) : R :=
  pairing (first e) (len e) P (bf e x) (bf e x) / (4 * PI).

(** The points next to point i; the ends -1 and 1 next to the first and last one. *)
Definition neighbours (npts : nat) (xq : vec) (i : nat) (a b : R) : Prop :=
  a = (if (i =? 0)%nat then -1 else xq (i - 1)%nat) /\
  b = (if (i =? npts - 1)%nat then 1 else xq (i + 1)%nat).

(** Quadrature points in increasing order inside (-1, 1). *)
Definition points_ok (npts : nat) (xq : vec) : Prop :=
  (forall i, (i < npts)%nat -> -1 <= xq i <= 1) /\ (forall i j, (i < j)%nat -> (j < npts)%nat -> xq i < xq j).

Definition decreasing_on (f : R -> R) (a b : R) : Prop := forall s t, a <= s -> s < t -> t <= b -> f t < f s.
Definition increasing_on (f : R -> R) (a b : R) : Prop := forall s t, a <= s -> s < t -> t <= b -> f s < f t.
Definition continuous_on (f : R -> R) (a b : R) : Prop := forall x, a <= x <= b -> continuity_pt f x.

(** f rises up to p and falls after it. *)
Definition peak (f : R -> R) (a b p : R) : Prop := a <= p <= b /\ increasing_on f a p /\ decreasing_on f p b.

(** The trace of the density block of an element with a matrix. *)
Definition block_trace (f n : nat) (P M : mat) : R :=
  sum n (fun a => sum n (fun b => P (f + a)%nat (f + b)%nat * M b a)).
(** Sum of q over the elements after e. *)
Definition above (nel : nat) (q : nat -> R) (e : nat) : R := sum (nel - S e) (fun k => q (S e + k)%nat).

(** The block of P an element uses is symmetric. *)
Definition symmetric_block (f n : nat) (P : mat) : Prop :=
  forall a b, (a < n)%nat -> (b < n)%nat -> P (f + a)%nat (f + b)%nat = P (f + b)%nat (f + a)%nat.

(** Ends of an element and the radius of a primitive coordinate. *)
Definition left_end (b : fe) (e : nat) : R := nth e (fe_bval b) 0.
Definition right_end (b : fe) (e : nat) : R := nth (e + 1) (fe_bval b) 0.
Definition radius_of (b : fe) (e : nat) (x : R) : R :=
  (left_end b e + right_end b e) / 2 + (right_end b e - left_end b e) / 2 * x.
Definition last_end (b : fe) : R := nth (get_nelem b) (fe_bval b) 0.

(** d is the function whose value in element e is [f e], on a primitive coordinate. *)
Definition represents (b : fe) (f : nat -> R -> R) (d : R -> R) : Prop :=
  forall e x, (e < get_nelem b)%nat -> -1 <= x <= 1 -> f e x = d (radius_of b e x).

(** A rule on [-1, 1], mapped to an interval inside an element, misses the integral of g
    by at most err. *)
Definition rule_error (b : fe) (nq : nat) (xq wq : vec) (g : R -> R) (err : R) : Prop :=
  forall e s t v, (e < get_nelem b)%nat -> left_end b e <= s -> s < t -> t <= right_end b e -> is_int g s t v ->
    Rabs ((t - s) / 2 * sum nq (fun q => wq q * g ((s + t) / 2 + (t - s) / 2 * xq q)) - v) <= err.

(** Charge in a shell and its potential at the origin: 4 pi r^2 rho and 4 pi r rho, given
    d = 4 pi rho. *)
Definition charge (d : R -> R) (s : R) : R := s * s * d s.
Definition moment (d : R -> R) (s : R) : R := s * d s.

(** An orbital: sum_a f_a c_a over the functions of an element. *)
Definition orbital_at (f n : nat) (v c : vec) : R := sum n (fun a => v a * c (f + a)%nat).
(** The primitive coordinate of a radius in an element. *)
Definition prim_of (b : fe) (e : nat) (r : R) : R :=
  (r - (left_end b e + right_end b e) / 2) / ((right_end b e - left_end b e) / 2).
