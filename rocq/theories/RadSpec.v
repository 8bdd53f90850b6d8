(** Vocabulary for the properties of the radial basis. *)
Require Import Reals List Arith Bool ZArith.
Require Import Verif.Prelude Verif.FEModel Verif.FESpec Verif.ShapeModel Verif.ShapeSpec Verif.QuadModel Verif.QuadSpec Verif.RadModel.
Import ListNotations.
Open Scope R_scope.

(** The nodes a primitive basis is built on: distinct, from -1 to 1 (Legendre has none). *)
Definition nodes_ok (f : family) (N : nat) (x0 : vec) : Prop :=
  f <> Legendre -> distinct N x0 /\ x0 0%nat = -1 /\ x0 (N - 1)%nat = 1.

(** Ends, centre and half length of an element, and the primitive coordinate of r. *)
Definition lo (b : fe) (e : nat) : R := nth e (fe_bval b) 0.
Definition hi (b : fe) (e : nat) : R := nth (e + 1) (fe_bval b) 0.
Definition half (b : fe) (e : nat) : R := (hi b e - lo b e) / 2.
Definition xi (b : fe) (e : nat) (r : R) : R := (r - (lo b e + hi b e) / 2) / half b e.

(** The ends of the primitive interval. *)
Definition endpoint (right : bool) : R := if right then 1 else -1.

(** The function sum_g c_g B_g, or its n-th derivative, as element [e] represents it at
    the primitive coordinate [x]. *)
Definition field (b : fe) (x0 : vec) (c : nat -> R) (n e : nat) (x : R) : R :=
  match fe_dnf b x0 n e x, get_idx b e with
  | Ok v, Ok (f, _) => sum (length v) (fun k => c (Z.to_nat f + k)%nat * nth k v 0)
  | _, _ => 0
  end.

(** The same for the radial functions R_g = B_g / r. *)
Definition rfield (rb : rad) (c : nat -> R) (e : nat) (x : R) : R :=
  match get_bf rb e x, get_idx (rb_fe rb) e with
  | Ok v, Ok (f, _) => sum (length v) (fun k => c (Z.to_nat f + k)%nat * nth k v 0)
  | _, _ => 0
  end.

(** The same for any of the kinds of functions the matrices are made of. *)
Definition kfield (rb : rad) (k : kind) (c : nat -> R) (e : nat) (x : R) : R :=
  match kind_eval rb k e x, get_idx (rb_fe rb) e with
  | Ok v, Ok (f, _) => sum (length v) (fun j => c (Z.to_nat f + j)%nat * nth j v 0)
  | _, _ => 0
  end.

(** The radius of the primitive coordinate [x] of element [e]. *)
Definition radius (b : fe) (e : nat) (x : R) : R := (lo b e + hi b e) / 2 + half b e * x.

(** A weight; a value that is not finite contributes nothing. *)
Definition wt (f : R -> option R) (r : R) : R := match f r with Some y => y | None => 0 end.

(** A radial basis on [0, Rmax] whose functions vanish at the origin. *)
Definition radial_ok (rb : rad) : Prop :=
  valid_fe (rb_fe rb) /\ nodes_ok (fe_fam (rb_fe rb)) (fe_n (rb_fe rb)) (rb_x0 rb) /\
  lo (rb_fe rb) 0 = 0 /\ fe_zfl (rb_fe rb) = true /\
  (forall en, basis_indices (rb_fe rb) 0 = Ok en -> en <> []).

(** The bilinear form of a matrix. *)
Definition form (n : nat) (M : mat) (u v : vec) : R := sum n (fun i => sum n (fun j => u i * M i j * v j)).

(** A quadrature rule of n points on [-1, 1]: nonnegative weights, points inside. *)
Definition positive_rule (x w : nat -> vec) : Prop :=
  forall n q, (2 <= n)%nat -> (q < n)%nat -> 0 <= w n q /\ -1 <= x n q <= 1.
(** Exact for polynomials of degree at most 2 n - 3 (Gauss-Lobatto). *)
Definition lobatto_exact (x w : nat -> vec) : Prop :=
  forall n c v, (2 <= n)%nat -> (length c <= 2 * n - 2)%nat -> integral (peval c) (-1) 1 v ->
    sum n (fun q => w n q * peval c (x n q)) = v.
(** Exact up to degree [d] for every order from [n0] to the cap. *)
Definition exact_to (d : nat) (n0 : Z) (x w : nat -> vec) : Prop :=
  forall n c v, (n0 <= Z.of_nat n)%Z -> (n <= 512)%nat -> (length c <= S d)%nat -> integral (peval c) (-1) 1 v ->
    sum n (fun q => w n q * peval c (x n q)) = v.
(** What the products of two functions of a basis need. *)
Definition basis_exact (b : fe) (x w : nat -> vec) : Prop :=
  exact_to (2 * (nprim (fe_fam b) (fe_n b) - 1)) (auto_nstart (Z.of_nat (noverlap (fe_fam b))) (Z.of_nat (fe_n b)) 0) x w.

(** * Confinement *)

(** The first n terms of the exponential series. *)
Definition taylor (n : nat) (x : R) : R := sum n (fun k => x ^ k / INR (fact k)).

(** The parameters a confinement potential of kind 1 (polynomial), 2 (exponential),
    3 (barrier) or 4 (Junquera) accepts. *)
Definition conf_ok (iconf N : Z) (V shift : R) : Prop :=
  (iconf = 1%Z /\ ((0 <= N)%Z \/ shift = 0)) \/ (iconf = 2%Z /\ (1 <= N)%Z) \/
  (iconf = 3%Z /\ 0 <= V) \/ (iconf = 4%Z /\ (1 <= N)%Z /\ 0 < V).

(** The potentials.  Each starts at [shift]. *)
Definition conf_exp (N : nat) (r0 shift r : R) : R :=
  if Rltb r shift then 0 else INR (fact N) * (exp ((r - shift) / r0) - taylor N ((r - shift) / r0)).
Definition conf_barrier (V shift r : R) : R := if Rltb r shift then 0 else V.
Definition conf_junq (N : nat) (V rc shift r : R) : R :=
  if Rleb r shift then 0 else V * exp (- ((rc - shift) / (r - shift))) / (rc - r) ^ N.
(** Polynomial of degree n >= 0: ((r - shift) / r0)^n. *)
Definition conf_poly (n : nat) (r0 shift r : R) : R :=
  if Rltb r shift then 0 else ((r - shift) / r0) ^ n.

(** [M] is the matrix of the potential [V] between the functions of element [e], as
    quadrature sums with [n p] points on each piece [p] of the element. *)
Definition matrix_of (rb : rad) (lobx lobw : nat -> vec) (n : R * R -> nat) (bps : list R) (e : nat)
    (V : R -> R) (M : mat) : Prop :=
  forall i j, M i j = lsum (panels ((lo (rb_fe rb) e + hi (rb_fe rb) e) / 2) (half (rb_fe rb) e) (-1) 1 bps) (fun p =>
    quad (n p) (lobx (n p)) (lobw (n p)) (fst p) (snd p) (fun x =>
      half (rb_fe rb) e * V (radius (rb_fe rb) e x)
      * entry (fe_dnf (rb_fe rb) (rb_x0 rb) 0 e x) i * entry (fe_dnf (rb_fe rb) (rb_x0 rb) 0 e x) j)).

(** * Caches *)

(** The basis after a history: the last one assigned. *)
Definition last_basis (rb : rad) (es : list event) : rad :=
  fold_left (fun r e => match e with Fill _ _ => r | Replace r' => r' end) es rb.
(** Entry [i] of the cache is there and is the evaluator's table. *)
Definition held (tab : nat -> res table) (c : list table) (i : nat) : Prop := (i < length c)%nat /\ tab i = Ok (nth i c []).

(** * At the nucleus *)

(** Function [k] of the first element at radius r, and a density sum P_uv R_u R_v there. *)
Definition first_fn (rb : rad) (k : nat) (r : R) : R := entry (get_bf rb 0 (xi (rb_fe rb) 0 r)) k.
Definition first_density (rb : rad) (P : mat) (n : nat) (r : R) : R :=
  sum n (fun u => sum n (fun v => P u v * (first_fn rb u r * first_fn rb v r))).
