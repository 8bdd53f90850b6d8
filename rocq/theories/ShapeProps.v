(** Properties of the shape functions.  Nothing but statements. *)
Require Import Reals List Arith Bool.
Require Import Verif.Prelude Verif.FEModel Verif.ShapeModel Verif.ShapeSpec Verif.ShapeProofs.
Import ListNotations.
Open Scope R_scope.

(* ---- C06: Lagrange ---- *)
Theorem lip_nodes_identity : forall N x0 i len, distinct N x0 -> (i < N)%nat ->
  eval_dnf LIP N x0 (all_enabled LIP N) 0 len (x0 i) = Ok (map (fun j => if (j =? i)%nat then 1 else 0) (seq 0 N)).
Proof. exact lip_identity. Qed.
Print Assumptions lip_nodes_identity.

Theorem lip_sum_to_one : forall N x0 len x, distinct N x0 -> (1 <= N)%nat ->
  exists v, eval_dnf LIP N x0 (all_enabled LIP N) 0 len x = Ok v /\ lsum v (fun y => y) = 1.
Proof. exact lip_unity. Qed.
Print Assumptions lip_sum_to_one.

Theorem lip_interpolates_polynomials : forall N x0 c len x, distinct N x0 -> (length c <= N)%nat ->
  exists v, eval_dnf LIP N x0 (all_enabled LIP N) 0 len x = Ok v /\
    dot (map (fun i => peval c (x0 i)) (seq 0 N)) v = peval c x.
Proof. exact lip_reproduction. Qed.
Print Assumptions lip_interpolates_polynomials.

(** The constructor sorts the nodes and checks the two ends. *)
Theorem lip_constructor : forall e x l, lip_ctor e x = Ok l ->
  Permutation.Permutation x l /\ (forall i j, (i <= j < length l)%nat -> nth i l 0 <= nth j l 0) /\
  l <> [] /\ Rabs (nth 0 l 0 + 1) < e /\ Rabs (nth (length l - 1) l 0 - 1) < e.
Proof. exact lip_ctor_ok. Qed.
Print Assumptions lip_constructor.

Theorem lip_constructor_distinct_partial : forall e x l, lip_ctor e x = Ok l -> NoDup x ->
  distinct (length l) (fun i => nth i l 0).
Proof. exact lip_ctor_distinct. Qed.
Print Assumptions lip_constructor_distinct_partial.

(** It does not check that they are distinct. *)
Theorem lip_constructor_distinct_refuted : exists x l, ~ NoDup x /\ lip_ctor (/ 1000) x = Ok l.
Proof. exact lip_ctor_duplicates. Qed.
Print Assumptions lip_constructor_distinct_refuted.

(* ---- C07: Hermite ---- *)
(** Order [k] of the shapes at node [i]: one for the shape that carries the k-th
    r-derivative at that node, zero for the others (LIP k = 0; HIP k < 2; HIP2 k < 3; HIP3 k < 4). *)
Theorem hermite_nodal_values : forall f N x0 i k len,
  nodal f -> distinct N x0 -> (i < N)%nat -> (k < noverlap f)%nat -> len <> 0 ->
  eval_dnf f N x0 (all_enabled f N) k len (x0 i)
  = Ok (map (fun idx => if (idx =? noverlap f * i + k)%nat then 1 else 0) (all_enabled f N)).
Proof. exact nodal_values. Qed.
Print Assumptions hermite_nodal_values.

(** Two elements of any lengths and node sets that share the node coefficients join
    with equal value and derivatives up to order noverlap - 1. *)
Theorem adjacent_elements_join : forall f N1 x1 len1 c1 N2 x2 len2 c2 k,
  nodal f -> distinct N1 x1 -> distinct N2 x2 -> (0 < N1)%nat -> (0 < N2)%nat ->
  x1 (N1 - 1)%nat = 1 -> x2 0%nat = -1 -> len1 <> 0 -> len2 <> 0 ->
  length c1 = nprim f N1 -> length c2 = nprim f N2 ->
  (forall j, (j < noverlap f)%nat -> nth (noverlap f * (N1 - 1) + j) c1 0 = nth j c2 0) ->
  (k < noverlap f)%nat ->
  exists v1 v2, eval_dnf f N1 x1 (all_enabled f N1) k len1 1 = Ok v1 /\
                eval_dnf f N2 x2 (all_enabled f N2) k len2 (-1) = Ok v2 /\ dot c1 v1 = dot c2 v2.
Proof. exact joins. Qed.
Print Assumptions adjacent_elements_join.

(** Every polynomial in x with at most nprim coefficients is the combination of the
    shapes with its values and r-derivatives at the nodes (d/dr = 1/len d/dx). *)
Theorem hermite_interpolates_polynomials : forall f N x0 c len x,
  nodal f -> distinct N x0 -> len <> 0 -> (length c <= nprim f N)%nat ->
  exists v, eval_dnf f N x0 (all_enabled f N) 0 len x = Ok v /\
    dot (map (fun idx => peval (pderk (idx mod noverlap f) c) (x0 (idx / noverlap f)%nat) / len ^ (idx mod noverlap f))
             (all_enabled f N)) v = peval c x.
Proof. exact reproduction. Qed.
Print Assumptions hermite_interpolates_polynomials.

(** [pderk] is the derivative. *)
Theorem coefficient_derivative : forall k c x,
  derivable_pt_lim (peval (pderk k c)) x (peval (pderk (S k) c) x).
Proof. exact ShapePoly.pderk_der. Qed.
Print Assumptions coefficient_derivative.

(* ---- C58: derivative tables ---- *)
(** In r = mid + len x, the table of order n+1 is the derivative of the table of order n. *)
Theorem tables_are_derivatives : forall f N x0 en n len mid r k,
  good f N x0 -> (forall i, In i en -> (i < nprim f N)%nat) -> (n < max_order f)%nat -> len <> 0 ->
  (k < length en)%nat ->
  succeeds (eval_dnf f N x0 en n len ((r - mid) / len)) /\
  succeeds (eval_dnf f N x0 en (S n) len ((r - mid) / len)) /\
  derivable_pt_lim (fun r => entry (eval_dnf f N x0 en n len ((r - mid) / len)) k) r
                   (entry (eval_dnf f N x0 en (S n) len ((r - mid) / len)) k).
Proof. exact derivative_tables. Qed.
Print Assumptions tables_are_derivatives.

Theorem high_orders_refused : forall f N x0 en n len x, (max_order f < n)%nat ->
  eval_dnf f N x0 en n len x = Throw LogicError.
Proof. exact order_refused. Qed.
Print Assumptions high_orders_refused.

(* ---- C59: B/r ---- *)
(** r = len (x+1): r times the entry is the shape. *)
Theorem over_r_times_r : forall f N x0 en len x k, origin f N x0 -> en <> [] ->
  (forall i, In i en -> (1 <= i < nprim f N)%nat) -> len <> 0 -> (k < length en)%nat ->
  succeeds (eval_over_r f N x0 en 0 len x) /\
  len * (x + 1) * entry (eval_over_r f N x0 en 0 len x) k = entry (eval_dnf f N x0 en 0 len x) k.
Proof. exact over_r_value. Qed.
Print Assumptions over_r_times_r.

Theorem over_r_tables_are_derivatives : forall f N x0 en n len r k, origin f N x0 -> en <> [] ->
  (forall i, In i en -> (1 <= i < nprim f N)%nat) -> len <> 0 -> (k < length en)%nat -> (n < max_over_r f)%nat ->
  succeeds (eval_over_r f N x0 en (S n) len (r / len - 1)) /\
  derivable_pt_lim (fun r => entry (eval_over_r f N x0 en n len (r / len - 1)) k) r
                   (entry (eval_over_r f N x0 en (S n) len (r / len - 1)) k).
Proof. exact over_r_derivs. Qed.
Print Assumptions over_r_tables_are_derivatives.

Theorem over_r_refuses : forall f N x0 en n len x,
  (max_over_r f < n)%nat \/ en = [] \/ hd 1%nat en = 0%nat -> eval_over_r f N x0 en n len x = Throw LogicError.
Proof. exact over_r_refused. Qed.
Print Assumptions over_r_refuses.

(* ---- C60: Legendre ---- *)
Theorem legendre_end_values : forall N len (left : bool), (2 <= N)%nat ->
  eval_dnf Legendre N (fun _ => 0) (all_enabled Legendre N) 0 len (if left then -1 else 1)
  = Ok (map (fun j => if (j =? if left then 0 else N - 1)%nat then 1 else 0) (seq 0 N)).
Proof. exact legendre_ends. Qed.
Print Assumptions legendre_end_values.

Theorem legendre_spans_polynomials : forall N c len, (2 <= N)%nat -> (length c <= N)%nat ->
  exists a, length a = N /\ forall x, exists v,
    eval_dnf Legendre N (fun _ => 0) (all_enabled Legendre N) 0 len x = Ok v /\ dot a v = peval c x.
Proof. exact legendre_complete. Qed.
Print Assumptions legendre_spans_polynomials.

(** The integrals of the products of two x-slopes over the reference element: the
    interior shapes are orthonormal and orthogonal to the two end shapes. *)
Theorem legendre_slopes_orthonormal : forall N i j len, (2 <= N)%nat -> (i < N)%nat -> (j < N)%nat -> len <> 0 ->
  integral (fun x => entry (eval_dnf Legendre N (fun _ => 0) (all_enabled Legendre N) 1 len x) i *
                     entry (eval_dnf Legendre N (fun _ => 0) (all_enabled Legendre N) 1 len x) j * (len * len)) (-1) 1
    (if (interior N i || interior N j)%bool then (if (i =? j)%nat then 1 else 0)
     else if (i =? j)%nat then 1 / 2 else - (1 / 2)).
Proof. exact legendre_stiffness. Qed.
Print Assumptions legendre_slopes_orthonormal.

Theorem integral_is_unique : forall g a b v w, integral g a b v -> integral g a b w -> v = w.
Proof. exact ShapeOrth.integral_unique. Qed.
Print Assumptions integral_is_unique.

(* ---- Non-vacuity ---- *)
Example nodes3 : distinct 3 (fun i => INR i - 1) /\ INR 0 - 1 = -1 /\ INR 2 - 1 = 1.
Proof. exact nodes3_ok. Qed.
Example good_all : forall f, good f 3 (fun i => INR i - 1) /\ origin f 3 (fun i => INR i - 1).
Proof. exact good_all_ok. Qed.
Example enabled_survivors : forall f, [1; 2]%nat <> [] /\ forall i, In i [1; 2]%nat -> (1 <= i < nprim f 3)%nat.
Proof. exact enabled_ok. Qed.
Example ctor_accepts : exists l, lip_ctor (/ 1000) [1; -1; 0] = Ok l.
Proof. exact ctor_ok. Qed.
