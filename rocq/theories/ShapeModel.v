(** Model of the primitive shape functions: /repo/libhelfem/include/LIPBasis.h,
    LIPBasis_eval.h, HIPBasis.h, HIP2Basis.h, HIP3Basis.h, LegendreBasis.h,
    legendre_poly.h and PolynomialBasisT.h.  Arithmetic is exact.  A matrix of
    (point, function) values is a function of the point.  The Hermite tables are
    in ShapeTables.v. *)
Require Import Reals List Arith Bool.
Require Import Verif.Prelude Verif.FEModel Verif.ShapeTables.
Import ListNotations.
Open Scope R_scope.

(* ------------------------------------------------------------------ *)
(** * Lagrange interpolating polynomials *)

(** LIPBasis_eval.h: the literal n! of the cases 0..20 (last line of each
    case, "dnf(ix, fi) = T(...)*el"; cases 0 and 1 have no literal). *)
Definition lip_factor (n : nat) : R :=
  nth n [1; 1; 2; 6; 24; 120; 720; 5040; 40320; 362880; 3628800; 39916800;
         479001600; 6227020800; 87178291200; 1307674368000; 20922789888000;
         355687428096000; 6402373705728000; 121645100408832000;
         2432902008176640000] 0.

(** LIPBasis_eval.h:74-80 and the same lines of every case: the loop over ip
    that skips the indices [ds] of the enclosing loops and [fi]. *)
Definition lip_prod (N : nat) (x0 : vec) (fi : nat) (x : R) (ds : list nat) : R :=
  fold_left (fun acc ip =>
    if (existsb (Nat.eqb ip) ds || (ip =? fi)%nat)%bool then acc
    else acc * ((x - x0 ip) / (x0 fi - x0 ip))) (seq 0 N) 1.

(** LIPBasis_eval.h:81: the divisor, the product over the enclosing indices. *)
Definition lip_div (x0 : vec) (fi : nat) (ds : list nat) : R :=
  fold_left (fun acc d => acc * (x0 fi - x0 d)) ds 1.

(** LIPBasis_eval.h:65-88: [n] nested loops, each below the index of the one
    around it, skipping [fi].  The 21 unrolled cases are the instances n = 0..20
    (case 0, lines 32-44, has no division: here it divides by the empty product). *)
Fixpoint lip_nest (N : nat) (x0 : vec) (fi : nat) (x : R) (n bound : nat) (ds : list nat) : R :=
  match n with
  | O => lip_prod N x0 fi x ds / lip_div x0 fi ds
  | S k => sum bound (fun d => if (d =? fi)%nat then 0 else lip_nest N x0 fi x k d (d :: ds))
  end.

(** LIPBasis_eval.h:31-1210: eval_lip_prim_dnf, column [fi], for n <= 20 (the
    exception for other orders is in [eval_prim]). *)
Definition lip_dnf (N : nat) (x0 : vec) (n fi : nat) (x : R) : R :=
  lip_factor n * lip_nest N x0 fi x n N [].

(** LIPBasis.h:40-56: the constructor: std::sort, the tests of the two end
    nodes; [sqrteps] is sqrt(epsilon).  An empty node vector reads x0(0). *)
Definition lip_ctor (sqrteps : R) (x : list R) : res (list R) :=
  let x0 := sortR x in
  match x0 with
  | [] => UB
  | a :: _ =>
      if Rleb sqrteps (Rabs (a + 1)) then Throw LogicError
      else if Rleb sqrteps (Rabs (last x0 0 - 1)) then Throw LogicError
      else Ok x0
  end.

(* ------------------------------------------------------------------ *)
(** * Legendre shape functions *)

(** legendre_poly.h:29-40 legendre_batch: the pair (P_{n-1}, P_n) of the
    recurrence, started from (P_0, P_1) = (1, x). *)
Fixpoint leg_pair (n : nat) (x : R) : R * R :=
  match n with
  | O => (1, x)
  | S k => let '(a, b) := leg_pair k x in
           let m := INR (S k) in
           (b, ((2 * m + 1) * x * b - m * a) / (m + 1))
  end.
Definition leg (n : nat) (x : R) : R := fst (leg_pair n x).

(** legendre_poly.h:43-57 dlegendre_batch. *)
Fixpoint dleg_pair (n : nat) (x : R) : R * R :=
  match n with
  | O => (0, 1)
  | S k => let '(a, b) := dleg_pair k x in
           let m := INR (S k) in
           (b, ((2 * m + 1) * leg (S k) x + (2 * m + 1) * x * b - m * a) / (m + 1))
  end.
Definition dleg (n : nat) (x : R) : R := fst (dleg_pair n x).

(** legendre_poly.h:60-74 d2legendre_batch. *)
Fixpoint d2leg_pair (n : nat) (x : R) : R * R :=
  match n with
  | O => (0, 0)
  | S k => let '(a, b) := d2leg_pair k x in
           let m := INR (S k) in
           (b, (2 * (2 * m + 1) * dleg (S k) x + (2 * m + 1) * x * b - m * a) / (m + 1))
  end.
Definition d2leg (n : nat) (x : R) : R := fst (d2leg_pair n x).

(** LegendreBasis.h:47-61: Tmat for lmax >= 1, column [j], after the assignments
    in their order (lines 51-52, 54-55, 57-61). *)
Definition leg_T (lmax i j : nat) : R :=
  if ((1 <=? j) && (j <? lmax) && (i =? j + 1))%nat%bool then 1 / sqrt (4 * INR j + 2)
  else if ((1 <=? j) && (j <? lmax) && (i =? j - 1))%nat%bool then - (1 / sqrt (4 * INR j + 2))
  else if (j =? lmax)%nat then
    if (i =? 1)%nat then 1 / 2 else if (i =? 0)%nat then 1 / 2 else 0
  else if (j =? 0)%nat then
    if (i =? 1)%nat then - (1 / 2) else if (i =? 0)%nat then 1 / 2 else 0
  else 0.

(** LegendreBasis.h:86-99: eval_prim_dnf, column [j]; orders 0..2. *)
Definition leg_dnf (N n j : nat) (x : R) : R :=
  let lmax := (N - 1)%nat in
  let f := match n with O => leg | 1%nat => dleg | _ => d2leg end in
  sum N (fun l => f l x * leg_T lmax l j).

(** LegendreBasis.h:122-144: the recurrences of Q, Q', Q'' up to column lmax. *)
Definition lsign (k : nat) : R := if Nat.even k then 1 else -1.
Fixpoint legQ_pair (n : nat) (x : R) : R * R :=
  match n with
  | O => (0, 1)
  | S k => let '(a, b) := legQ_pair k x in
           let m := INR (S k) in
           (b, ((2 * m + 1) * x * b - m * a + lsign (S k) * (2 * m + 1)) * (1 / (m + 1)))
  end.
Definition legQ (n : nat) (x : R) : R := fst (legQ_pair n x).
Fixpoint legQp_pair (n : nat) (x : R) : R * R :=
  match n with
  | O => (0, 0)
  | S k => let '(a, b) := legQp_pair k x in
           let m := INR (S k) in
           (b, ((2 * m + 1) * (legQ (S k) x + x * b) - m * a) * (1 / (m + 1)))
  end.
Definition legQp (n : nat) (x : R) : R := fst (legQp_pair n x).
Fixpoint legQpp_pair (n : nat) (x : R) : R * R :=
  match n with
  | O => (0, 0)
  | S k => let '(a, b) := legQpp_pair k x in
           let m := INR (S k) in
           (b, ((2 * m + 1) * (2 * legQp (S k) x + x * b) - m * a) * (1 / (m + 1)))
  end.
Definition legQpp (n : nat) (x : R) : R := fst (legQpp_pair n x).

(** LegendreBasis.h:146-168: the entry of shape [j]. *)
Definition leg_over_r (N n j : nat) (len x : R) : R :=
  let lmax := (N - 1)%nat in
  if (j =? lmax)%nat then (if (n =? 0)%nat then 1 / (2 * len) else 0)
  else
    let inv_norm := 1 / sqrt (4 * INR j + 2) in
    let inv_e := 1 / len in
    let r := match n with
             | O => (legQ (j + 1) x - legQ (j - 1) x) * inv_norm * inv_e
             | 1%nat => (legQp (j + 1) x - legQp (j - 1) x) * inv_norm * inv_e
             | _ => (legQpp (j + 1) x - legQpp (j - 1) x) * inv_norm * inv_e
             end in
    (1 / len) ^ n * r.

(* ------------------------------------------------------------------ *)
(** * All families *)

(** Highest derivative order of eval_prim_dnf: LIPBasis_eval.h and
    HIPBasis_eval.h 0..20, HIP2/HIP3Basis_eval.h 0..5, LegendreBasis.h:89-98 0..2. *)
Definition max_order (f : family) : nat :=
  match f with LIP | HIP => 20 | HIP2 | HIP3 => 5 | Legendre => 2 end.

(** HIPBasis.h:44-46, HIP2Basis.h:54-59, HIP3Basis.h:50-58: lipxi, lipxi2,
    lipxi3, the diagonals of the LIP tables evaluated at the nodes. *)
Definition lipxi (N : nat) (x0 : vec) (k node : nat) : R := lip_dnf N x0 k node (x0 node).

(** HIP{,2,3}Basis_eval.h: which table. *)
Definition hip_table (f : family) : nat -> nat -> (nat -> R) -> R -> R -> R -> R -> R -> R :=
  match f with HIP2 => hip2_dnf | HIP3 => hip3_dnf | _ => hip_dnf end.

(** HIPBasis_eval.h, HIP2Basis_eval.h, HIP3Basis_eval.h: column noverlap*fi+kind
    and its multiplication by element_length^kind. *)
Definition hermite_dnf (f : family) (N : nat) (x0 : vec) (n idx : nat) (len x : R) : R :=
  let node := (idx / noverlap f)%nat in
  let kind := (idx mod noverlap f)%nat in
  hip_table f n kind (fun k => lip_dnf N x0 k node x) x (x0 node)
            (lipxi N x0 1 node) (lipxi N x0 2 node) (lipxi N x0 3 node) * len ^ kind.

(** eval_prim_dnf of every family, column [idx], at the point [x]. *)
Definition prim_dnf (f : family) (N : nat) (x0 : vec) (n idx : nat) (len x : R) : R :=
  match f with
  | LIP => lip_dnf N x0 n idx x
  | Legendre => leg_dnf N n idx x
  | _ => hermite_dnf f N x0 n idx len x
  end.

(** PolynomialBasisT.h:87-93 eval_dnf at one point: the enabled columns divided by
    element_length^n; the default cases of the evaluators throw. *)
Definition eval_dnf (f : family) (N : nat) (x0 : vec) (en : list nat) (n : nat) (len x : R)
  : res (list R) :=
  if (n <=? max_order f)%nat
  then Ok (map (fun idx => prim_dnf f N x0 n idx len x / len ^ n) en)
  else Throw LogicError.

(** Integer powers, std::pow(element_length, (int) kind - 1 - n). *)
Definition zpow (b : R) (kind n : nat) : R := b ^ kind / b ^ (S n).

(** HIP{,2,3}Basis_over_r.h: the entry of shape [idx].  The reduced node vector
    drops node 0. *)
Definition hermite_over_r (f : family) (N : nat) (x0 : vec) (n idx : nat) (len x : R) : R :=
  let node := (idx / noverlap f)%nat in
  let kind := (idx mod noverlap f)%nat in
  let first := match f with HIP2 => hip2_or_first | HIP3 => hip3_or_first | _ => hip_or_first end in
  let rest := match f with HIP2 => hip2_or_rest | HIP3 => hip3_or_rest | _ => hip_or_rest end in
  let xi := x0 node in
  let p1 := lipxi N x0 1 node in let p2 := lipxi N x0 2 node in let p3 := lipxi N x0 3 node in
  let r :=
    if (node =? 0)%nat then first n kind (fun k => lip_dnf N x0 k 0 x) x xi p1 p2 p3
    else rest n kind (fun k => lip_dnf (N - 1) (fun i => x0 (S i)) k (node - 1) x) x xi p1 p2 p3 in
  r * zpow len kind n.

(** LIPBasis.h:97-110: the entry of shape [i]. *)
Definition lip_over_r (N : nat) (x0 : vec) (n i : nat) (len x : R) : R :=
  let scale := 1 / len ^ (n + 1) in
  scale * lip_dnf (N - 1) (fun k => x0 (S k)) n (i - 1) x / (x0 i + 1).

Definition over_r (f : family) (N : nat) (x0 : vec) (n idx : nat) (len x : R) : R :=
  match f with
  | LIP => lip_over_r N x0 n idx len x
  | Legendre => leg_over_r N n idx len x
  | _ => hermite_over_r f N x0 n idx len x
  end.

(** The orders eval_over_r supports: LIPBasis.h any order of the LIP evaluator;
    the others 0..2. *)
Definition max_over_r (f : family) : nat := match f with LIP => 20 | _ => 2 end.

(** eval_over_r at one point with its three tests (LIPBasis.h:89-95,
    LegendreBasis.h:109-120, HIP{,2,3}Basis_over_r.h).  LIPBasis.h tests the order
    last, inside the evaluator; the outcome is the same exception. *)
Definition eval_over_r (f : family) (N : nat) (x0 : vec) (en : list nat) (n : nat) (len x : R)
  : res (list R) :=
  if (n <=? max_over_r f)%nat then
    match en with
    | [] => Throw LogicError
    | O :: _ => Throw LogicError
    | _ => Ok (map (fun idx => over_r f N x0 n idx len x) en)
    end
  else Throw LogicError.
