(** Model of the tensor reordering and the two pivoted factorisations:
    /repo/libhelfem/src/utils.cpp, /repo/libhelfem/src/RadialBasis.cpp,
    /repo/src/diatomic/basis.cpp.  Scalars are exact real numbers. *)
Require Import Reals ZArith List Bool Arith.
Require Import Verif.Prelude Verif.AngModel.
Import ListNotations.
Local Open Scope R_scope.

(* ------------------------------------------------------------------ *)
(** * exchange_tei *)

(** utils.cpp 74-78: the four nested loops storing one element each. *)
Definition exchange_loops (Ni Nj Nk Nl : nat) (tei : mat) : mat :=
  fold_left (fun K ii =>
  fold_left (fun K jj =>
  fold_left (fun K kk =>
  fold_left (fun K ll =>
    store K (kk * Nj + jj)%nat (ll * Ni + ii)%nat (tei (jj * Ni + ii)%nat (ll * Nk + kk)%nat))
    (seq 0 Nl) K) (seq 0 Nk) K) (seq 0 Nj) K) (seq 0 Ni) mzero.

(** utils.cpp 54-80 *)
Definition exchange_tei (tei : dmat) (Ni Nj Nk Nl : nat) : res dmat :=
  if negb (Nat.eqb (drows tei) (Ni * Nj)) then Throw LogicError
  else if negb (Nat.eqb (dcols tei) (Nk * Nl)) then Throw LogicError
  else Ok (mkD (Nj * Nk) (Ni * Nl) (exchange_loops Ni Nj Nk Nl (dent tei))).

(* ------------------------------------------------------------------ *)
(** * Pivoted Cholesky of the in-element integrals *)

Definition setv {A} (f : nat -> A) (i : nat) (x : A) : nat -> A :=
  fun k => if Nat.eqb k i then x else f k.

(** RadialBasis.cpp 681-687: scan for the largest remaining diagonal above
    pivot_val; n when there is none. *)
Definition find_pivot (n : nat) (D : vec) (done : nat -> bool) (tol : R) : nat * R :=
  fold_left (fun pv i =>
    let '(pivot, pivot_val) := pv in
    if negb (done i) && Rltb pivot_val (D i) then (i, D i) else (pivot, pivot_val))
    (seq 0 n) (n, tol).

(** RadialBasis.cpp 694-697: s = A(i,pivot) - sum_j L(i,j) L(pivot,j). *)
Definition residual_entry (A : mat) (Lcols : list vec) (i pivot : nat) : R :=
  fold_left (fun s c => s - c i * c pivot) Lcols (A i pivot).

(** RadialBasis.cpp 691-700: the new column. *)
Definition new_column (A : mat) (Lcols : list vec) (done : nat -> bool) (pivot : nat) (sqrt_d : R) : vec :=
  setv (fun i => if done i && negb (Nat.eqb i pivot) then 0
                 else residual_entry A Lcols i pivot / sqrt_d) pivot sqrt_d.

(** RadialBasis.cpp 679-704: at most n columns, stop when no diagonal exceeds
    tol.  Columns are kept in the order in which they are found. *)
Fixpoint chol_loop (k n : nat) (A : mat) (tol : R) (D : vec) (done : nat -> bool)
    (Lcols : list vec) : list vec :=
  match k with
  | O => Lcols
  | S k' =>
    let '(pivot, pivot_val) := find_pivot n D done tol in
    if Nat.eqb pivot n then Lcols
    else
      let done := setv done pivot true in
      let col := new_column A Lcols done pivot (sqrt pivot_val) in
      let D := fun i => if negb (done i) then D i - col i * col i else D i in
      chol_loop k' n A tol D done (Lcols ++ [col])
  end.

(** RadialBasis.cpp 671-709: the columns of the factor. *)
Definition pivoted_cholesky (A : dmat) (tol : R) : res (list vec) :=
  let n := drows A in
  if negb (Nat.eqb (dcols A) n) then Throw LogicError
  else Ok (chol_loop n n (dent A) tol (fun i => dent A i i) (fun _ => false) []).

(* ------------------------------------------------------------------ *)
(** * Signed pivoted factorisation of the diatomic kernel *)

(** Eigen's v.cwiseAbs().maxCoeff(&piv) over 0..N-1: position and value of the
    first largest magnitude.  The code calls it with N > 0 only. *)
Definition max_abs (N : nat) (d : vec) : nat * R :=
  fold_left (fun pv i => if Rltb (snd pv) (Rabs (d i)) then (i, Rabs (d i)) else pv)
    (seq 1 (N - 1)) (0%nat, Rabs (d 0%nat)).

(** basis.cpp 1515-1518: the residual column. *)
Definition signed_column (W : mat) (B : list (R * vec)) (piv : nat) (dp : R) : vec := fun i =>
  (W i piv - lsum B (fun sc => fst sc * snd sc piv * snd sc i)) / sqrt (Rabs dp).

(** basis.cpp 1504-1526; each entry of the result is (sign, column). *)
Fixpoint signed_loop (k N : nat) (W : mat) (thresh dmax0 : R) (d : vec) (B : list (R * vec))
    : list (R * vec) :=
  match k with
  | O => B
  | S k' =>
    let '(piv, dpiv) := max_abs N d in
    if Rleb dmax0 0 || Rleb dpiv (thresh * dmax0) then B
    else
      let dp := d piv in
      let s := if Rleb 0 dp then 1 else -1 in
      let col := signed_column W B piv dp in
      let d := setv (fun i => d i - s * (col i * col i)) piv 0 in
      signed_loop k' N W thresh dmax0 d (B ++ [(s, col)])
  end.

(** basis.cpp 1498-1534 (cd_thresh is 1e-12 in the code, any value here). *)
Definition signed_cholesky (N : nat) (W : mat) (thresh : R) : list (R * vec) :=
  let d := fun i => W i i in
  signed_loop N N W thresh (snd (max_abs N d)) d [].

(** basis.cpp 1483-1490: the two-channel matrix of the in-element integrals. *)
Definition two_channel (n : nat) (T00 T02 T22 : mat) : mat :=
  let W := fun i j =>
    if Nat.ltb i n then (if Nat.ltb j n then T00 i j else - T02 i (j - n)%nat)
    else (if Nat.ltb j n then - T02 j (i - n)%nat else T22 (i - n)%nat (j - n)%nat) in
  fun i j => 1 / 2 * (W i j + W j i).
