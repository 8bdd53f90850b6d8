(** Properties C21, C22 and C23: tensor reordering and pivoted factorisations. *)
Require Import Reals ZArith List Lra Lia.
Require Import Verif.Prelude Verif.AngModel Verif.CholModel Verif.CholSpec Verif.CholProofs.
Import ListNotations.
Local Open Scope R_scope.

(* ---------------------------- C21 ---------------------------------- *)

(** (ij|kl) is found at row (jk), column (il). *)
Theorem exchange_tei_entries : forall tei Ni Nj Nk Nl,
  drows tei = (Ni * Nj)%nat -> dcols tei = (Nk * Nl)%nat ->
  exists K, exchange_tei tei Ni Nj Nk Nl = Ok K /\
    drows K = (Nj * Nk)%nat /\ dcols K = (Ni * Nl)%nat /\
    forall i j k l, (i < Ni)%nat -> (j < Nj)%nat -> (k < Nk)%nat -> (l < Nl)%nat ->
      dent K (pair_ix Nj j k) (pair_ix Ni i l) = dent tei (pair_ix Ni i j) (pair_ix Nk k l).
Proof. exact exchange_tei_ok. Qed.
Print Assumptions exchange_tei_entries.

(** Every output position holds exactly one input element. *)
Theorem exchange_tei_one_source : forall tei Ni Nj Nk Nl K,
  exchange_tei tei Ni Nj Nk Nl = Ok K ->
  forall r c, (r < drows K)%nat -> (c < dcols K)%nat ->
  exists i j k l, ((i < Ni)%nat /\ (j < Nj)%nat /\ (k < Nk)%nat /\ (l < Nl)%nat) /\
    r = pair_ix Nj j k /\ c = pair_ix Ni i l /\
    dent K r c = dent tei (pair_ix Ni i j) (pair_ix Nk k l) /\
    forall i' j' k' l', ((i' < Ni)%nat /\ (j' < Nj)%nat /\ (k' < Nk)%nat /\ (l' < Nl)%nat) ->
      r = pair_ix Nj j' k' -> c = pair_ix Ni i' l' -> i' = i /\ j' = j /\ k' = k /\ l' = l.
Proof. exact exchange_tei_bijective. Qed.
Print Assumptions exchange_tei_one_source.

(** Contracting the result with the column-major vector of P is the exchange
    contraction K_jk = sum_il (ij|kl) P_il of the input. *)
Theorem exchange_tei_contraction : forall tei Ni Nj Nk Nl K (P : mat),
  exchange_tei tei Ni Nj Nk Nl = Ok K ->
  forall j k, (j < Nj)%nat -> (k < Nk)%nat ->
    sum (Ni * Nl) (fun c => dent K (pair_ix Nj j k) c * P (c mod Ni)%nat (c / Ni)%nat) =
    sum Nl (fun l => sum Ni (fun i => dent tei (pair_ix Ni i j) (pair_ix Nk k l) * P i l)).
Proof. exact exchange_contraction. Qed.
Print Assumptions exchange_tei_contraction.

Theorem exchange_tei_wrong_dimensions : forall tei Ni Nj Nk Nl,
  (drows tei <> Ni * Nj \/ dcols tei <> Nk * Nl)%nat <->
  exchange_tei tei Ni Nj Nk Nl = Throw LogicError.
Proof. exact exchange_tei_throws. Qed.
Print Assumptions exchange_tei_wrong_dimensions.

(** With four different dimensions. *)
Example exchange_case :
  match exchange_tei (mkD 6 20 (fun r c => INR (r * 100 + c))) 2 3 4 5 with
  | Ok K => drows K = 12%nat /\ dcols K = 10%nat /\
            dent K (pair_ix 3 2 3) (pair_ix 2 1 4) = INR (pair_ix 2 1 2 * 100 + pair_ix 4 3 4)
  | _ => False
  end.
Proof. repeat split. Qed.

(* ---------------------------- C22 ---------------------------------- *)

(** The factor reproduces the matrix to the tolerance in every entry, has at
    most n columns, and is exact on as many rows (hence, by symmetry, columns)
    as it has columns. The remainder is again positive semidefinite. *)
Theorem pivoted_cholesky_accuracy : forall A tol,
  dcols A = drows A -> 0 <= tol -> psd (drows A) (dent A) ->
  exists L, pivoted_cholesky A tol = Ok L /\ (length L <= drows A)%nat /\
    (forall i j, (i < drows A)%nat -> (j < drows A)%nat ->
       Rabs (dent A i j - LLT L i j) <= tol) /\
    psd (drows A) (fun i j => dent A i j - LLT L i j) /\
    exists piv, NoDup piv /\ length piv = length L /\
      forall p j, In p piv -> (j < drows A)%nat ->
        (p < drows A)%nat /\ dent A p j = LLT L p j.
Proof. exact pivoted_cholesky_ok. Qed.
Print Assumptions pivoted_cholesky_accuracy.

(** Index symmetries of the matrix, such as (ij|kl) = (ji|kl), are symmetries
    of every column of the factor. *)
Theorem pivoted_cholesky_symmetry : forall A tol L s,
  dcols A = drows A -> 0 <= tol -> psd (drows A) (dent A) ->
  pivoted_cholesky A tol = Ok L ->
  (forall i, (i < drows A)%nat -> (s i < drows A)%nat) ->
  (forall i j, (i < drows A)%nat -> (j < drows A)%nat -> dent A (s i) j = dent A i j) ->
  forall c i, In c L -> (i < drows A)%nat -> c (s i) = c i.
Proof. exact pivoted_cholesky_swap. Qed.
Print Assumptions pivoted_cholesky_symmetry.

Theorem pivoted_cholesky_not_square : forall A tol,
  dcols A <> drows A -> pivoted_cholesky A tol = Throw LogicError.
Proof. exact pivoted_cholesky_throws. Qed.
Print Assumptions pivoted_cholesky_not_square.

Example cholesky_case : psd 7 (fun _ _ => 1).
Proof. exact (ones_psd 7). Qed.

(* ---------------------------- C23 ---------------------------------- *)

(** For every symmetric matrix the signed factors have signs +1 or -1, are
    exact on as many rows as there are columns and leave a diagonal no larger
    than the threshold times the largest diagonal magnitude; for positive
    semidefinite matrices this bounds every entry. What is missing from the
    full statement is a bound on the off-diagonal remainder of an indefinite
    matrix: it does not hold, see signed_factor_incomplete_refuted. *)
Theorem signed_factor_partial : forall N W thresh,
  (0 < N)%nat -> 0 <= thresh -> symmetric N W ->
  let F := signed_cholesky N W thresh in
  (length F <= N)%nat /\
  (forall sc, In sc F -> fst sc = 1 \/ fst sc = -1) /\
  (exists k, (k < N)%nat /\ forall i, (i < N)%nat ->
     Rabs (W i i - BsBT F i i) <= thresh * Rabs (W k k)) /\
  (exists piv, NoDup piv /\ length piv = length F /\
     forall p j, In p piv -> (j < N)%nat -> (p < N)%nat /\ W p j = BsBT F p j) /\
  (psd N W -> exists k, (k < N)%nat /\ forall i j, (i < N)%nat -> (j < N)%nat ->
     Rabs (W i j - BsBT F i j) <= thresh * W k k).
Proof. exact signed_cholesky_ok. Qed.
Print Assumptions signed_factor_partial.

(** With as many columns as rows nothing is left out. *)
Theorem signed_factor_full_rank : forall N W thresh,
  (0 < N)%nat -> 0 <= thresh -> symmetric N W ->
  length (signed_cholesky N W thresh) = N ->
  forall i j, (i < N)%nat -> (j < N)%nat -> W i j = BsBT (signed_cholesky N W thresh) i j.
Proof. exact signed_cholesky_full. Qed.
Print Assumptions signed_factor_full_rank.

(** An indefinite matrix with zero diagonal is not reproduced at all, whatever
    the threshold: the loop finds no pivot. *)
Theorem signed_factor_incomplete_refuted : exists (N : nat) (W : mat), symmetric N W /\
  forall thresh, 0 <= thresh ->
  exists i j, (i < N)%nat /\ (j < N)%nat /\ W i j = 1 /\ BsBT (signed_cholesky N W thresh) i j = 0.
Proof. exact signed_incomplete. Qed.
Print Assumptions signed_factor_incomplete_refuted.

(** The matrix handed to the factorisation is symmetric for all integrals, and
    is the two-channel matrix when the diagonal channels are symmetric. *)
Theorem two_channel_symmetric : forall n T00 T02 T22,
  symmetric (2 * n) (two_channel n T00 T02 T22) /\
  (symmetric n T00 -> symmetric n T22 -> forall i j, (i < n)%nat -> (j < n)%nat ->
     two_channel n T00 T02 T22 i j = T00 i j /\
     two_channel n T00 T02 T22 i (n + j)%nat = - T02 i j /\
     two_channel n T00 T02 T22 (n + i)%nat j = - T02 j i /\
     two_channel n T00 T02 T22 (n + i)%nat (n + j)%nat = T22 i j).
Proof. exact two_channel_ok. Qed.
Print Assumptions two_channel_symmetric.

Example signed_case : symmetric 2 (fun i j => if Nat.eqb i j then (if Nat.eqb i 0 then 1 else -1) else 0).
Proof.
  intros i j Hi Hj. destruct i as [|[|i]]; destruct j as [|[|j]]; try lia; reflexivity.
Qed.
