(** Vocabulary for the Coulomb and exchange contraction properties. *)
Require Import Reals List Bool Arith.
Require Import Verif.Prelude Verif.AngModel Verif.CholSpec Verif.JKModel.
Import ListNotations.
Local Open Scope R_scope.

(** First index, number of functions, and membership of element e. *)
Definition first_of (lay : layout) (e : nat) : nat := fst (lidx lay e).
Definition count_of (lay : layout) (e : nat) : nat := snd (lidx lay e).
Definition inside (lay : layout) (e a : nat) : bool :=
  (Nat.leb (first_of lay e) a && Nat.ltb a (first_of lay e + count_of lay e))%bool.
Definition local (lay : layout) (e a : nat) : nat := (a - first_of lay e)%nat.

(** Every element's functions exist. *)
Definition fits (lay : layout) : Prop :=
  forall e, (e < lnel lay)%nat -> (first_of lay e + count_of lay e <= lnbf lay)%nat.

(** The interaction of two elements: the in-element tensor (by pair index), or
    the product of the integral with the smaller power on the inner element and
    the larger power on the outer one. *)
Definition element_pair (lay : layout) (small big tei : nat -> mat) (i j : nat)
    (a b c d : nat) : R :=
  if Nat.eqb i j then tei i (pair_ix (count_of lay i) a b) (pair_ix (count_of lay i) c d)
  else if Nat.ltb i j then small i a b * big j c d
  else big i a b * small j c d.

(** The two-electron tensor R(ab,cd) over the whole basis: all elements that
    contain both a and b, with all that contain both c and d. *)
Definition tensor (lay : layout) (block : nat -> nat -> nat -> nat -> nat -> nat -> R)
    (a b c d : nat) : R :=
  sum (lnel lay) (fun i => sum (lnel lay) (fun j =>
    if (inside lay i a && inside lay i b && (inside lay j c && inside lay j d))%bool
    then block i j (local lay i a) (local lay i b) (local lay j c) (local lay j d)
    else 0)).

(** The exact Coulomb and exchange contractions. *)
Definition coulomb_of (n : nat) (T : nat -> nat -> nat -> nat -> R) (P : mat) (a b : nat) : R :=
  sum n (fun c => sum n (fun d => T a b c d * P c d)).
Definition exchange_of (n : nat) (T : nat -> nat -> nat -> nat -> R) (P : mat) (a b : nat) : R :=
  sum n (fun c => sum n (fun d => T a c b d * P c d)).

(** The accessor returns, for element e, an r x c matrix with the given entries. *)
Definition supplies (acc : nat -> res dmat) (e r c : nat) (M : mat) : Prop :=
  exists A, acc e = Ok A /\ drows A = r /\ dcols A = c /\
    forall i j, (i < r)%nat -> (j < c)%nat -> dent A i j = M i j.

(** The accessors supply the integrals of all elements; r_big is needed for
    elements other than the first only. *)
Definition supplies_disjoint (lay : layout) (rs rb : nat -> res dmat) (small big : nat -> mat) : Prop :=
  (forall e, (e < lnel lay)%nat ->
     supplies rs e (count_of lay e) (count_of lay e) (small e) /\
     symmetric (count_of lay e) (small e)) /\
  (forall e, (0 < e < lnel lay)%nat ->
     supplies rb e (count_of lay e) (count_of lay e) (big e) /\
     symmetric (count_of lay e) (big e)).

(** A density matrix of the full basis. *)
Definition density (n : nat) (P : dmat) : Prop := drows P = n /\ dcols P = n.

(** (ab|cd) = (ba|cd) within n functions. *)
Definition pair_symmetric (n : nat) (T : mat) : Prop :=
  forall a b r, (a < n)%nat -> (b < n)%nat -> (r < n * n)%nat ->
    T (pair_ix n a b) r = T (pair_ix n b a) r.

(** The computed matrix is the n x n matrix f. *)
Definition is_matrix (r : res dmat) (n : nat) (f : nat -> nat -> R) : Prop :=
  exists M, r = Ok M /\ drows M = n /\ dcols M = n /\
    forall a b, (a < n)%nat -> (b < n)%nat -> dent M a b = f a b.

(** Sum of |P| over the functions of each element, summed over elements. *)
Definition element_weight (lay : layout) (P : dmat) : R :=
  sum (lnel lay) (fun e => sum (count_of lay e) (fun c => sum (count_of lay e) (fun d =>
    Rabs (dent P (first_of lay e + c)%nat (first_of lay e + d)%nat)))).

(** (L L^T) of a factor given as a matrix. *)
Definition factor_tensor (L : dmat) : mat := fun r s => sum (dcols L) (fun p => dent L r p * dent L s p).

(** The cache holds A at position i. *)
Definition holds (c : cache) (i : nat) (A : dmat) : Prop := cache_at c i = Ok A.

(** The integrals of a kernel have the shapes of the layout and the symmetries
    of the integrals they stand for. *)
Definition kernel_ok (lay : layout) (k : kernel) (L : nat) : Prop :=
  (forall e, (e < lnel lay)%nat ->
     drows (k_small k L e) = count_of lay e /\ dcols (k_small k L e) = count_of lay e /\
     symmetric (count_of lay e) (dent (k_small k L e)) /\
     drows (k_tei k L e) = (count_of lay e * count_of lay e)%nat /\
     dcols (k_tei k L e) = (count_of lay e * count_of lay e)%nat /\
     pair_symmetric (count_of lay e) (dent (k_tei k L e))) /\
  (forall e, (0 < e < lnel lay)%nat ->
     drows (k_big k L e) = count_of lay e /\ dcols (k_big k L e) = count_of lay e /\
     symmetric (count_of lay e) (dent (k_big k L e))).

(** The tensor of a kernel's integrals at multipole L. *)
Definition kernel_tensor (lay : layout) (k : kernel) (L : nat) : nat -> nat -> nat -> nat -> R :=
  tensor lay (element_pair lay (fun e => dent (k_small k L e)) (fun e => dent (k_big k L e))
                (fun e => dent (k_tei k L e))).
