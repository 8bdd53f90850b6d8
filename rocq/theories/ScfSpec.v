(** Vocabulary for orthonormalisation, diagonalisation, densities and Fock
    matrices. *)
Require Import Reals List Bool Arith Permutation.
Require Import Verif.Prelude Verif.AngModel Verif.ScfModel.
Import ListNotations.
Local Open Scope R_scope.

(** Equality of n by m matrices. *)
Definition meq (n m : nat) (A B : mat) : Prop := forall i j, (i < n)%nat -> (j < m)%nat -> A i j = B i j.
Definition symmetric (n : nat) (A : mat) : Prop := forall i j, (i < n)%nat -> (j < n)%nat -> A i j = A j i.
Definition quad_form (n : nat) (A : mat) (v : vec) : R := sum n (fun i => sum n (fun j => v i * A i j * v j)).
Definition positive_definite (n : nat) (A : mat) : Prop :=
  symmetric n A /\ forall v, (exists i, (i < n)%nat /\ v i <> 0) -> 0 < quad_form n A v.

(** What the decompositions return if they report success. *)
Definition is_eigensystem (n : nat) (A : mat) (e : vec) (V : mat) : Prop :=
  meq n n (mmul n (mT V) V) mid /\ meq n n (mmul n V (mT V)) mid /\
  meq n n (mmul n A V) (fun i j => V i j * e j) /\
  (forall i j, (i <= j)%nat -> (j < n)%nat -> e i <= e j).
Definition eig_ok (sv : solvers) : Prop := forall n A e V, symmetric n A -> sv_eig sv n A = Some (e, V) -> is_eigensystem n A e V.
Definition llt_ok (sv : solvers) : Prop := forall n A L, symmetric n A -> sv_llt sv n A = Some L ->
  meq n n (mmul n L (mT L)) A /\ (forall i j, (i < j)%nat -> (j < n)%nat -> L i j = 0) /\ (forall i, (i < n)%nat -> L i i <> 0).
Definition inv_ok (sv : solvers) : Prop := forall n U,
  (forall i j, (j < i)%nat -> (i < n)%nat -> U i j = 0) -> (forall i, (i < n)%nat -> U i i <> 0) ->
  meq n n (mmul n U (sv_inv sv n U)) mid /\ meq n n (mmul n (sv_inv sv n U) U) mid.
Definition sort_ok (sv : solvers) : Prop := forall n E,
  Permutation (sv_sort sv n E) (seq 0 n) /\
  forall i j, (i <= j)%nat -> (j < n)%nat -> E (ix (sv_sort sv n E) i) <= E (ix (sv_sort sv n E) j).
Definition solvers_ok (sv : solvers) : Prop := eig_ok sv /\ llt_ok sv /\ inv_ok sv /\ sort_ok sv.

(** The index lists of the symmetry blocks contain every function once. *)
Definition partition (N : nat) (blocks : list (list nat)) : Prop := Permutation (concat blocks) (seq 0 N).
(** A matrix without elements between different blocks. *)
Definition block_diagonal (blocks : list (list nat)) (A : mat) : Prop :=
  forall k k' r s, k <> k' -> In r (nth k blocks []) -> In s (nth k' blocks []) -> A r s = 0.
(** Every column has elements in one block only. *)
Definition columns_in_blocks (N M : nat) (blocks : list (list nat)) (X : mat) : Prop :=
  forall c, (c < M)%nat -> exists k, (k < length blocks)%nat /\
    forall r, (r < N)%nat -> X r c <> 0 -> In r (nth k blocks []).

(** X is a half-inverse of S: X^T S X = 1 and X X^T S = 1. *)
Definition half_inverse (n : nat) (X S : mat) : Prop :=
  meq n n (mmul n (mmul n (mT X) S) X) mid /\ meq n n (mmul n (mmul n X (mT X)) S) mid.

(** E and C solve F C = S C E with C^T S C = 1, in ascending order. *)
Definition solves (n : nat) (F S : mat) (E : vec) (C : mat) : Prop :=
  meq n n (mmul n (mmul n (mT C) S) C) mid /\
  meq n n (mmul n F C) (fun r i => mmul n S C r i * E i) /\
  (forall i j, (i <= j)%nat -> (j < n)%nat -> E i <= E j).

(** Orbitals of one block in its orthonormal basis: orthonormal columns. *)
Definition orthonormal (n : nat) (b : block) : Prop := meq (b_m b) (b_m b) (mmul n (mT (b_orb b)) (b_orb b)) mid.
Definition occupation (b : block) : R := sum (b_m b) (b_occ b).

(** Well-formed block descriptions of a basis of N functions: disjoint index lists,
    mirror lists empty or of the size of the block. *)
Definition blocks_ok (N : nat) (ys : list symblock) : Prop :=
  (forall y, In y ys -> forall r, In r (y_idx y ++ y_mirror y) -> (r < N)%nat) /\
  NoDup (flat_map (fun y => y_idx y ++ y_mirror y) ys) /\
  (forall y, In y ys -> y_mirror y = [] \/ length (y_mirror y) = length (y_idx y)).
(** The matrix has the same elements in the mirror image of each block. *)
Definition mirror_symmetric (ys : list symblock) (A : mat) : Prop :=
  forall y a b, In y ys -> y_mirror y <> [] -> (a < length (y_idx y))%nat -> (b < length (y_idx y))%nat ->
    A (ix (y_mirror y) a) (ix (y_mirror y) b) = A (ix (y_idx y) a) (ix (y_idx y) b).
(** The orthonormaliser of each block fits the overlap. *)
Definition orthonormalisers (ys : list symblock) (S : mat) : Prop :=
  forall y, In y ys -> let n := length (y_idx y) in
    meq n n (mmul n (mmul n (mT (y_X y)) (gather S (y_idx y) (y_idx y))) (y_X y)) mid.
(** Two functions belong to the same block or the same mirror image. *)
Definition same_block (ys : list symblock) (r s : nat) : Prop :=
  exists y, In y ys /\ ((In r (y_idx y) /\ In s (y_idx y)) \/ (In r (y_mirror y) /\ In s (y_mirror y))).

(** Energy of the orbitals of a block in a Fock matrix: sum of occupation times
    diagonal element. *)
Definition orbital_trace (n : nat) (f : mat) (b : block) : R :=
  sum (b_m b) (fun i => b_occ b i * sum n (fun p => sum n (fun q => b_orb b p i * f p q * b_orb b q i))).

(** All eigenvalues of A lie between lo and hi. *)
Definition spectrum_in (n : nat) (A : mat) (lo hi : R) : Prop :=
  forall v, lo * sum n (fun i => v i * v i) <= quad_form n A v <= hi * sum n (fun i => v i * v i).

(** Linear maps of symmetric matrices, symmetric under the trace: Coulomb and
    exchange. *)
Definition linear_symmetric (n : nat) (f : mat -> mat) : Prop :=
  (forall A B t, symmetric n A -> symmetric n B ->
     meq n n (f (madd A (mscal t B))) (madd (f A) (mscal t (f B)))) /\
  (forall A B, symmetric n A -> symmetric n B -> tr n A (f B) = tr n B (f A)).
(** An energy with its potential. *)
Definition xc_gradient1 (n : nat) (f : mat -> R * mat) : Prop := forall P D, symmetric n P -> symmetric n D ->
  derivable_pt_lim (fun t => fst (f (madd P (mscal t D)))) 0 (tr n D (snd (f P))).
Definition xc_gradient2 (n : nat) (f : mat -> mat -> R * (mat * mat)) : Prop := forall Pa Pb Da Db,
  symmetric n Pa -> symmetric n Pb -> symmetric n Da -> symmetric n Db ->
  derivable_pt_lim (fun t => fst (f (madd Pa (mscal t Da)) (madd Pb (mscal t Db)))) 0
    (tr n Da (fst (snd (f Pa Pb))) + tr n Db (snd (snd (f Pa Pb)))).
Definition if_some {A} (P : A -> Prop) (o : option A) : Prop := match o with Some a => P a | None => True end.
