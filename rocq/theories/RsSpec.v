(** Vocabulary for the self-consistent field of spherically averaged atoms. *)
Require Import Reals ZArith List Bool Arith Permutation.
Require Import Verif.Prelude Verif.FEModel Verif.AngModel Verif.JKModel Verif.ScfModel Verif.ScfSpec Verif.RsModel.
Import ListNotations.
Local Open Scope R_scope.

(** u^T F v *)
Definition element (n : nat) (F : mat) (u v : vec) : R := sum n (fun p => sum n (fun q => u p * F p q * v q)).
(** Column i of a matrix. *)
Definition col (C : mat) (i : nat) : vec := fun p => C p i.

(** Symmetric matrices for every l; sums, multiples and the trace of products. *)
Definition csym (nb n : nat) (A : cube) : Prop := forall l, (l < nb)%nat -> symmetric n (A l).
Definition cadd (A B : cube) : cube := fun l => madd (A l) (B l).
Definition cscal (t : R) (A : cube) : cube := fun l => mscal t (A l).
Definition ctr (nb n : nat) (A B : cube) : R := sum nb (fun l => tr n (A l) (B l)).

(** Exchange of spherically averaged densities: linear, and symmetric when the matrices of l
    are weighted with 2l+1 (C105). *)
Definition shell_linear_symmetric (nb n : nat) (f : cube -> cube) : Prop :=
  (forall A B t l, csym nb n A -> csym nb n B -> (l < nb)%nat ->
     meq n n (f (cadd A (cscal t B)) l) (madd (f A l) (mscal t (f B l)))) /\
  (forall A B, csym nb n A -> csym nb n B ->
     sum nb (fun l => INR (2 * l + 1) * tr n (A l) (f B l)) = sum nb (fun l => INR (2 * l + 1) * tr n (B l) (f A l))).

(** The potential is the derivative of the energy along straight lines (C101). *)
Definition xc_line1 (nb n : nat) (f : cube -> R * cube) : Prop := forall P D, csym nb n P -> csym nb n D ->
  derivable_pt_lim (fun t => fst (f (cadd P (cscal t D)))) 0 (ctr nb n D (snd (f P))).
Definition xc_line2 (nb n : nat) (f : cube -> cube -> R * (cube * cube)) : Prop := forall Pa Pb Da Db,
  csym nb n Pa -> csym nb n Pb -> csym nb n Da -> csym nb n Db ->
  derivable_pt_lim (fun t => fst (f (cadd Pa (cscal t Da)) (cadd Pb (cscal t Db)))) 0
    (ctr nb n Da (fst (snd (f Pa Pb))) + ctr nb n Db (snd (snd (f Pa Pb)))).
(** ... and along every curve that has a direction at the start. *)
Definition direction (nb n : nat) (P : R -> cube) (D : cube) : Prop := forall l a b, (l < nb)%nat -> (a < n)%nat -> (b < n)%nat ->
  derivable_pt_lim (fun t => P t l a b) 0 (D l a b).
Definition xc_curve1 (nb n : nat) (f : cube -> R * cube) : Prop := forall P D, (forall t, csym nb n (P t)) -> csym nb n D ->
  direction nb n P D -> derivable_pt_lim (fun t => fst (f (P t))) 0 (ctr nb n D (snd (f (P 0)))).
Definition xc_curve2 (nb n : nat) (f : cube -> cube -> R * (cube * cube)) : Prop := forall Pa Pb Da Db,
  (forall t, csym nb n (Pa t)) -> (forall t, csym nb n (Pb t)) -> csym nb n Da -> csym nb n Db ->
  direction nb n Pa Da -> direction nb n Pb Db ->
  derivable_pt_lim (fun t => fst (f (Pa t) (Pb t))) 0
    (ctr nb n Da (fst (snd (f (Pa 0) (Pb 0)))) + ctr nb n Db (snd (snd (f (Pa 0) (Pb 0))))).

(** The matrices the driver gets from the basis: symmetric one-electron matrices, Coulomb
    and exchange as in C104 and C105, the exchange only if it is used. *)
Definition atom_ok (s : satom) : Prop :=
  let n := sa_n s in let nb := sa_nb s in
  linear_symmetric n (sa_coulomb s) /\
  (sa_kfrac s <> 0 -> shell_linear_symmetric nb n (sa_exchange s)) /\
  (sa_kshort s <> 0 -> shell_linear_symmetric nb n (sa_rs_exchange s)).

(** Every block of the calculation has orbitals. *)
Definition nblocks (s : satom) : nat := (nparttype s * sa_nb s)%nat.
Definition blocks_filled (s : satom) (blk : nat -> block) : Prop := forall k, (k < nblocks s)%nat -> (0 < b_m (blk k))%nat.

(** Occupations, or orbitals and occupations, moved by t. *)
Definition move_occ (blk : nat -> block) (dn : nat -> vec) (t : R) : nat -> block :=
  fun k => mkBlock (b_m (blk k)) (b_orb (blk k)) (fun i => b_occ (blk k) i + t * dn k i).
Definition move (blk : nat -> block) (dC : nat -> mat) (dn : nat -> vec) (t : R) : nat -> block :=
  fun k => mkBlock (b_m (blk k)) (fun p i => b_orb (blk k) p i + t * dC k p i) (fun i => b_occ (blk k) i + t * dn k i).

(** The change of the energy predicted by the Fock matrices: every orbital c with
    occupation o contributes do c^T F c + o (dc^T F c + c^T F dc). *)
Definition predicted (s : satom) (F : nat -> mat) (blk : nat -> block) (dC : nat -> mat) (dn : nat -> vec) (ks : list nat) : R :=
  lsum ks (fun k => sum (b_m (blk k)) (fun i =>
    dn k i * element (sa_n s) (F k) (col (b_orb (blk k)) i) (col (b_orb (blk k)) i) +
    b_occ (blk k) i * (element (sa_n s) (F k) (col (dC k) i) (col (b_orb (blk k)) i) +
                       element (sa_n s) (F k) (col (b_orb (blk k)) i) (col (dC k) i)))).

(** With fixed orbitals: every orbital contributes do c^T F c. *)
Definition orbital_energies (s : satom) (F : nat -> mat) (blk : nat -> block) (dn : nat -> vec) (ks : list nat) : R :=
  lsum ks (fun k => sum (b_m (blk k)) (fun i => dn k i * element (sa_n s) (F k) (col (b_orb (blk k)) i) (col (b_orb (blk k)) i))).

(** E is the energy returned along the movement, and its derivative is the prediction of the
    Fock matrices F returned at the start. *)
Definition gradient_along (s : satom) (blk : nat -> block) (mv : R -> nat -> block) (slope : (nat -> mat) -> R) : Prop :=
  exists E F, build_fock s blk = Ok (E 0, F) /\ (forall t, exists Ft, build_fock s (mv t) = Ok (E t, Ft)) /\
    derivable_pt_lim E 0 (slope F).

(** Closed shells: each spin has the orbitals of the restricted calculation with half of
    the occupation. *)
Definition halves (nb : nat) (blk : nat -> block) : nat -> block :=
  fun k => let b := blk (if Nat.ltb k nb then k else (k - nb)%nat) in mkBlock (b_m b) (b_orb b) (fun i => b_occ b i / 2).
(** The spin-polarised functional of two equal densities is the restricted one (C102). *)
Definition xc_closed (nb n : nat) (f1 : cube -> R * cube) (f2 : cube -> cube -> R * (cube * cube)) : Prop := forall P, csym nb n P ->
  let H := cscal (/ 2) P in
  fst (f2 H H) = fst (f1 P) /\
  (forall l, (l < nb)%nat -> meq n n (fst (snd (f2 H H)) l) (snd (f1 P) l) /\ meq n n (snd (snd (f2 H H)) l) (snd (f1 P) l)).
(** The two drivers differ in the treatment of spin only. *)
Definition same_atom (s u : satom) : Prop :=
  sa_restricted s = true /\ sa_restricted u = false /\ sa_n u = sa_n s /\ sa_nb u = sa_nb s /\
  sa_X u = sa_X s /\ sa_T u = sa_T s /\ sa_Tl u = sa_Tl s /\ sa_Vnuc u = sa_Vnuc s /\ sa_conf u = sa_conf s /\
  sa_kfrac u = sa_kfrac s /\ sa_kshort u = sa_kshort s /\ sa_have_xc u = sa_have_xc s /\ sa_coulomb u = sa_coulomb s /\
  sa_exchange u = sa_exchange s /\ sa_rs_exchange u = sa_rs_exchange s.

(** Orthonormal orbitals in every block. *)
Definition all_orthonormal (s : satom) (blk : nat -> block) : Prop := forall k, (k < nblocks s)%nat -> orthonormal (sa_n s) (blk k).
(** Electrons in all blocks. *)
Definition electrons (s : satom) (blk : nat -> block) : R := sum (nblocks s) (fun k => occupation (blk k)).

(** The density of orbitals C with occupations o. *)
Definition density_of (m : nat) (C : mat) (o : vec) : mat := fun a b => sum m (fun i => C a i * o i * C b i).

(** x to the nearest integer. *)
Definition nearest (z : Z) (x : R) : Prop := Rabs (IZR z - x) <= / 2.

(** The density, in the basis functions, of block k. *)
Definition block_P (s : satom) (b : block) : mat := block_density (sa_n s) (sa_X s) (b_m b) (b_orb b) (b_occ b).

(** The functional of a density without beta electrons, and the potential of alpha. *)
Definition alpha_xc (f : bool -> cube -> cube -> R * (cube * cube)) (P : cube) : R * cube :=
  (fst (f false P czero), fst (snd (f false P czero))).

(** The densities and the electron numbers of particle type t in a file. *)
Definition file_density (k : saved) (t : nat) : list dmat := read_slices (sd_lmax k) (if Nat.eqb t 0 then sd_Pal k else sd_Pbl k).
Definition file_occs (k : saved) (t : nat) : option (list Z) := if Nat.eqb t 0 then sd_occs_a k else sd_occs_b k.
(** The slices of a file are symmetric matrices. *)
Definition file_symmetric (k : saved) (no : nat) : Prop := forall t A, In A (file_density k t) ->
  forall i j, (i < no)%nat -> (j < no)%nat -> dent A i j = dent A j i.
(** Electrons of the blocks that are loaded; the block that stands for a missing one. *)
Definition loaded (bs : list block) : R := lsum bs occupation.
Definition no_block : block := mkBlock 0 mzero (fun _ => 0).
