(** Vocabulary for the files of the jellium program. *)
Require Import Reals ZArith List Bool Arith.
Require Import Verif.Prelude Verif.AngModel Verif.AijModel Verif.AoModel.
Import ListNotations.
Open Scope R_scope.

(** Same dimensions and same entries. *)
Definition same_mat (A B : dmat) : Prop :=
  drows A = drows B /\ dcols A = dcols B /\ forall r c, (r < drows A)%nat -> (c < dcols A)%nat -> dent A r c = dent B r c.
(** All blocks have the dimensions nr, nc. *)
Definition uniform (nr nc : nat) (fock : list dmat) : Prop := forall A, In A fock -> drows A = nr /\ dcols A = nc.
(** A block without orbitals, for positions past the end. *)
Definition o0 : oblock := mkO (fun _ _ => 0) (fun _ _ => 0) (fun _ _ => 0) (fun _ => 0) [].
(** The orbitals to be written, as pairs of a block and an orbital: every one above the threshold
    once, ordered by block and then by orbital. *)
Definition earlier (p q : nat * nat) : Prop := (fst p < fst q \/ fst p = fst q /\ snd p < snd q)%nat.
Definition written (thr : R) (bs : list oblock) (ps : list (nat * nat)) : Prop :=
  (forall b io, In (b, io) ps <-> (b < length bs /\ io < length (o_occ (nth b bs o0)))%nat /\
     thr < Rabs (nth io (o_occ (nth b bs o0)) 0)) /\
  (forall i k, (i < k < length ps)%nat -> earlier (nth i ps (0, 0)%nat) (nth k ps (0, 0)%nat)).
