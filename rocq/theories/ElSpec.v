(** Vocabulary for electron counts and SCF blocks. *)
Require Import Reals String ZArith List Bool.
Require Import Verif.Prelude Verif.ElModel.
Import ListNotations.
Local Open Scope Z_scope.

(** Inputs for which no intermediate result leaves the range of int. *)
Definition small (z : Z) : Prop := - 2 ^ 28 <= z <= 2 ^ 28.
Definition small_counts (c : counts) : Prop := small (c_a c) /\ small (c_b c) /\ small (c_Q c) /\ small (c_M c).

(** a spin-up and b spin-down electrons of a system with nuclear charge Zn, total
    charge Q and multiplicity M. *)
Definition state_of (Zn Q M a b : Z) : Prop := a + b = Zn - Q /\ a - b = M - 1.

(** Total number of electrons the blocks can hold: the cap of a block counts for
    each of its basis functions. *)
Definition capacity (m : metadata) (sizes : list nat) (nparttype : nat) : R :=
  sum nparttype (fun t => sum (length sizes) (fun k =>
    (nth (t * length sizes + k) (md_maxocc m) 0 * INR (nth k sizes 0%nat))%R)).
