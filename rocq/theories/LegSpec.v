(** The associated Legendre functions. *)
Require Import Reals List Arith Bool ZArith.
Require Import Verif.Prelude.
Open Scope R_scope.

(** D m l is the m-th derivative of D 0 l, at every point of [dom]. *)
Definition derivatives (dom : R -> Prop) (D : nat -> nat -> R -> R) : Prop :=
  forall m l x, dom x -> derivable_pt_lim (D m l) x (D (S m) l x).

(** Bonnet's recurrence in l. *)
Definition bonnet (dom : R -> Prop) (D : nat -> nat -> R -> R) : Prop :=
  forall l x, dom x -> (INR l + 2) * D 0%nat (S (S l)) x = (2 * INR l + 3) * x * D 0%nat (S l) x - (INR l + 1) * D 0%nat l x.

Definition anywhere (x : R) : Prop := True.
Definition off_unit (x : R) : Prop := Rabs x <> 1.

(** The Legendre polynomials and their derivatives. *)
Definition first_kind (D : nat -> nat -> R -> R) : Prop :=
  derivatives anywhere D /\ bonnet anywhere D /\ (forall x, D 0%nat 0%nat x = 1) /\ (forall x, D 0%nat 1%nat x = x).

(** The functions of the second kind and their derivatives, on and off the cut. *)
Definition second_kind (D : nat -> nat -> R -> R) : Prop :=
  derivatives off_unit D /\ bonnet off_unit D /\
  (forall x, off_unit x -> D 0%nat 0%nat x = 1 / 2 * ln (Rabs ((x + 1) / (x - 1)))) /\
  (forall x, off_unit x -> D 0%nat 1%nat x = x * D 0%nat 0%nat x - 1).

(** The associated functions: with the phase (-1)^m on the cut, without it outside. *)
Definition associated (D : nat -> nat -> R -> R) (l m : nat) (x : R) : R :=
  if Rle_dec (Rabs x) 1 then (-1) ^ m * sqrt (1 - x * x) ^ m * D m l x
  else sqrt (x * x - 1) ^ m * D m l x.
