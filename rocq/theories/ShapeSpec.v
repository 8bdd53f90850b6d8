(** Vocabulary for the shape function properties. *)
Require Import Reals List Arith Bool.
Require Import Verif.Prelude Verif.FEModel Verif.ShapeModel.
Import ListNotations.
Open Scope R_scope.

(** Pairwise distinct nodes. *)
Definition distinct (N : nat) (x0 : vec) : Prop :=
  forall i j, (i < N)%nat -> (j < N)%nat -> x0 i = x0 j -> i = j.

(** Polynomials by their coefficients, constant term first. *)
Fixpoint peval (c : list R) (x : R) : R :=
  match c with [] => 0 | a :: r => a + x * peval r x end.
Fixpoint padd (p q : list R) : list R :=
  match p, q with [], _ => q | _, [] => p | a :: p', b :: q' => (a + b) :: padd p' q' end.
(** The derivative of a polynomial: (a + x p)' = p + x p'. *)
Fixpoint pder (c : list R) : list R :=
  match c with [] => [] | _ :: r => padd r (0 :: pder r) end.
Fixpoint pderk (k : nat) (c : list R) : list R :=
  match k with O => c | S j => pder (pderk j c) end.

(** Entry [k] of what an evaluation returned. *)
Definition entry (o : res (list R)) (k : nat) : R :=
  match o with Ok l => nth k l 0 | _ => 0 end.
Definition succeeds {A} (o : res A) : Prop := exists a, o = Ok a.

(** Sum of coefficients times values. *)
Fixpoint dot (c v : list R) : R :=
  match c, v with a :: c', b :: v' => a * b + dot c' v' | _, _ => 0 end.

(** Families built on nodes. *)
Definition nodal (f : family) : Prop := f <> Legendre.

(** What a usable basis needs: distinct nodes if the family has nodes, at least
    two functions for Legendre. *)
Definition good (f : family) (N : nat) (x0 : vec) : Prop :=
  match f with Legendre => (2 <= N)%nat | _ => distinct N x0 end.

(** The integral of [g] from [a] to [b] through a primitive. *)
Definition integral (g : R -> R) (a b v : R) : Prop :=
  exists F : R -> R, (forall x, derivable_pt_lim F x (g x)) /\ F b - F a = v.

(** Is [j] one of the functions that vanish at both ends of the element? *)
Definition interior (N j : nat) : bool := ((1 <=? j) && (j <? N - 1))%nat%bool.

(** The element starts at the origin: its first node is the end -1. *)
Definition origin (f : family) (N : nat) (x0 : vec) : Prop :=
  good f N x0 /\ (f <> Legendre -> x0 0%nat = -1).
