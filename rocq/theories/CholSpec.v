(** Vocabulary for the factorisation properties. *)
Require Import Reals List Arith.
Require Import Verif.Prelude.
Import ListNotations.
Local Open Scope R_scope.

(** Symmetric on the first n rows and columns. *)
Definition symmetric (n : nat) (A : mat) : Prop :=
  forall i j, (i < n)%nat -> (j < n)%nat -> A i j = A j i.

(** Positive semidefinite: no vector has a negative quadratic form. *)
Definition psd (n : nat) (A : mat) : Prop :=
  symmetric n A /\
  forall v : vec, 0 <= sum n (fun i => sum n (fun j => v i * A i j * v j)).

(** (L L^T)(i,j) for a factor given by its columns. *)
Definition LLT (cols : list vec) : mat := fun i j => lsum cols (fun c => c i * c j).

(** sum_p s_p b_p b_p^T. *)
Definition BsBT (B : list (R * vec)) : mat := fun i j =>
  lsum B (fun sc => fst sc * snd sc i * snd sc j).

(** Column-major pair index of (a, b), a running fastest over n values. *)
Definition pair_ix (n a b : nat) : nat := (b * n + a)%nat.
