(** Model of the Gauss-Lobatto rule, libhelfem/include/lobatto.h. *)
Require Import Reals List Arith Bool ZArith.
Require Import Verif.Prelude.
Import ListNotations.
Open Scope R_scope.

(** lobatto.h:53-55: the Chebyshev-Gauss-Lobatto guess.  [PI] for acos(-1). *)
Definition lb_guess (n : nat) : vec := fun i => cos (PI * INR i / INR (n - 1)).

(** lobatto.h:67-78: the row p(i, 0..n-1) at one abscissa, as the pair
    (P_{j}, P_{j+1}) after j passes of the loop over j. *)
Fixpoint lb_row (j : nat) (x : R) : R * R :=
  match j with
  | O => (1, x)
  | S k => let '(a, b) := lb_row k x in
           let jj := INR (k + 2) in
           (b, ((2 * jj - 1) * x * b - (jj - 1) * a) * (1 / jj))
  end.

(** lobatto.h:81-84: one Newton step.  p(i, n-2) and p(i, n-1) are the pair after
    n-2 passes.  A division by zero, which gives an infinity or a NaN in the code,
    is the outcome UB. *)
Definition lb_newton (n : nat) (x : R) : res R :=
  let '(pm, pn) := lb_row (n - 2) x in
  if Reqb pn 0 then UB
  else Ok (x - (x * pn - pm) / (INR n * pn)).

(** The step on all nodes. *)
Fixpoint lb_all {A B} (f : A -> res B) (l : list A) : res (list B) :=
  match l with
  | [] => Ok []
  | a :: r => bind (f a) (fun b => bind (lb_all f r) (fun s => Ok (b :: s)))
  end.

(** lobatto.h:87-91: the largest change. *)
Fixpoint lb_change (x xold : list R) (err : R) : R :=
  match x, xold with
  | a :: x', b :: xold' =>
      let test := Rabs (a - b) in
      lb_change x' xold' (if Rltb err test then test else err)
  | _, _ => err
  end.

(** lobatto.h:61-93: the Newton iteration, at most [fuel] passes; the code has no
    limit. *)
Fixpoint lb_loop (tol : R) (n : nat) (fuel : nat) (xold : list R) : res (list R) :=
  match fuel with
  | O => OutOfFuel
  | S k =>
      bind (lb_all (lb_newton n) xold) (fun x =>
      if Rleb (lb_change x xold 0) tol then Ok x else lb_loop tol n k x)
  end.

(** lobatto.h:100-107: P_{n-1}(x) again, with three scalars; the pair is
    (pnm1, pn) after the passes j = 2 .. m+1. *)
Fixpoint lb_pn (m : nat) (x : R) : R * R :=
  match m with
  | O => (1, x)
  | S k => let '(pnm2, pnm1) := lb_pn k x in
           let j := INR (k + 2) in
           (pnm1, ((2 * j - 1) * x * pnm1 - (j - 1) * pnm2) / j)
  end.
(** lobatto.h:109: the weight; a vanishing P_{n-1} is UB as above. *)
Definition lb_weight (n : nat) (x : R) : res R :=
  let pn := snd (lb_pn (n - 2) x) in
  if Reqb pn 0 then UB
  else Ok (2 / ((INR n - 1) * INR n * pn * pn)).

(** lobatto.h:36-111: lobatto_compute.  [tol] for 100 epsilon. *)
Definition lobatto_compute (tol : R) (fuel : nat) (n : Z) : res (list R * list R) :=
  if (n <? 2)%Z then Throw RuntimeError
  else
    let m := Z.to_nat n in
    bind (lb_loop tol m fuel (map (lb_guess m) (seq 0 m))) (fun x =>
    let x' := rev x in
    bind (lb_all (lb_weight m) x') (fun w => Ok (x', w))).
