(** Properties C129-C130: the Gauss-Lobatto rule. *)
Require Import Reals List Arith Bool ZArith Lia Lra.
Require Import Verif.Prelude Verif.FEModel Verif.ShapeModel Verif.ShapeSpec Verif.ShapeLeg Verif.ShapeOrth.
Require Import Verif.RadSpec.
Require Import Verif.LbModel Verif.LbSpec Verif.LbProofs Verif.LbExact.
Import ListNotations.
Open Scope R_scope.

(** * C129 *)
Theorem C129_rejects : forall tol fuel n,
  ((n < 2)%Z -> lobatto_compute tol fuel n = Throw RuntimeError) /\
  (forall e, lobatto_compute tol fuel n = Throw e -> (n < 2)%Z /\ e = RuntimeError).
Proof. exact (fun tol fuel n => conj (compute_throws tol fuel n) (fun e => compute_throw_only tol fuel n e)). Qed.
Theorem C129_shape : forall tol fuel n x w, lobatto_compute tol fuel n = Ok (x, w) ->
  let m := Z.to_nat n in
  length x = m /\ length w = m /\ at_ x 0 = -1 /\ at_ x (m - 1) = 1 /\
  at_ w 0 = 2 / (IZR n * (IZR n - 1)) /\ at_ w (m - 1) = 2 / (IZR n * (IZR n - 1)) /\
  (forall i, (i < m)%nat -> at_ x (m - 1 - i) = - at_ x i /\ at_ w (m - 1 - i) = at_ w i /\ 0 < at_ w i).
Proof. exact compute_shape. Qed.
Example C129_rejects_ex : lobatto_compute 0 1 1 = Throw RuntimeError.
Proof. apply compute_throws. lia. Qed.
Example C129_shape_ex : lobatto_compute 0 1 3 = Ok ([-1; 0; 1], [1 / 3; 4 / 3; 1 / 3]).
Proof. apply compute_3. lra. Qed.

(** * C130 *)
Theorem C130_residual : forall tol fuel n x w, lobatto_compute tol fuel n = Ok (x, w) ->
  exists y, length y = Z.to_nat n /\ forall i, (i < Z.to_nat n)%nat ->
    at_ x i = at_ y i + (1 - at_ y i * at_ y i) * dleg (Z.to_nat n - 1) (at_ y i) / (IZR n * (IZR n - 1) * leg (Z.to_nat n - 1) (at_ y i)) /\
    Rabs (at_ x i - at_ y i) <= tol /\
    Rabs ((1 - at_ y i * at_ y i) * dleg (Z.to_nat n - 1) (at_ y i))
      <= tol * IZR n * (IZR n - 1) * Rabs (leg (Z.to_nat n - 1) (at_ y i)).
Proof. exact compute_residual. Qed.
Theorem C130_stationary : forall fuel n x w, lobatto_compute 0 fuel n = Ok (x, w) ->
  forall i, (i < length x)%nat -> stationary (length x) (at_ x i).
Proof. exact converged_stationary. Qed.
(** The code stops at 100 epsilon, the theorem at a step that moves nothing. *)
Theorem C130_integrates_partial : forall fuel n x w, lobatto_compute 0 fuel n = Ok (x, w) -> distinct_nodes x ->
  integrates (2 * Z.to_nat n - 2) x w.
Proof. exact converged_exact. Qed.
Theorem C130_sharp : forall fuel n x w, lobatto_compute 0 fuel n = Ok (x, w) -> distinct_nodes x ->
  rule x w (fun t => leg (Z.to_nat n - 1) t * leg (Z.to_nat n - 1) t) = 2 / (IZR n - 1) /\
  integral (fun t => leg (Z.to_nat n - 1) t * leg (Z.to_nat n - 1) t) (-1) 1 (2 / (2 * IZR n - 1)).
Proof. exact converged_sharp. Qed.
Theorem C130_feeds_radial : forall (X W : nat -> list R) (fuel : nat -> nat),
  (forall n, (2 <= n)%nat -> lobatto_compute 0 (fuel n) (Z.of_nat n) = Ok (X n, W n) /\ distinct_nodes (X n)) ->
  lobatto_exact (fun n => at_ (X n)) (fun n => at_ (W n)).
Proof. exact compute_lobatto_exact. Qed.
Example C130_two_ex : lobatto_compute 0 1 2 = Ok ([-1; 1], [1; 1]) /\ distinct_nodes [-1; 1].
Proof.
  split; [apply compute_2; lra|].
  constructor; [intros [E|[]]; lra | constructor; [intros [] | constructor]].
Qed.
(** Simpson's rule on a cubic: 1 + 2 x + 3 x^2 + 4 x^3 integrates to 4. *)
Example C130_three_ex : lobatto_compute 0 1 3 = Ok ([-1; 0; 1], [1 / 3; 4 / 3; 1 / 3]) /\ distinct_nodes [-1; 0; 1] /\
  rule [-1; 0; 1] [1 / 3; 4 / 3; 1 / 3] (peval [1; 2; 3; 4]) = 4.
Proof.
  split; [apply compute_3; lra|]. split.
  - constructor; [intros [E|[E|[]]]; lra | constructor; [intros [E|[]]; lra | constructor; [intros [] | constructor]]].
  - unfold rule, at_. cbn. lra.
Qed.

Print Assumptions C129_rejects.
Print Assumptions C129_shape.
Print Assumptions C130_residual.
Print Assumptions C130_stationary.
Print Assumptions C130_integrates_partial.
Print Assumptions C130_sharp.
Print Assumptions C130_feeds_radial.
