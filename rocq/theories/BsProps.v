(** Properties C131-C132: the special functions of math.h. *)
Require Import Reals List Arith Bool Lia Lra.
Require Import Verif.Prelude Verif.BsModel Verif.BsSpec Verif.BsProofs.
Import ListNotations.
Open Scope R_scope.

(** * C131 *)
Theorem C131_parity : forall cyl eps r L,
  bessel_il cyl eps (- r) L = (if Nat.odd L then -1 else 1) * bessel_il cyl eps r L.
Proof. exact il_parity. Qed.
Theorem C131_small : forall cyl eps r L, Rabs r < 1 / 2 -> 100 * (/ 24) ^ 255 <= eps ->
  exists s, is_il L r s /\ Rabs (bessel_il cyl eps r L - s) <= eps / 2300 * Rabs (bessel_il cyl eps r L).
Proof. exact il_small. Qed.
(** The series is the function it is meant to be. *)
Theorem C131_series : forall x,
  (forall s, is_il 0 x s -> x * s = sinh x) /\
  (forall s, is_il 1 x s -> x * x * s = x * cosh x - sinh x) /\
  (forall L s0 s1 s2, is_il L x s0 -> is_il (S L) x s1 -> is_il (S (S L)) x s2 -> x * s0 - x * s2 = (2 * INR L + 3) * s1) /\
  (forall L s t, is_il L x s -> is_il L x t -> s = t).
Proof. exact (fun x => conj (il_0 x) (conj (il_1 x) (conj (fun L s0 s1 s2 => il_recurrence L x s0 s1 s2) (fun L s t => il_unique L x s t)))). Qed.
Theorem C131_vector : forall cyl eps r L, length (bessel_il_vec cyl eps r L) = length r /\
  forall i, (i < length r)%nat -> nth i (bessel_il_vec cyl eps r L) 0 = bessel_il cyl eps (nth i r 0) L.
Proof. exact il_vector. Qed.
(** Double precision and quadruple precision leave room for the bound. *)
Example C131_small_ex : forall cyl L, exists s, is_il L (1 / 4) s /\
  Rabs (bessel_il cyl (/ 2 ^ 112) (1 / 4) L - s) <= / 2 ^ 112 / 2300 * Rabs (bessel_il cyl (/ 2 ^ 112) (1 / 4) L).
Proof. intros cyl L. apply il_small; [rewrite Rabs_right; lra | exact eps_room]. Qed.
Example C131_zero_ex : forall cyl, bessel_il cyl (/ 2 ^ 52) 0 0 = 1 /\ bessel_il cyl (/ 2 ^ 52) 0 3 = 0.
Proof. exact zero_values. Qed.

(** * C132 *)
Theorem C132_arcosh : forall x, 0 <= arcosh x /\ cosh (arcosh x) = Rmax x 1.
Proof. exact (fun x => conj (arcosh_pos x) (cosh_arcosh x)). Qed.
Theorem C132_arcosh_cosh : forall m, 0 <= m -> arcosh (cosh m) = m.
Proof. exact arcosh_cosh. Qed.
Theorem C132_arsinh : forall x, sinh (arsinh x) = x /\ arsinh (sinh x) = x.
Proof. exact (fun x => conj (sinh_arsinh x) (arsinh_sinh x)). Qed.
Theorem C132_vectors : forall x, length (arcosh_vec x) = length x /\ length (arsinh_vec x) = length x /\
  forall i, (i < length x)%nat -> cosh (nth i (arcosh_vec x) 0) = Rmax (nth i x 0) 1 /\ sinh (nth i (arsinh_vec x) 0) = nth i x 0.
Proof. exact inverse_vectors. Qed.
Example C132_ex : cosh (arcosh (1 / 2)) = 1 /\ cosh (arcosh 3) = 3 /\ arcosh (cosh 2) = 2.
Proof.
  split; [rewrite cosh_arcosh, Rmax_right; lra|]. split; [rewrite cosh_arcosh, Rmax_left; lra | apply arcosh_cosh; lra].
Qed.

Print Assumptions C131_parity.
Print Assumptions C131_small.
Print Assumptions C131_series.
Print Assumptions C131_vector.
Print Assumptions C132_arcosh.
Print Assumptions C132_arcosh_cosh.
Print Assumptions C132_arsinh.
Print Assumptions C132_vectors.
