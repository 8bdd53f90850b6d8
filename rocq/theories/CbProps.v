(** Properties C116 and C117: the modified Gauss-Chebyshev rules. *)
Require Import Reals Arith Lra Lia.
Require Import Verif.Prelude Verif.CbModel Verif.CbSpec Verif.CbProofs.
Local Open Scope R_scope.

(** C116: the nodes lie inside the interval in increasing order, mirrored about the
    centre, with positive mirrored weights *)
Theorem C116_nodes n :
  (forall j, (j < n)%nat -> -1 < fst (chebyshev n) j < 1 /\ 0 < snd (chebyshev n) j) /\
  (forall i j, (i < j)%nat -> (j < n)%nat -> fst (chebyshev n) i < fst (chebyshev n) j) /\
  (forall j, (j < n)%nat -> fst (chebyshev n) (n - 1 - j)%nat = - fst (chebyshev n) j /\ snd (chebyshev n) (n - 1 - j)%nat = snd (chebyshev n) j).
Proof. exact (conj (cheb_inside n) (conj (cheb_increasing n) (cheb_sym n))). Qed.
Print Assumptions C116_nodes.
Example C116_nodes_case : fst (chebyshev 3) 1%nat = 0.
Proof. destruct (C116_nodes 3) as (_ & _ & H). destruct (H 1%nat ltac:(lia)) as [E _]. cbn [Nat.sub] in E. lra. Qed.

(** C116: one change of variable turns the rule of every size into the trapezoidal rule *)
Theorem C116_trapezoid : exists Y : R -> R, Y 0 = -1 /\ Y PI = 1 /\ (forall s t, 0 <= s -> s < t -> t <= PI -> Y s < Y t) /\
  forall n, mapped_trapezoid Y 0 (PI / INR (n + 1)) n (fst (chebyshev n)) (snd (chebyshev n)).
Proof. exact cheb_map. Qed.
Print Assumptions C116_trapezoid.

(** C116: from two points on, affine functions are integrated exactly *)
Theorem C116_affine n a b : (2 <= n)%nat -> rule n (fst (chebyshev n)) (snd (chebyshev n)) (fun x => a + b * x) = 2 * a.
Proof. exact (affine_rule n a b). Qed.
Print Assumptions C116_affine.
Example C116_affine_case : (2 <= 2)%nat. Proof. lia. Qed.

(** C116: the one-point rule is off by a third even for a constant *)
Theorem C116_one_refuted : rule 1 (fst (chebyshev 1)) (snd (chebyshev 1)) (fun _ => 1) = 8 / 3 /\ 8 / 3 <> 2.
Proof. exact (conj one_point eight_thirds). Qed.
Print Assumptions C116_one_refuted.

(** C116: the rule converges for every continuous integrand *)
Theorem C116_converges (f F : R -> R) : (forall x, -1 <= x <= 1 -> continuity_pt f x) -> (forall x, -1 <= x <= 1 -> derivable_pt_lim F x (f x)) ->
  forall eps, 0 < eps -> exists N, forall n, (N <= n)%nat -> Rabs (rule n (fst (chebyshev n)) (snd (chebyshev n)) f - (F 1 - F (-1))) < eps.
Proof. exact (converges f F). Qed.
Print Assumptions C116_converges.
Example C116_converges_case : (forall x, -1 <= x <= 1 -> continuity_pt exp x) /\ (forall x, -1 <= x <= 1 -> derivable_pt_lim exp x (exp x)).
Proof. split; intros x _; [apply derivable_continuous_pt; apply derivable_pt_exp|apply derivable_pt_lim_exp]. Qed.

(** C117: radial nodes are positive and increasing, with positive weights *)
Theorem C117_nodes n : (forall j, (j < n)%nat -> 0 < fst (radial_chebyshev n) j /\ 0 < snd (radial_chebyshev n) j) /\
  (forall i j, (i < j)%nat -> (j < n)%nat -> fst (radial_chebyshev n) i < fst (radial_chebyshev n) j).
Proof. exact (radial_basic n). Qed.
Print Assumptions C117_nodes.
(* the single node of the one-point rule is at unit distance *)
Example C117_nodes_case : fst (radial_chebyshev 1) 0%nat = 1.
Proof. exact radial_one. Qed.

(** C117: one map onto the half line turns the radial rule of every size into the
    trapezoidal rule *)
Theorem C117_trapezoid : exists Y : R -> R, Y 0 = 0 /\ (forall s t, 0 <= s -> s < t -> t < PI -> Y s < Y t) /\ (forall M, exists t, 0 < t < PI /\ M < Y t) /\
  forall n, mapped_trapezoid Y 0 (PI / INR (n + 1)) n (fst (radial_chebyshev n)) (snd (radial_chebyshev n)).
Proof. exact radial_map. Qed.
Print Assumptions C117_trapezoid.

(** C117: from two points on the radial rule integrates a 2^-r + b 4^-r exactly *)
Theorem C117_exact n a b : (2 <= n)%nat ->
  rule n (fst (radial_chebyshev n)) (snd (radial_chebyshev n)) (fun r => a * exp (- (r * ln 2)) + b * exp (- (r * (2 * ln 2)))) = a / ln 2 + b / (2 * ln 2).
Proof. exact (radial_exact n a b). Qed.
Print Assumptions C117_exact.
Example C117_exact_case : (2 <= 5)%nat. Proof. lia. Qed.
