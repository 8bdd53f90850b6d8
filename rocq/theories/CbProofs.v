(** Proofs about the modified Gauss-Chebyshev rules. *)
Require Import Reals Lra Lia Arith.
Require Import Verif.Prelude Verif.LegMath Verif.CbModel Verif.CbSpec.
Open Scope R_scope.

Lemma sum_rev n f : sum n f = sum n (fun i => f (n - 1 - i)%nat).
Proof.
  induction n as [|n IH]; [reflexivity|]. rewrite (sum_shift n (fun i => f (S n - 1 - i)%nat)). cbn [sum]. rewrite IH.
  replace (S n - 1 - 0)%nat with n by lia. rewrite Rplus_comm. f_equal. apply sum_ext. intros i Hi. f_equal. lia.
Qed.
Lemma sum_const n c : sum n (fun _ => c) = c * INR n.
Proof. induction n as [|n IH]; [cbn; ring|]. cbn [sum]. rewrite IH, S_INR. ring. Qed.

(** * The node map *)
Definition theta (n i : nat) : R := INR i * PI / INR (n + 1).
Definition X (t : R) : R := 1 - 2 * t / PI + 2 / PI * (1 + 2 / 3 * (sin t * sin t)) * cos t * sin t.
Lemma den_pos n : 0 < INR (n + 1).
Proof. apply lt_0_INR. lia. Qed.
Lemma node_X n i : cheb_node n i = X (theta n i).
Proof.
  unfold cheb_node, X, theta. pose proof (den_pos n). assert (PI <> 0) by apply PI_neq0.
  replace (INR i * PI * (1 / INR (n + 1))) with (INR i * PI / INR (n + 1)) by (field; lra).
  cbv zeta. f_equal. f_equal. field. split; lra.
Qed.
Lemma weight_sin n i : cheb_weight n i = 16 / 3 / INR (n + 1) * (sin (theta n i) ^ 4).
Proof.
  unfold cheb_weight, theta. pose proof (den_pos n).
  replace (INR i * PI * (1 / INR (n + 1))) with (INR i * PI / INR (n + 1)) by (field; lra). cbv zeta. ring.
Qed.
Lemma X_der t : derivable_pt_lim X t (- (16 / (3 * PI)) * sin t ^ 4).
Proof.
  assert (Hp : PI <> 0) by apply PI_neq0.
  apply (lim_ext (fun t => 1 + (-2 / PI) * t + 2 / PI * ((1 + 2 / 3 * (sin t * sin t)) * (cos t * sin t)))).
  { intros y. unfold X. field. exact Hp. }
  eapply lim_eq.
  2: { apply lim_plus; [apply lim_plus; [exact (lim_const 1 t)|apply lim_scal; apply lim_id]|]. apply lim_scal.
       apply (lim_mul (fun t => 1 + 2 / 3 * (sin t * sin t)) (fun t => cos t * sin t)).
       - apply lim_plus; [exact (lim_const 1 t)|]. apply lim_scal. apply (lim_mul sin sin); apply derivable_pt_lim_sin.
       - apply (lim_mul cos sin); [apply derivable_pt_lim_cos|apply derivable_pt_lim_sin]. }
  cbv beta. pose proof (sin2_cos2 t) as E. unfold Rsqr in E.
  assert (Ec : cos t * cos t = 1 - sin t * sin t) by lra.
  set (s := sin t) in *. set (c := cos t) in *.
  replace (0 + -2 / PI * 1 + 2 / PI * ((0 + 2 / 3 * (c * s + s * c)) * (c * s) + (1 + 2 / 3 * (s * s)) * (- s * s + c * c)))
    with (/ PI * (-2 + 2 * ((4 / 3) * (s * s) * (c * c) + (1 + 2 / 3 * (s * s)) * (c * c - s * s)))) by (field; exact Hp).
  rewrite Ec. field. exact Hp.
Qed.
Lemma X_lt s t : 0 <= s -> s < t -> t <= PI -> X t < X s.
Proof.
  intros H0 Hst HP. destruct (MVT_cor2 X (fun t => - (16 / (3 * PI)) * sin t ^ 4) s t Hst) as (c & E & Hc).
  { intros c _. apply X_der. }
  assert (Hs : 0 < sin c) by (apply sin_gt_0; lra). assert (H4 : 0 < sin c ^ 4) by (apply pow_lt; exact Hs).
  assert (Hk : 0 < 16 / (3 * PI)) by (apply Rdiv_lt_0_compat; [lra|pose proof PI_RGT_0; lra]).
  assert (0 < 16 / (3 * PI) * sin c ^ 4 * (t - s)) by (apply Rmult_lt_0_compat; [apply Rmult_lt_0_compat; assumption|lra]). lra.
Qed.
Lemma X_0 : X 0 = 1.
Proof. unfold X. rewrite sin_0, cos_0. field. apply PI_neq0. Qed.
Lemma X_PI : X PI = -1.
Proof. unfold X. rewrite sin_PI, cos_PI. field. apply PI_neq0. Qed.
Lemma X_sym t : X (PI - t) = - X t.
Proof.
  unfold X. rewrite <- sin_PI_x. replace (PI - (PI - t)) with t by ring.
  assert (E : cos (PI - t) = - cos t). { rewrite Rtrigo_facts.cos_pi_minus. reflexivity. }
  rewrite E. replace (sin (PI - t)) with (sin t) by (rewrite Rtrigo_facts.sin_pi_minus; reflexivity). field. apply PI_neq0.
Qed.
Lemma theta_range n i : (1 <= i <= n)%nat -> 0 < theta n i < PI.
Proof.
  intros H. unfold theta. pose proof (den_pos n). pose proof PI_RGT_0. assert (1 <= INR i) by (apply (le_INR 1); lia).
  assert (INR i <= INR n) by (apply le_INR; lia). rewrite plus_INR in *. cbn [INR] in *.
  split; [apply Rdiv_lt_0_compat; nra|]. apply Rmult_lt_reg_r with (INR n + 1); [lra|]. unfold Rdiv. rewrite Rmult_assoc, Rinv_l by lra. nra.
Qed.
Lemma theta_lt n i j : (i < j)%nat -> theta n i < theta n j.
Proof.
  intros H. unfold theta. pose proof (den_pos n). pose proof PI_RGT_0. apply lt_INR in H.
  unfold Rdiv. apply Rmult_lt_compat_r; [apply Rinv_0_lt_compat; exact H0|]. nra.
Qed.
Lemma theta_flip n i : (i <= n + 1)%nat -> theta n (n + 1 - i) = PI - theta n i.
Proof. intros H. unfold theta. rewrite minus_INR by lia. field. pose proof (den_pos n). lra. Qed.

(** Nodes and weights of the rule, in order. *)
Lemma cheb_at n j : (j < n)%nat -> fst (chebyshev n) j = X (theta n (n - j)) /\ snd (chebyshev n) j = 16 / 3 / INR (n + 1) * sin (theta n (n - j)) ^ 4.
Proof.
  intros H. cbn [chebyshev fst snd]. unfold reverse. replace (n - 1 - j + 1)%nat with (n - j)%nat by lia. rewrite node_X, weight_sin. auto.
Qed.
Lemma cheb_inside n j : (j < n)%nat -> -1 < fst (chebyshev n) j < 1 /\ 0 < snd (chebyshev n) j.
Proof.
  intros H. destruct (cheb_at n j H) as [-> ->]. destruct (theta_range n (n - j) ltac:(lia)) as [H1 H2].
  rewrite <- X_0, <- X_PI at 1. split; [split; apply X_lt; lra|].
  apply Rmult_lt_0_compat; [|apply pow_lt; apply sin_gt_0; assumption]. pose proof (den_pos n). apply Rdiv_lt_0_compat; [lra|exact H0].
Qed.
Lemma cheb_increasing n i j : (i < j)%nat -> (j < n)%nat -> fst (chebyshev n) i < fst (chebyshev n) j.
Proof.
  intros Hij Hj. destruct (cheb_at n i ltac:(lia)) as [-> _]. destruct (cheb_at n j Hj) as [-> _].
  destruct (theta_range n (n - i) ltac:(lia)). destruct (theta_range n (n - j) ltac:(lia)). apply X_lt; [lra|apply theta_lt; lia|lra].
Qed.
Lemma cheb_sym n j : (j < n)%nat -> fst (chebyshev n) (n - 1 - j)%nat = - fst (chebyshev n) j /\ snd (chebyshev n) (n - 1 - j)%nat = snd (chebyshev n) j.
Proof.
  intros H. destruct (cheb_at n j H) as [-> ->]. destruct (cheb_at n (n - 1 - j) ltac:(lia)) as [-> ->].
  assert (E : theta n (n - (n - 1 - j)) = PI - theta n (n - j)).
  { rewrite <- theta_flip by lia. f_equal. lia. }
  rewrite E, X_sym. split; [reflexivity|]. rewrite Rtrigo_facts.sin_pi_minus. reflexivity.
Qed.
Lemma cheb_trapezoid n : mapped_trapezoid (fun t => X (PI - t)) 0 (PI / INR (n + 1)) n (fst (chebyshev n)) (snd (chebyshev n)).
Proof.
  intros j Hj. destruct (cheb_at n j Hj) as [-> ->].
  assert (E : 0 + INR (j + 1) * (PI / INR (n + 1)) = PI - theta n (n - j)).
  { rewrite <- theta_flip by lia. unfold theta. replace (n + 1 - (n - j))%nat with (j + 1)%nat by lia. unfold Rdiv. ring. }
  rewrite E. replace (PI - (PI - theta n (n - j))) with (theta n (n - j)) by ring. split; [reflexivity|].
  exists (16 / (3 * PI) * sin (theta n (n - j)) ^ 4). split.
  - eapply lim_eq; [|apply (derivable_pt_lim_comp (fun t => PI - t) X (PI - theta n (n - j)) (0 - 1) (- (16 / (3 * PI)) * sin (theta n (n - j)) ^ 4))].
    + ring.
    + apply (lim_minus (fun _ => PI) (fun t => t)); [exact (lim_const PI _)|apply lim_id].
    + replace (PI - (PI - theta n (n - j))) with (theta n (n - j)) by ring. apply X_der.
  - field. split; [apply PI_neq0|]. pose proof (den_pos n). lra.
Qed.

(** * The sum of the weights *)
Lemma cos_tel a N : 2 * sin (a / 2) * sum N (fun i => cos (INR i * a)) = sin (INR N * a - a / 2) + sin (a / 2).
Proof.
  induction N as [|N IH].
  - cbn [sum INR]. replace (0 * a - a / 2) with (- (a / 2)) by field. rewrite sin_neg. ring.
  - cbn [sum]. rewrite Rmult_plus_distr_l, IH. rewrite S_INR.
    replace ((INR N + 1) * a - a / 2) with (INR N * a + a / 2) by field. rewrite sin_plus, sin_minus. ring.
Qed.
Lemma cos_sum k N : (0 < k)%nat -> (k < N)%nat -> sum N (fun i => cos (INR i * (2 * PI * INR k / INR N))) = 0.
Proof.
  intros Hk HN. assert (H0 : 0 < INR N) by (apply lt_0_INR; lia). assert (H1 : 0 < INR k) by (apply lt_0_INR; lia).
  assert (H2 : INR k < INR N) by (apply lt_INR; lia). pose proof PI_RGT_0.
  pose proof (cos_tel (2 * PI * INR k / INR N) N) as E.
  replace (INR N * (2 * PI * INR k / INR N) - 2 * PI * INR k / INR N / 2) with (- (2 * PI * INR k / INR N / 2) + 2 * INR k * PI) in E by (field; lra).
  rewrite sin_period, sin_neg in E.
  assert (Hs : 0 < sin (2 * PI * INR k / INR N / 2)).
  { apply sin_gt_0.
    - apply Rmult_lt_0_compat; [|lra]. apply Rdiv_lt_0_compat; nra.
    - replace (2 * PI * INR k / INR N / 2) with (PI * (INR k / INR N)) by (field; lra).
      assert (INR k / INR N < 1) by (apply Rmult_lt_reg_r with (INR N); [lra|]; unfold Rdiv; rewrite Rmult_assoc, Rinv_l by lra; lra). nra. }
  assert (E2 : 2 * sin (2 * PI * INR k / INR N / 2) * sum N (fun i => cos (INR i * (2 * PI * INR k / INR N))) = 0) by lra.
  apply Rmult_integral in E2. destruct E2 as [E2|E2]; [lra|exact E2].
Qed.
Lemma sin4 t : sin t ^ 4 = 3 / 8 - / 2 * cos (2 * t) + / 8 * cos (2 * (2 * t)).
Proof.
  rewrite (cos_2a_sin (2 * t)), (cos_2a_sin t), (sin_2a t). pose proof (sin2_cos2 t) as E. unfold Rsqr in E.
  replace (2 * (2 * sin t * cos t) * (2 * sin t * cos t)) with (8 * (sin t * sin t) * (cos t * cos t)) by ring.
  replace (cos t * cos t) with (1 - sin t * sin t) by lra. field.
Qed.
Lemma rev_sum n (f : nat -> R) : sum n (fun j => f (n - j)%nat) = sum n (fun j => f (S j)).
Proof.
  rewrite (sum_rev n (fun j => f (S j))). apply sum_ext. intros j Hj. f_equal. lia.
Qed.
Lemma weights_as_cos n : sum n (snd (chebyshev n)) =
  16 / 3 / INR (n + 1) * (3 / 8 * INR (n + 1) - / 2 * sum (n + 1) (fun i => cos (INR i * (2 * PI * INR 1 / INR (n + 1))))
                          + / 8 * sum (n + 1) (fun i => cos (INR i * (2 * PI * INR 2 / INR (n + 1))))).
Proof.
  rewrite (sum_ext n _ (fun j => 16 / 3 / INR (n + 1) * sin (theta n (n - j)) ^ 4)) by (intros j Hj; apply (cheb_at n j Hj)).
  rewrite sum_scal. f_equal. rewrite (rev_sum n (fun i => sin (theta n i) ^ 4)).
  replace (n + 1)%nat with (S n) by lia.
  transitivity (sum (S n) (fun i => sin (theta n i) ^ 4)).
  { rewrite sum_shift. unfold theta at 2. cbn [INR]. replace (0 * PI / INR (n + 1)) with 0 by (unfold Rdiv; ring). rewrite sin_0. ring. }
  rewrite (sum_ext (S n) _ (fun i => 3 / 8 + (- / 2 * cos (INR i * (2 * PI * INR 1 / INR (S n))) + / 8 * cos (INR i * (2 * PI * INR 2 / INR (S n)))))).
  2: { intros i _. rewrite sin4. unfold theta. replace (n + 1)%nat with (S n) by lia.
       assert (0 < INR (S n)) by (apply lt_0_INR; lia).
       replace (2 * (2 * (INR i * PI / INR (S n)))) with (INR i * (2 * PI * INR 2 / INR (S n))) by (cbn [INR]; field; cbn [INR] in H; destruct n; lra).
       replace (2 * (INR i * PI / INR (S n))) with (INR i * (2 * PI * INR 1 / INR (S n))) by (cbn [INR]; field; cbn [INR] in H; destruct n; lra). ring. }
  rewrite !sum_plus, !sum_scal, sum_const. ring.
Qed.
Lemma weights_sum n : (2 <= n)%nat -> sum n (snd (chebyshev n)) = 2.
Proof.
  intros H. rewrite weights_as_cos, !cos_sum by lia. pose proof (den_pos n). field. lra.
Qed.
Lemma weights_one : sum 1 (snd (chebyshev 1)) = 8 / 3.
Proof.
  destruct (cheb_at 1 0 ltac:(lia)) as [_ E]. cbn [sum]. rewrite E. unfold theta. cbn [Nat.sub Nat.add INR].
  replace (1 * PI / (1 + 1)) with (PI / 2) by field. rewrite sin_PI2. field.
Qed.
Lemma odd_rule n (f : R -> R) : (forall x, f (- x) = - f x) -> rule n (fst (chebyshev n)) (snd (chebyshev n)) f = 0.
Proof.
  intros Hf. unfold rule. set (S0 := sum n _).
  assert (E : S0 = - S0); [|lra]. unfold S0 at 1. rewrite (sum_rev n). unfold S0.
  replace (- sum n (fun j => snd (chebyshev n) j * f (fst (chebyshev n) j))) with (-1 * sum n (fun j => snd (chebyshev n) j * f (fst (chebyshev n) j))) by ring.
  rewrite <- sum_scal. apply sum_ext. intros j Hj. destruct (cheb_sym n j Hj) as [E1 E2]. rewrite E1, E2, Hf. ring.
Qed.
Lemma affine_rule n a b : (2 <= n)%nat -> rule n (fst (chebyshev n)) (snd (chebyshev n)) (fun x => a + b * x) = 2 * a.
Proof.
  intros H. pose proof (odd_rule n (fun x => b * x) ltac:(intros; cbv beta; ring)) as E. unfold rule in *.
  rewrite (sum_ext n _ (fun j => a * snd (chebyshev n) j + snd (chebyshev n) j * (b * fst (chebyshev n) j))) by (intros; ring).
  rewrite sum_plus, E, sum_scal, weights_sum by exact H. ring.
Qed.

(** * The radial rule *)
Definition rad_of (x : R) : R := ln (2 / (1 - x)) / ln 2.
Lemma ln2_pos : 0 < ln 2.
Proof. rewrite <- ln_1. apply ln_increasing; lra. Qed.
Lemma rad_at n j : fst (radial_chebyshev n) j = rad_of (fst (chebyshev n) j) /\
  snd (radial_chebyshev n) j = snd (chebyshev n) j * (/ (ln 2 * (1 - fst (chebyshev n) j))).
Proof.
  pose proof ln2_pos. unfold radial_chebyshev. destruct (chebyshev n) as [x w]. cbn [fst snd]. unfold rad_of. split; [field; lra|]. f_equal.
  unfold Rdiv. rewrite Rinv_mult. ring.
Qed.
Lemma rad_der x : x < 1 -> derivable_pt_lim rad_of x (/ (ln 2 * (1 - x))).
Proof.
  intros Hx. pose proof ln2_pos as H2.
  apply (local_lim (fun y => / ln 2 * (ln 2 - ln (1 - y)))).
  { exists (1 - x). split; [lra|]. intros y Hy. unfold rad_of. apply Rabs_def2 in Hy.
    unfold Rdiv at 2. rewrite ln_mult, ln_Rinv by (try apply Rinv_0_lt_compat; lra). unfold Rdiv. ring. }
  eapply lim_eq; [|apply lim_scal; apply lim_minus; [exact (lim_const (ln 2) x)|]].
  2: { apply (derivable_pt_lim_comp (fun y => 1 - y) ln x (0 - 1) (/ (1 - x))).
       - apply (lim_minus (fun _ => 1) (fun y => y)); [exact (lim_const 1 x)|apply lim_id].
       - apply derivable_pt_lim_ln. lra. }
  field. lra.
Qed.
Lemma rad_pos x : -1 < x < 1 -> 0 < rad_of x.
Proof.
  intros Hx. unfold rad_of. apply Rdiv_lt_0_compat; [|exact ln2_pos]. rewrite <- ln_1. apply ln_increasing; [lra|].
  apply Rmult_lt_reg_r with (1 - x); [lra|]. unfold Rdiv. rewrite Rmult_assoc, Rinv_l by lra. lra.
Qed.
Lemma rad_lt x y : x < y -> y < 1 -> rad_of x < rad_of y.
Proof.
  intros H1 H2. unfold rad_of, Rdiv at 1 3. apply Rmult_lt_compat_r; [apply Rinv_0_lt_compat; exact ln2_pos|].
  apply ln_increasing; [apply Rdiv_lt_0_compat; lra|]. unfold Rdiv. apply Rmult_lt_compat_l; [lra|]. apply Rinv_lt_contravar; [|lra].
  apply Rmult_lt_0_compat; lra.
Qed.
Lemma radial_basic n : (forall j, (j < n)%nat -> 0 < fst (radial_chebyshev n) j /\ 0 < snd (radial_chebyshev n) j) /\
  (forall i j, (i < j)%nat -> (j < n)%nat -> fst (radial_chebyshev n) i < fst (radial_chebyshev n) j).
Proof.
  split.
  - intros j Hj. destruct (rad_at n j) as [-> ->]. destruct (cheb_inside n j Hj) as [Hx Hw]. split; [apply rad_pos; exact Hx|].
    apply Rmult_lt_0_compat; [exact Hw|]. apply Rinv_0_lt_compat. apply Rmult_lt_0_compat; [exact ln2_pos|lra].
  - intros i j Hij Hj. destruct (rad_at n i) as [-> _]. destruct (rad_at n j) as [-> _]. apply rad_lt; [apply cheb_increasing; assumption|].
    apply (cheb_inside n j Hj).
Qed.
Lemma radial_trapezoid n : mapped_trapezoid (fun t => rad_of (X (PI - t))) 0 (PI / INR (n + 1)) n (fst (radial_chebyshev n)) (snd (radial_chebyshev n)).
Proof.
  intros j Hj. destruct (rad_at n j) as [-> ->]. destruct (cheb_trapezoid n j Hj) as (Ex & d & Dd & Ew).
  destruct (cheb_inside n j Hj) as [Hx _]. rewrite Ew. rewrite Ex in Hx |- *. split; [reflexivity|].
  exists (/ (ln 2 * (1 - X (PI - (0 + INR (j + 1) * (PI / INR (n + 1)))))) * d). split; [|ring].
  apply (derivable_pt_lim_comp (fun t => X (PI - t)) rad_of _ d _ Dd). apply rad_der. lra.
Qed.
(** Exact for combinations of 2^-r and 4^-r. *)
Lemma two_pow x : x < 1 -> exp (- (rad_of x * ln 2)) = (1 - x) / 2.
Proof.
  intros H. unfold rad_of. replace (ln (2 / (1 - x)) / ln 2 * ln 2) with (ln (2 / (1 - x))) by (field; pose proof ln2_pos; lra).
  rewrite exp_Ropp, exp_ln by (apply Rdiv_lt_0_compat; lra). field. lra.
Qed.
Lemma radial_exact n a b : (2 <= n)%nat ->
  rule n (fst (radial_chebyshev n)) (snd (radial_chebyshev n)) (fun r => a * exp (- (r * ln 2)) + b * exp (- (r * (2 * ln 2)))) = a / ln 2 + b / (2 * ln 2).
Proof.
  intros Hn. pose proof ln2_pos as H2. unfold rule.
  rewrite (sum_ext n _ (fun j => / (2 * ln 2) * (snd (chebyshev n) j * (a + b / 2 + (- b / 2) * fst (chebyshev n) j)))).
  - rewrite sum_scal. pose proof (affine_rule n (a + b / 2) (- b / 2) Hn) as E. unfold rule in E. rewrite E. field. lra.
  - intros j Hj. destruct (rad_at n j) as [-> ->]. destruct (cheb_inside n j Hj) as [Hx _].
    replace (- (rad_of (fst (chebyshev n) j) * (2 * ln 2))) with (- (rad_of (fst (chebyshev n) j) * ln 2) + - (rad_of (fst (chebyshev n) j) * ln 2)) by ring.
    rewrite exp_plus, two_pow by lra. field. lra.
Qed.

Lemma cheb_map : exists Y : R -> R, Y 0 = -1 /\ Y PI = 1 /\ (forall s t, 0 <= s -> s < t -> t <= PI -> Y s < Y t) /\
  forall n, mapped_trapezoid Y 0 (PI / INR (n + 1)) n (fst (chebyshev n)) (snd (chebyshev n)).
Proof.
  exists (fun t => X (PI - t)). split; [rewrite Rminus_0_r; apply X_PI|]. split; [rewrite Rminus_diag_eq by reflexivity; apply X_0|].
  split; [intros; apply X_lt; lra|]. exact cheb_trapezoid.
Qed.
Lemma rad_at_level M : rad_of (1 - 2 * exp (- (M * ln 2))) = M.
Proof.
  unfold rad_of. pose proof ln2_pos as H2. pose proof (exp_pos (- (M * ln 2))) as He.
  replace (2 / (1 - (1 - 2 * exp (- (M * ln 2))))) with (/ exp (- (M * ln 2))) by (field; lra).
  rewrite ln_Rinv, ln_exp by exact He. field. lra.
Qed.
Lemma radial_map : exists Y : R -> R, Y 0 = 0 /\ (forall s t, 0 <= s -> s < t -> t < PI -> Y s < Y t) /\ (forall M, exists t, 0 < t < PI /\ M < Y t) /\
  forall n, mapped_trapezoid Y 0 (PI / INR (n + 1)) n (fst (radial_chebyshev n)) (snd (radial_chebyshev n)).
Proof.
  pose proof PI_RGT_0 as Hp. pose proof ln2_pos as H2. exists (fun t => rad_of (X (PI - t))). split.
  { rewrite Rminus_0_r, X_PI. unfold rad_of. replace (2 / (1 - -1)) with 1 by field. rewrite ln_1. unfold Rdiv. ring. }
  split. { intros s t H0 Hst Ht. apply rad_lt; [apply X_lt; lra|]. rewrite <- X_0. apply X_lt; lra. }
  split; [|exact radial_trapezoid].
  intros M. set (e := 2 * exp (- (M * ln 2))). assert (He : 0 < e) by (pose proof (exp_pos (- (M * ln 2))); unfold e; lra).
  assert (Hc : continuity_pt X 0) by (apply derivable_continuous_pt; exists (- (16 / (3 * PI)) * sin 0 ^ 4); apply X_der).
  destruct (Hc e He) as (d & Hd & Hn). set (u := Rmin (d / 2) (PI / 2)).
  assert (Hu : 0 < u) by (apply Rmin_glb_lt; lra). assert (Hu1 : u <= d / 2) by apply Rmin_l. assert (Hu2 : u <= PI / 2) by apply Rmin_r.
  exists (PI - u). split; [lra|]. replace (PI - (PI - u)) with u by ring.
  rewrite <- (rad_at_level M) at 1. fold e.
  assert (Hx1 : X u < 1) by (rewrite <- X_0; apply X_lt; lra).
  apply rad_lt; [|exact Hx1].
  assert (Hn' : R_dist (X u) (X 0) < e).
  { apply Hn. split; [split; [exact I|lra]|]. cbn. unfold R_dist. rewrite Rminus_0_r, Rabs_right; lra. }
  unfold R_dist in Hn'. rewrite X_0 in Hn'. apply Rabs_def2 in Hn'. lra.
Qed.

(** * Convergence *)
Lemma big x : exists N, x < INR N.
Proof.
  exists (Z.to_nat (up x)). destruct (archimed x) as [A _]. destruct (Z_lt_le_dec (up x) 0) as [H|H].
  - apply IZR_lt in H. pose proof (pos_INR (Z.to_nat (up x))). lra.
  - rewrite INR_IZR_INZ, Z2Nat.id by exact H. lra.
Qed.
Section Converges.
Variables (f F : R -> R).
Hypothesis (Hc : forall x, -1 <= x <= 1 -> continuity_pt f x) (HF : forall x, -1 <= x <= 1 -> derivable_pt_lim F x (f x)).
Let g t := f (X t) * (16 / (3 * PI) * sin t ^ 4).
Lemma X_range t : 0 <= t <= PI -> -1 <= X t <= 1.
Proof.
  intros [H0 H1]. pose proof PI_RGT_0. split.
  - rewrite <- X_PI. destruct (Req_dec t PI) as [->|]; [lra|]. left. apply X_lt; lra.
  - rewrite <- X_0. destruct (Req_dec t 0) as [->|]; [lra|]. left. apply X_lt; lra.
Qed.
Lemma g_cont t : 0 <= t <= PI -> continuity_pt g t.
Proof.
  intros Ht. unfold g. apply (continuity_pt_mult (fun t => f (X t)) (fun t => 16 / (3 * PI) * sin t ^ 4)).
  - apply (continuity_pt_comp X f); [|apply Hc; apply X_range; exact Ht].
    apply derivable_continuous_pt. exists (- (16 / (3 * PI)) * sin t ^ 4). apply X_der.
  - apply derivable_continuous_pt. reg.
Qed.
Lemma piece s t : 0 <= s -> s < t -> t <= PI -> exists c, s < c < t /\ F (X s) - F (X t) = (t - s) * g c.
Proof.
  intros H0 Hst H1.
  destruct (MVT_cor2 (fun t => F (X t)) (fun t => f (X t) * (- (16 / (3 * PI)) * sin t ^ 4)) s t Hst) as (c & E & Hcc).
  { intros c Hcc. apply (derivable_pt_lim_comp X F c); [apply X_der|]. apply HF. apply X_range. lra. }
  exists c. split; [exact Hcc|]. unfold g. cbv beta in E. lra.
Qed.
Lemma rule_as_g n : rule n (fst (chebyshev n)) (snd (chebyshev n)) f = sum (n + 1) (fun i => PI / INR (n + 1) * g (theta n (S i))).
Proof.
  pose proof (den_pos n) as Hd. pose proof PI_RGT_0 as Hp. unfold rule.
  rewrite (sum_ext n _ (fun j => PI / INR (n + 1) * g (theta n (n - j)))).
  2: { intros j Hj. destruct (cheb_at n j Hj) as [-> ->]. unfold g. field. split; lra. }
  rewrite (rev_sum n (fun i => PI / INR (n + 1) * g (theta n i))).
  replace (n + 1)%nat with (S n) by lia. cbn [sum].
  assert (Ez : g (theta n (S n)) = 0).
  { unfold g, theta. replace (n + 1)%nat with (S n) by lia. replace (INR (S n) * PI / INR (S n)) with PI; [rewrite sin_PI; ring|].
    field. replace (S n) with (n + 1)%nat by lia. lra. }
  rewrite Ez, Rmult_0_r, Rplus_0_r. reflexivity.
Qed.
Lemma total_as_pieces n : F 1 - F (-1) = sum (n + 1) (fun i => F (X (theta n i)) - F (X (theta n (S i)))).
Proof.
  assert (H : forall k, sum k (fun i => F (X (theta n i)) - F (X (theta n (S i)))) = F (X (theta n 0)) - F (X (theta n k))).
  { induction k as [|k IH]; cbn [sum]; [ring|]. rewrite IH. ring. }
  rewrite H. pose proof (den_pos n). unfold theta. cbn [INR]. replace (0 * PI / INR (n + 1)) with 0 by (unfold Rdiv; ring).
  replace (INR (n + 1) * PI / INR (n + 1)) with PI by (field; lra). rewrite X_0, X_PI. reflexivity.
Qed.
Lemma rule_error n eps delta : (forall x y, 0 <= x <= PI -> 0 <= y <= PI -> Rabs (x - y) < delta -> Rabs (g x - g y) < eps) ->
  PI / INR (n + 1) < delta -> Rabs (rule n (fst (chebyshev n)) (snd (chebyshev n)) f - (F 1 - F (-1))) <= PI * eps.
Proof.
  intros Hu Hd. pose proof (den_pos n) as Hn. pose proof PI_RGT_0 as Hp.
  rewrite rule_as_g, (total_as_pieces n), <- sum_minus.
  assert (H : forall k, (k <= n + 1)%nat -> Rabs (sum k (fun i => PI / INR (n + 1) * g (theta n (S i)) - (F (X (theta n i)) - F (X (theta n (S i)))))) <= INR k * (PI / INR (n + 1) * eps)).
  { induction k as [|k IH]; intros Hk; [cbn [sum INR]; rewrite Rabs_R0; lra|].
    cbn [sum]. eapply Rle_trans; [apply Rabs_triang|]. rewrite S_INR. specialize (IH ltac:(lia)).
    assert (T0 : 0 <= theta n k) by (unfold theta; apply Rmult_le_pos; [apply Rmult_le_pos; [apply pos_INR|lra]|left; apply Rinv_0_lt_compat; lra]).
    assert (T1 : theta n (S k) <= PI).
    { unfold theta. apply Rmult_le_reg_r with (INR (n + 1)); [lra|]. unfold Rdiv. rewrite Rmult_assoc, Rinv_l by lra.
      assert (INR (S k) <= INR (n + 1)) by (apply le_INR; lia). nra. }
    assert (Ts : theta n (S k) - theta n k = PI / INR (n + 1)) by (unfold theta; rewrite S_INR; field; lra).
    assert (Hh : 0 < PI / INR (n + 1)) by (apply Rdiv_lt_0_compat; lra).
    destruct (piece (theta n k) (theta n (S k)) T0 ltac:(lra) T1) as (c & Hcc & E). rewrite E, Ts.
    replace (PI / INR (n + 1) * g (theta n (S k)) - PI / INR (n + 1) * g c) with (PI / INR (n + 1) * (g (theta n (S k)) - g c)) by ring.
    rewrite Rabs_mult, (Rabs_right (PI / INR (n + 1))) by lra.
    assert (Rabs (g (theta n (S k)) - g c) < eps).
    { apply Hu; [lra|lra|]. rewrite Rabs_right; lra. }
    assert (PI / INR (n + 1) * Rabs (g (theta n (S k)) - g c) <= PI / INR (n + 1) * eps) by (apply Rmult_le_compat_l; lra).
    lra. }
  specialize (H (n + 1)%nat (le_n _)). replace (INR (n + 1) * (PI / INR (n + 1) * eps)) with (PI * eps) in H by (field; lra). exact H.
Qed.
Lemma converges eps : 0 < eps -> exists N, forall n, (N <= n)%nat -> Rabs (rule n (fst (chebyshev n)) (snd (chebyshev n)) f - (F 1 - F (-1))) < eps.
Proof.
  intros He. pose proof PI_RGT_0 as Hp. assert (He2 : 0 < eps / (2 * PI)) by (apply Rdiv_lt_0_compat; lra).
  destruct (@Heine_cor2 g 0 PI g_cont (mkposreal _ He2)) as (delta & Hu). cbn [pos] in Hu.
  destruct (big (PI / delta)) as (N & HN). exists N. intros n Hn.
  assert (Hd := cond_pos delta). assert (HnR : INR N <= INR n) by (apply le_INR; exact Hn).
  apply Rle_lt_trans with (PI * (eps / (2 * PI))).
  - apply (rule_error n _ delta Hu). rewrite plus_INR. cbn [INR].
    assert (0 < PI / delta) by (apply Rdiv_lt_0_compat; assumption).
    apply Rmult_lt_reg_r with (INR n + 1); [lra|]. unfold Rdiv. rewrite Rmult_assoc, Rinv_l by lra.
    assert (PI / delta * delta = PI) by (field; lra). assert (PI / delta * delta < (INR n + 1) * delta) by (apply Rmult_lt_compat_r; lra). lra.
  - replace (PI * (eps / (2 * PI))) with (eps / 2) by (field; lra). lra.
Qed.
End Converges.

Lemma one_point : rule 1 (fst (chebyshev 1)) (snd (chebyshev 1)) (fun _ => 1) = 8 / 3.
Proof. rewrite <- weights_one. unfold rule. apply sum_ext. intros. ring. Qed.
Lemma eight_thirds : 8 / 3 <> 2.
Proof. lra. Qed.
Lemma radial_one : fst (radial_chebyshev 1) 0%nat = 1.
Proof.
  destruct (rad_at 1 0) as [-> _]. destruct (cheb_sym 1 0 ltac:(lia)) as [E _]. cbn [Nat.sub] in E.
  replace (fst (chebyshev 1) 0%nat) with 0 by lra. unfold rad_of. replace (2 / (1 - 0)) with 2 by field. field. pose proof ln2_pos. lra.
Qed.
