(** Proofs: what the Gauss-Lobatto rule integrates exactly. *)
Require Import Reals List Arith Bool ZArith Lia Lra.
Require Import Verif.Prelude Verif.FEModel Verif.ShapeModel Verif.ShapeSpec Verif.ShapePoly Verif.ShapeLeg Verif.ShapeOrth.
Require Import Verif.QuadModel Verif.QuadSpec Verif.RadModel Verif.RadSpec Verif.RadExact.
Require Import Verif.LbModel Verif.LbSpec Verif.LbProofs.
Import ListNotations.
Open Scope R_scope.

(** * The Christoffel-Darboux formulas *)
Lemma cd m x y : (x - y) * sum (S m) (fun j => (2 * INR j + 1) * (leg j x * leg j y)) =
  INR (S m) * (leg (S m) x * leg m y - leg m x * leg (S m) y).
Proof.
  induction m as [|m IH].
  - cbn [sum]. rewrite !leg0, !leg1. cbn [INR]. ring.
  - change (sum (S (S m)) ?f) with (sum (S m) f + f (S m)). rewrite Rmult_plus_distr_l, IH.
    rewrite !(leg_rec m). rewrite (S_INR (S m)). field. apply INRS.
Qed.
Lemma cd_same m x : sum (S m) (fun j => (2 * INR j + 1) * (leg j x * leg j x)) =
  INR (S m) * (dleg (S m) x * leg m x - dleg m x * leg (S m) x).
Proof.
  induction m as [|m IH].
  - cbn [sum]. unfold dleg, leg. cbn. ring.
  - change (sum (S (S m)) ?f) with (sum (S m) f + f (S m)). rewrite IH.
    rewrite !(leg_rec m), !(dleg_rec m), (S_INR (S m)). field. apply INRS.
Qed.

Section Rule.
Variables (M : nat) (x w : vec).
Let N := S M.
(** The Newton step does not move the nodes. *)
Hypothesis fixed : forall i, (i <= N)%nat -> x i * leg N (x i) = leg M (x i).
Hypothesis nz : forall i, (i <= N)%nat -> leg N (x i) <> 0.
Hypothesis weight : forall i, (i <= N)%nat -> w i = 2 / (INR N * INR (S N) * leg N (x i) * leg N (x i)).
Hypothesis dist : forall i j, (i <= N)%nat -> (j <= N)%nat -> x i = x j -> i = j.

Definition cc (j : nat) : R := if (j =? S M)%nat then INR (S M) / 2 else (2 * INR j + 1) / 2.
Lemma cc_nz j : cc j <> 0.
Proof.
  unfold cc. destruct (Nat.eqb j (S M)).
  - assert (0 < INR (S M)) by (apply lt_0_INR; lia). lra.
  - pose proof (pos_INR j). lra.
Qed.
Lemma NM : N = S M. Proof. reflexivity. Qed.
Lemma N_pos : 0 < INR N. Proof. apply lt_0_INR. unfold N. lia. Qed.
Lemma w_nz i : (i <= N)%nat -> w i <> 0.
Proof.
  intros Hi. rewrite weight by exact Hi. pose proof N_pos. pose proof (nz i Hi). rewrite S_INR.
  apply Rmult_integral_contrapositive_currified; [lra|]. apply Rinv_neq_0_compat.
  repeat apply Rmult_integral_contrapositive_currified; try assumption; lra.
Qed.

Lemma kernel_sum i k : sum (S N) (fun j => cc j * (leg j (x i) * leg j (x k))) =
  / 2 * (sum N (fun j => (2 * INR j + 1) * (leg j (x i) * leg j (x k))) + INR N * (leg N (x i) * leg N (x k))).
Proof.
  cbn [sum]. unfold cc at 2. fold N. rewrite Nat.eqb_refl. rewrite Rmult_plus_distr_l. f_equal; [|field].
  rewrite <- sum_scal. apply sum_ext. intros j Hj. unfold cc. fold N. destruct (Nat.eqb_spec j N); [lia|]. field.
Qed.
Lemma kernel i k : (i <= N)%nat -> (k <= N)%nat ->
  sum (S N) (fun j => cc j * (leg j (x i) * leg j (x k))) = if (i =? k)%nat then / w i else 0.
Proof.
  intros Hi Hk. rewrite kernel_sum. destruct (Nat.eqb_spec i k) as [->|Hik].
  - rewrite NM, cd_same. fold N. rewrite <- (fixed k Hk). destruct (leg_AB M (x k)) as [_ B].
    replace (dleg N (x k) * (x k * leg N (x k)) - dleg M (x k) * leg N (x k))
      with (leg N (x k) * (x k * dleg N (x k) - dleg M (x k))) by ring.
    fold N in B. rewrite B. rewrite (weight k Hk), (S_INR N). pose proof N_pos. pose proof (nz k Hk).
    field. repeat split; try assumption; lra.
  - assert (D : x i - x k <> 0) by (intros E; apply Hik; apply dist; try assumption; lra).
    replace (sum N (fun j => (2 * INR j + 1) * (leg j (x i) * leg j (x k)))) with (- (INR N * (leg N (x i) * leg N (x k)))); [ring|].
    apply (Rmult_eq_reg_l (x i - x k)); [|exact D]. pose proof (cd M (x i) (x k)) as C. fold N in C. rewrite C.
    rewrite <- (fixed i Hi), <- (fixed k Hk). ring.
Qed.

(** Legendre polynomials are independent. *)
Lemma leg_free n (a : vec) : (forall t, sum n (fun j => a j * leg j t) = 0) -> forall k, (k < n)%nat -> a k = 0.
Proof.
  intros H k Hk.
  assert (I : integral (fun t => sum n (fun j => a j * (leg k t * leg j t))) (-1) 1 (sum n (fun j => a j * (if (k =? j)%nat then 2 / (2 * INR k + 1) else 0)))).
  { apply (integral_sum n (fun j t => a j * (leg k t * leg j t))). intros j Hj. apply (integral_scal (fun t => leg k t * leg j t)).
    destruct (Nat.eqb_spec k j) as [<-|E]; [apply leg_norm | apply leg_orth; exact E]. }
  assert (Z : integral (fun t => sum n (fun j => a j * (leg k t * leg j t))) (-1) 1 0).
  { exists (fun _ => 0). split; [|ring]. intros t.
    replace (sum n (fun j => a j * (leg k t * leg j t))) with 0; [apply derivable_pt_lim_const|].
    rewrite (sum_ext n _ (fun j => leg k t * (a j * leg j t))) by (intros; ring). rewrite sum_scal, H. ring. }
  pose proof (integral_unique _ _ _ _ _ I Z) as E.
  rewrite (sum_single n k) in E; [|exact Hk | intros j _ Hj; destruct (Nat.eqb_spec k j); [congruence | ring]].
  rewrite Nat.eqb_refl in E. apply (Rmult_eq_reg_r (2 / (2 * INR k + 1))); [lra|].
  pose proof (pos_INR k). apply Rmult_integral_contrapositive_currified; [lra | apply Rinv_neq_0_compat; lra].
Qed.
(** A polynomial with N+1 coefficients that vanishes at the nodes vanishes. *)
Lemma nodes_cnt n b : (n <= S N)%nat -> (cnt b (map x (seq 0 n)) <= 1)%nat /\
  ((0 < cnt b (map x (seq 0 n)))%nat -> exists i, (i < n)%nat /\ x i = b).
Proof.
  assert (App : forall l a, cnt b (l ++ [a]) = (cnt b l + if Req_EM_T a b then 1 else 0)%nat).
  { induction l as [|c l IH]; intros a; cbn [cnt app]; [destruct (Req_EM_T a b); reflexivity|].
    rewrite IH. destruct (Req_EM_T c b); lia. }
  induction n as [|n IH]; intros Hn; [cbn; split; [lia | intros; lia]|].
  destruct (IH ltac:(lia)) as [A B]. rewrite seq_S, map_app. cbn [map plus]. rewrite App.
  destruct (Req_EM_T (x n) b) as [E|E].
  - assert (Z : cnt b (map x (seq 0 n)) = 0%nat).
    { destruct (cnt b (map x (seq 0 n))) eqn:C; [reflexivity|]. destruct (B ltac:(lia)) as (i & Hi & Ei).
      assert (i = n) by (apply dist; [lia | lia | congruence]). lia. }
    rewrite Z. split; [lia|]. intros _. exists n. split; [lia | exact E].
  - split; [lia|]. intros C. destruct (B ltac:(lia)) as (i & Hi & Ei). exists i. split; [lia | exact Ei].
Qed.
Lemma poly_nodes f : isPoly (S N) f -> (forall i, (i <= N)%nat -> f (x i) = 0) -> forall t, f t = 0.
Proof.
  intros (l & Hl & E) H t. rewrite E. apply (no_roots (map x (seq 0 (S N)))).
  - rewrite map_length, seq_length. exact Hl.
  - intros b k Hk. destruct (nodes_cnt (S N) b ltac:(lia)) as [A B].
    assert (k = 0%nat) as -> by lia. destruct (B ltac:(lia)) as (i & Hi & <-). cbn [pderk]. rewrite <- E. apply H. lia.
Qed.

(** The discrete orthogonality. *)
Lemma discrete j k : (j <= N)%nat -> (k <= N)%nat ->
  sum (S N) (fun i => w i * (leg j (x i) * leg k (x i))) = if (j =? k)%nat then / cc j else 0.
Proof.
  intros Hj Hk.
  set (B := fun j => cc j * sum (S N) (fun i => w i * (leg j (x i) * leg k (x i)))).
  set (a := fun j => B j - (if (j =? k)%nat then 1 else 0)).
  assert (Zr : forall t, sum (S N) (fun j => a j * leg j t) = 0).
  { apply (poly_nodes (fun t => sum (S N) (fun j => a j * leg j t))).
    - apply (isPoly_sum (S N) (S N) (fun j t => a j * leg j t)). intros l Hl. apply (isPoly_scal _ _ (leg l)).
      apply (isPoly_le (S l)); [lia | apply leg_poly].
    - intros r Hr.
      rewrite (sum_ext (S N) _ (fun l => sum (S N) (fun i => cc l * (leg l (x r) * leg l (x i)) * (w i * leg k (x i)))
                                         - (if (l =? k)%nat then leg l (x r) else 0))).
      2:{ intros l Hl. unfold a, B. rewrite Rmult_minus_distr_r. f_equal.
          - rewrite <- sum_scal, <- sum_scal_r. apply sum_ext. intros i _. ring.
          - destruct (Nat.eqb l k); ring. }
      rewrite sum_minus, sum_swap.
      rewrite (sum_ext (S N) _ (fun i => (if (r =? i)%nat then / w r else 0) * (w i * leg k (x i)))).
      2:{ intros i Hi. rewrite sum_scal_r. f_equal. apply kernel; lia. }
      rewrite (sum_single (S N) r); [|lia | intros i _ Hi; destruct (Nat.eqb_spec r i); [congruence | ring]].
      rewrite (sum_single (S N) k); [|lia | intros i _ Hi; destruct (Nat.eqb_spec i k); [congruence | ring]].
      rewrite !Nat.eqb_refl. pose proof (w_nz r Hr). field. assumption. }
  pose proof (leg_free (S N) a Zr j ltac:(lia)) as E. unfold a, B in E. pose proof (cc_nz j) as C.
  apply (Rmult_eq_reg_l (cc j)); [|exact C]. destruct (Nat.eqb j k); [rewrite Rinv_r by exact C|]; lra.
Qed.

(** Products of degree at most 2N-1. *)
Lemma product_exact f g v : lspan (S N) f -> lspan N g -> integral (fun t => f t * g t) (-1) 1 v ->
  sum (S N) (fun i => w i * (f (x i) * g (x i))) = v.
Proof.
  intros (a & Ef) (b & Eg) I.
  assert (D : forall j k, (j < S N)%nat -> (k < N)%nat ->
     sum (S N) (fun i => w i * (leg j (x i) * leg k (x i))) = if (j =? k)%nat then 2 / (2 * INR j + 1) else 0).
  { intros j k Hj Hk. rewrite discrete by lia. destruct (Nat.eqb_spec j k) as [<-|]; [|reflexivity].
    unfold cc. fold N. destruct (Nat.eqb_spec j N); [lia|]. pose proof (pos_INR j). field. lra. }
  assert (J : integral (fun t => f t * g t) (-1) 1 (sum (S N) (fun j => sum N (fun k => a j * b k * (if (j =? k)%nat then 2 / (2 * INR j + 1) else 0))))).
  { apply (integral_ext (fun t => sum (S N) (fun j => sum N (fun k => a j * b k * (leg j t * leg k t))))).
    - intros t. rewrite Ef, Eg. rewrite <- sum_scal_r. apply sum_ext. intros j _. rewrite <- sum_scal. apply sum_ext. intros k _. ring.
    - apply (integral_sum (S N) (fun j t => sum N (fun k => a j * b k * (leg j t * leg k t)))). intros j Hj.
      apply (integral_sum N (fun k t => a j * b k * (leg j t * leg k t))). intros k Hk.
      apply (integral_scal (fun t => leg j t * leg k t)).
      destruct (Nat.eqb_spec j k) as [<-|E]; [apply leg_norm | apply leg_orth; exact E]. }
  rewrite <- (integral_unique _ _ _ _ _ J I).
  rewrite (sum_ext (S N) _ (fun i => sum (S N) (fun j => sum N (fun k => a j * b k * (w i * (leg j (x i) * leg k (x i))))))).
  2:{ intros i _. rewrite Ef, Eg. rewrite <- sum_scal_r, <- sum_scal. apply sum_ext. intros j _.
      rewrite <- sum_scal, <- sum_scal. apply sum_ext. intros k _. ring. }
  rewrite sum_swap. apply sum_ext. intros j Hj. rewrite sum_swap. apply sum_ext. intros k Hk.
  rewrite sum_scal. rewrite D by assumption. reflexivity.
Qed.

Lemma peval_app p q t : peval (p ++ q) t = peval p t + t ^ (length p) * peval q t.
Proof. induction p as [|a p IH]; cbn [app peval length pow]; [ring | rewrite IH; ring]. Qed.
Lemma lspan_pow n : lspan (S n) (fun t => t ^ n).
Proof.
  induction n as [|n IH].
  - apply (lspan_ext 1 (leg 0)); [intros; reflexivity | apply lspan_leg; lia].
  - apply (lspan_ext (S (S n)) (fun t => t * t ^ n)); [intros; reflexivity|]. apply lspan_x. exact IH.
Qed.
Lemma poly_exact c v : (length c <= 2 * N)%nat -> integral (peval c) (-1) 1 v ->
  sum (S N) (fun i => w i * peval c (x i)) = v.
Proof.
  intros Hc I.
  set (p := firstn N c). set (q := skipn N c).
  assert (Lp : (length p <= N)%nat) by (unfold p; rewrite firstn_length; lia).
  assert (Lq : (length q <= N)%nat) by (unfold q; rewrite skipn_length; lia).
  assert (E : forall t, peval c t = leg 0 t * peval p t + t ^ (length p) * peval q t).
  { intros t. unfold p, q. rewrite <- (firstn_skipn N c) at 1. rewrite peval_app, leg0. ring. }
  assert (Hs1 : lspan (S N) (leg 0)) by (apply lspan_leg; lia).
  assert (Hs2 : lspan N (peval p)) by (apply (lspan_le (length p)); [exact Lp | apply lspan_poly]).
  assert (Hs3 : lspan (S N) (fun t => t ^ (length p))) by (apply (lspan_le (S (length p))); [lia | apply lspan_pow]).
  assert (Hs4 : lspan N (peval q)) by (apply (lspan_le (length q)); [exact Lq | apply lspan_poly]).
  destruct (peval_integral (pmul [1] p) (-1) 1) as (v1 & I1).
  destruct (peval_integral (pmul (repeat 0 (length p) ++ [1]) q) (-1) 1) as (v2 & I2).
  assert (I1' : integral (fun t => leg 0 t * peval p t) (-1) 1 v1).
  { apply (integral_ext (peval (pmul [1] p))); [|exact I1]. intros t. rewrite peval_pmul, leg0. cbn [peval]. ring. }
  assert (I2' : integral (fun t => t ^ (length p) * peval q t) (-1) 1 v2).
  { apply (integral_ext (peval (pmul (repeat 0 (length p) ++ [1]) q))); [|exact I2]. intros t. rewrite peval_pmul.
    rewrite peval_app, repeat_length. replace (peval (repeat 0 (length p)) t) with 0.
    - cbn [peval]. ring.
    - generalize (length p). intros m. induction m as [|m IH]; cbn [repeat peval]; [reflexivity | rewrite <- IH; ring]. }
  assert (Iv : v = v1 + v2).
  { apply (integral_unique (peval c) (-1) 1); [exact I|].
    apply (integral_ext (fun t => leg 0 t * peval p t + t ^ (length p) * peval q t)); [intros; symmetry; apply E|].
    apply integral_add; assumption. }
  rewrite (sum_ext (S N) _ (fun i => w i * (leg 0 (x i) * peval p (x i)) + w i * (x i ^ (length p) * peval q (x i)))).
  2:{ intros i _. rewrite E. ring. }
  rewrite sum_plus. rewrite (product_exact (leg 0) (peval p) v1 Hs1 Hs2 I1').
  rewrite (product_exact (fun t => t ^ (length p)) (peval q) v2 Hs3 Hs4 I2'). symmetry. exact Iv.
Qed.
End Rule.

(** * The rule that the code returns *)
Lemma fixed_leg n y : (2 <= n)%nat -> lb_newton n y = Ok y -> leg (n - 1) y <> 0 /\ y * leg (n - 1) y = leg (n - 2) y.
Proof.
  intros Hn H. destruct (newton_value n y y Hn H) as [Nz E]. split; [exact Nz|].
  assert (I : INR n <> 0) by (apply not_0_INR; lia).
  assert (Z : (y * leg (n - 1) y - leg (n - 2) y) / (INR n * leg (n - 1) y) = 0) by lra.
  assert (Z' : y * leg (n - 1) y - leg (n - 2) y = 0); [|lra].
  apply (Rmult_eq_reg_r (/ (INR n * leg (n - 1) y))).
  - rewrite Rmult_0_l. exact Z.
  - apply Rinv_neq_0_compat. apply Rmult_integral_contrapositive_currified; assumption.
Qed.
Lemma leg_C' n y : (1 <= n)%nat -> (y * y - 1) * dleg n y = INR n * (y * leg n y - leg (n - 1) y).
Proof.
  intros H. rewrite leg_C. destruct n as [|k]; [lia|]. replace (S k - 1)%nat with k by lia. reflexivity.
Qed.

(** The residual of the nodes before the last step. *)
Theorem compute_residual tol fuel n x w : lobatto_compute tol fuel n = Ok (x, w) ->
  exists y, length y = Z.to_nat n /\ forall i, (i < Z.to_nat n)%nat ->
    at_ x i = at_ y i + (1 - at_ y i * at_ y i) * dleg (Z.to_nat n - 1) (at_ y i) / (IZR n * (IZR n - 1) * leg (Z.to_nat n - 1) (at_ y i)) /\
    Rabs (at_ x i - at_ y i) <= tol /\
    Rabs ((1 - at_ y i * at_ y i) * dleg (Z.to_nat n - 1) (at_ y i))
      <= tol * IZR n * (IZR n - 1) * Rabs (leg (Z.to_nat n - 1) (at_ y i)).
Proof.
  intros H. destruct (compute_inv _ _ _ _ _ H) as (m & y & z & -> & Hm & -> & Sy & Sz & Hs & Hc & _).
  rewrite Nat2Z.id, <- INR_IZR_INZ. destruct Sy as (Ly & _). destruct Sz as (Lz & _).
  assert (G : forall i, (i < m)%nat ->
    at_ z i = at_ y i + (1 - at_ y i * at_ y i) * dleg (m - 1) (at_ y i) / (INR m * (INR m - 1) * leg (m - 1) (at_ y i)) /\ Rabs (at_ z i - at_ y i) <= tol /\
    Rabs ((1 - at_ y i * at_ y i) * dleg (m - 1) (at_ y i)) <= tol * INR m * (INR m - 1) * Rabs (leg (m - 1) (at_ y i))).
  { intros i Hi. assert (C : Rabs (at_ z i - at_ y i) <= tol).
    { destruct (change_le z y 0) as [A _]. specialize (A i ltac:(lia) ltac:(lia)). lra. }
    pose proof (all_at _ _ _ i Hs ltac:(lia)) as St. destruct (newton_value m _ _ Hm St) as [Nz E].
    assert (Im : INR (m - 1) = INR m - 1) by (rewrite minus_INR by lia; cbn; ring).
    assert (Ip : 0 < INR m) by (apply lt_0_INR; lia).
    assert (Ip1 : 0 <= INR m - 1) by (rewrite <- Im; apply pos_INR).
    pose proof (leg_C' (m - 1) (at_ y i) ltac:(lia)) as L. replace (m - 1 - 1)%nat with (m - 2)%nat in L by lia.
    assert (Ip2 : 0 < INR m - 1) by (rewrite <- Im; apply lt_0_INR; lia).
    split.
    { replace ((1 - at_ y i * at_ y i) * dleg (m - 1) (at_ y i)) with (- (INR (m - 1) * (at_ y i * leg (m - 1) (at_ y i) - leg (m - 2) (at_ y i))))
        by (rewrite <- L; ring).
      rewrite E, Im. field. repeat split; try exact Nz; lra. }
    split; [exact C|].
    replace ((1 - at_ y i * at_ y i) * dleg (m - 1) (at_ y i)) with ((at_ z i - at_ y i) * (INR m * (INR m - 1) * leg (m - 1) (at_ y i))).
    - rewrite Rabs_mult, !Rabs_mult, (Rabs_right (INR m)) by lra. rewrite (Rabs_right (INR m - 1)) by lra.
      replace (tol * INR m * (INR m - 1) * Rabs (leg (m - 1) (at_ y i)))
        with (tol * (INR m * (INR m - 1) * Rabs (leg (m - 1) (at_ y i)))) by ring.
      apply Rmult_le_compat_r; [|exact C]. apply Rmult_le_pos; [|apply Rabs_pos]. apply Rmult_le_pos; lra.
    - transitivity (- (INR (m - 1) * (at_ y i * leg (m - 1) (at_ y i) - leg (m - 2) (at_ y i)))); [|rewrite <- L; ring].
      rewrite E, Im. field. split; [exact Nz | lra]. }
  exists (rev y). split; [rewrite rev_length; exact Ly|]. intros i Hi.
  rewrite !rev_at by lia. rewrite Ly, Lz. apply G. lia.
Qed.

Section Converged.
Variables (fuel : nat) (n : Z) (x w : list R).
Hypothesis done : lobatto_compute 0 fuel n = Ok (x, w).

Lemma converged_facts : exists m, n = Z.of_nat (S (S m)) /\ length x = S (S m) /\ length w = S (S m) /\
  forall i, (i < S (S m))%nat -> leg (S m) (at_ x i) <> 0 /\ at_ x i * leg (S m) (at_ x i) = leg m (at_ x i) /\
    at_ w i = 2 / (INR (S m) * INR (S (S m)) * leg (S m) (at_ x i) * leg (S m) (at_ x i)).
Proof.
  destruct (compute_inv _ _ _ _ _ done) as (m' & y & z & En & Hm & -> & (Ly & _) & (Lz & _) & Hs & Hc & Hw).
  destruct m' as [|[|m]]; [lia | lia |]. assert (z = y) as -> by (apply change_zero; [lia | exact Hc]).
  exists m. assert (Lr : length (rev y) = S (S m)) by (rewrite rev_length; lia).
  repeat split; try assumption; try (rewrite (all_len _ _ _ Hw); exact Lr).
  - rewrite rev_at by lia. pose proof (all_at _ _ _ (length y - 1 - i) Hs ltac:(lia)) as F.
    destruct (fixed_leg _ _ Hm F) as [A _]. exact A.
  - rewrite rev_at by lia. pose proof (all_at _ _ _ (length y - 1 - i) Hs ltac:(lia)) as F.
    destruct (fixed_leg _ _ Hm F) as [_ A]. cbn [Nat.sub] in A. rewrite Nat.sub_0_r in A. exact A.
  - pose proof (all_at _ _ _ i Hw ltac:(lia)) as F. destruct (weight_value _ _ _ Hm F) as [_ A]. cbn [Nat.sub] in A.
    rewrite A. rewrite (S_INR (S m)). f_equal. ring.
Qed.
Lemma converged_stationary i : (i < length x)%nat -> stationary (length x) (at_ x i).
Proof.
  destruct converged_facts as (m & En & Lx & Lw & F). rewrite Lx. intros Hi. destruct (F i Hi) as (A & B & _).
  unfold stationary. cbn [Nat.sub]. pose proof (leg_C' (S m) (at_ x i) ltac:(lia)) as L. cbn [Nat.sub] in L. rewrite Nat.sub_0_r in L.
  rewrite B in L. lra.
Qed.
Hypothesis distinct : distinct_nodes x.
Lemma nodup_at i j : (i < length x)%nat -> (j < length x)%nat -> at_ x i = at_ x j -> i = j.
Proof. intros Hi Hj E. apply (proj1 (NoDup_nth x 0) distinct); assumption. Qed.
Theorem converged_exact : integrates (2 * Z.to_nat n - 2) x w.
Proof.
  destruct converged_facts as (m & En & Lx & Lw & F). intros c v Hc I. unfold rule. rewrite Lx.
  apply (poly_exact m (at_ x) (at_ w)).
  - intros i Hi. apply F. lia.
  - intros i Hi. apply F. lia.
  - intros i Hi. apply F. lia.
  - intros i j Hi Hj E. apply nodup_at; [lia | lia | exact E].
  - rewrite En, Nat2Z.id in Hc. lia.
  - exact I.
Qed.
(** One degree more is too much: the square of P_{n-1}. *)
Theorem converged_sharp : rule x w (fun t => leg (Z.to_nat n - 1) t * leg (Z.to_nat n - 1) t) = 2 / (IZR n - 1) /\
  integral (fun t => leg (Z.to_nat n - 1) t * leg (Z.to_nat n - 1) t) (-1) 1 (2 / (2 * IZR n - 1)).
Proof.
  destruct converged_facts as (m & En & Lx & Lw & F). rewrite En, Nat2Z.id, <- INR_IZR_INZ.
  replace (S (S m) - 1)%nat with (S m) by lia. split.
  - unfold rule. rewrite Lx. rewrite (discrete m (at_ x) (at_ w)).
    + rewrite Nat.eqb_refl. unfold cc. rewrite Nat.eqb_refl, (S_INR (S m)).
      assert (0 < INR (S m)) by (apply lt_0_INR; lia). field. lra.
    + intros i Hi. apply F. lia.
    + intros i Hi. apply F. lia.
    + intros i Hi. apply F. lia.
    + intros i j Hi Hj E. apply nodup_at; [lia | lia | exact E].
    + lia.
    + lia.
  - replace (2 / (2 * INR (S (S m)) - 1)) with (2 / (2 * INR (S m) + 1)); [apply leg_norm|].
    f_equal. rewrite (S_INR (S m)). ring.
Qed.
End Converged.

(** The rules that the radial matrices ask for. *)
Theorem compute_lobatto_exact (X W : nat -> list R) (fuel : nat -> nat) :
  (forall n, (2 <= n)%nat -> lobatto_compute 0 (fuel n) (Z.of_nat n) = Ok (X n, W n) /\ distinct_nodes (X n)) ->
  lobatto_exact (fun n => at_ (X n)) (fun n => at_ (W n)).
Proof.
  intros H n c v Hn Hc I. destruct (H n Hn) as [A B].
  pose proof (converged_exact _ _ _ _ A B) as E. rewrite Nat2Z.id in E. specialize (E c v Hc I). unfold rule in E.
  destruct (compute_shape _ _ _ _ _ A) as (L & _). rewrite Nat2Z.id in L. rewrite L in E. exact E.
Qed.

(** * Two and three points *)
Lemma compute_2 tol k : 0 <= tol -> lobatto_compute tol (S k) 2 = Ok ([-1; 1], [1; 1]).
Proof.
  intros Ht. unfold lobatto_compute. change (2 <? 2)%Z with false. cbv iota. change (Z.to_nat 2) with 2%nat. cbv zeta.
  change (map (lb_guess 2) (seq 0 2)) with [lb_guess 2 0%nat; lb_guess 2 1%nat].
  replace (lb_guess 2 0%nat) with 1 by (unfold lb_guess; cbn [INR Nat.sub]; replace (PI * 0 / 1) with 0 by field; rewrite cos_0; reflexivity).
  replace (lb_guess 2 1%nat) with (-1) by (unfold lb_guess; cbn [INR Nat.sub]; replace (PI * 1 / 1) with PI by field; rewrite cos_PI; reflexivity).
  cbn [lb_loop lb_all]. rewrite newton_1 by lia. cbn [bind].
  replace (-1) with (- (1)) by ring. rewrite (newton_opp 2 1 1) by (try lia; apply newton_1; lia). cbn [bind].
  rewrite change_same. destruct (Rleb_spec 0 tol) as [_|N]; [|lra]. cbn [bind rev app lb_all].
  rewrite !weight_make by (try lia; cbn [Nat.sub]; rewrite leg1; lra). cbn [bind Nat.sub]. rewrite !leg1. cbn [INR].
  repeat f_equal; field.
Qed.
Lemma compute_3 tol k : 0 <= tol -> lobatto_compute tol (S k) 3 = Ok ([-1; 0; 1], [1 / 3; 4 / 3; 1 / 3]).
Proof.
  intros Ht. unfold lobatto_compute. change (3 <? 2)%Z with false. cbv iota. change (Z.to_nat 3) with 3%nat. cbv zeta.
  change (map (lb_guess 3) (seq 0 3)) with [lb_guess 3 0%nat; lb_guess 3 1%nat; lb_guess 3 2%nat].
  replace (lb_guess 3 0%nat) with 1 by (unfold lb_guess; cbn [INR Nat.sub]; replace (PI * 0 / (1 + 1)) with 0 by field; rewrite cos_0; reflexivity).
  replace (lb_guess 3 1%nat) with 0 by (unfold lb_guess; cbn [INR Nat.sub]; replace (PI * 1 / (1 + 1)) with (PI / 2) by field; rewrite cos_PI2; reflexivity).
  replace (lb_guess 3 2%nat) with (-1) by (unfold lb_guess; cbn [INR Nat.sub]; replace (PI * (1 + 1) / (1 + 1)) with PI by field; rewrite cos_PI; reflexivity).
  assert (L2 : forall t, leg 2 t = (3 * t * t - 1) / 2) by (intros t; rewrite leg_rec, leg0, leg1; cbn [INR]; field).
  cbn [lb_loop lb_all]. rewrite newton_1 by lia. cbn [bind].
  rewrite (newton_make 3 0) by (try lia; cbn [Nat.sub]; rewrite L2; lra). cbn [bind Nat.sub].
  replace (0 - (0 * leg 2 0 - leg 1 0) / (INR 3 * leg 2 0)) with 0 by (rewrite leg1; unfold Rdiv; ring).
  replace (-1) with (- (1)) by ring. rewrite (newton_opp 3 1 1) by (try lia; apply newton_1; lia). cbn [bind].
  rewrite change_same. destruct (Rleb_spec 0 tol) as [_|N]; [|lra]. cbn [bind rev app lb_all].
  rewrite !weight_make by (try lia; cbn [Nat.sub]; rewrite L2; lra). cbn [bind Nat.sub]. rewrite !L2. cbn [INR].
  assert (E3 : forall a b c d : R, a = -1 -> b = 1 / 3 -> c = 4 / 3 -> d = 1 / 3 -> @Ok (list R * list R) ([a; 0; 1], [b; c; d]) = Ok ([-1; 0; 1], [1 / 3; 4 / 3; 1 / 3]))
    by (intros; subst; reflexivity).
  apply E3; field.
Qed.
