(** Proofs about the radial extents of Slater and Gaussian primitives. *)
Require Import Reals ZArith List Bool Arith Lia Lra.
Require Import Verif.Prelude Verif.NaoModel Verif.NaoSpec.
Import ListNotations.
Local Open Scope R_scope.

Lemma exp_INR n x : exp (INR n * x) = exp x ^ n.
Proof.
  induction n. { cbn [pow]. rewrite Rmult_0_l. apply exp_0. }
  rewrite S_INR, Rmult_plus_distr_r, exp_plus, IHn, Rmult_1_l. cbn [pow]. ring.
Qed.
Lemma exp_line x : 1 + x <= exp x.
Proof. apply exp_ineq1_le. Qed.
Lemma pow_le1 x m : 0 <= x <= 1 -> (1 <= m)%nat -> x ^ m <= x.
Proof.
  intros Hx Hm. destruct m; [lia|]. cbn [pow]. rewrite <- (Rmult_1_r x) at 3.
  apply Rmult_le_compat_l; [lra|]. clear Hm. induction m; cbn [pow]; [lra|].
  rewrite <- (Rmult_1_r 1). apply Rmult_le_compat; try lra. apply pow_le; lra.
Qed.
Lemma pow2_above x : exists k, x <= 2 ^ k.
Proof.
  assert (H : forall n, INR n <= 2 ^ n).
  { induction n; [cbn [INR pow]; lra|]. rewrite S_INR. cbn [pow].
    assert (1 <= 2 ^ n) by (apply pow_R1_Rle; lra). lra. }
  destruct (Rle_dec x 0). { exists 0%nat. cbn. lra. }
  exists (Z.to_nat (up x)). destruct (archimed x) as [A _].
  assert (0 <= up x)%Z. { apply le_IZR. lra. }
  eapply Rle_trans; [|apply H]. rewrite INR_IZR_INZ, Z2Nat.id by lia. lra.
Qed.
Lemma big_enough : 10 ^ 12 * (5 + 4 * 10 ^ 40) < 2 ^ 200.
Proof.
  rewrite !pow_IZR. rewrite <- mult_IZR, <- plus_IZR, <- mult_IZR. apply IZR_lt. reflexivity.
Qed.
Lemma big_enough' : 10 ^ 12 * 300 < 2 ^ 200.
Proof.
  rewrite !pow_IZR. rewrite <- mult_IZR. apply IZR_lt. reflexivity.
Qed.

Section Bell.
Variables (base : R -> R) (m : nat) (peak : R).
Hypotheses (Hm : (1 <= m)%nat) (Hpk : 0 < peak).
Hypothesis mono : forall y z, 1 <= y -> y <= z -> base z <= base y.
Hypothesis pos : forall y, 0 <= y -> 0 <= base y.
Hypothesis le1 : forall y, 0 <= y -> base y <= 1.
Hypothesis tail : forall y, 0 <= y -> base y <= 2 * exp (- (y / 2)).
Variable g : R -> R.
Hypothesis Hg : forall r, g r = base (r / peak) ^ m.
Variable tol : R.
Hypothesis Ht : 0 < tol.

Lemma ratio_pos r : 0 <= r -> 0 <= r / peak.
Proof. intros H. apply Rmult_le_pos; auto. left. now apply Rinv_0_lt_compat. Qed.
Lemma ratio_le r s : r <= s -> r / peak <= s / peak.
Proof. intros H. apply Rmult_le_compat_r; auto. left. now apply Rinv_0_lt_compat. Qed.
Lemma ratio_one : peak / peak = 1.
Proof. field. lra. Qed.
Lemma g_mono r s : peak <= r -> r <= s -> g s <= g r.
Proof.
  intros H1 H2. rewrite !Hg. apply pow_incr. split. { apply pos, ratio_pos. lra. }
  apply mono. { rewrite <- ratio_one. now apply ratio_le. } now apply ratio_le.
Qed.
Lemma g_le1 r : 0 <= r -> g r <= 1.
Proof.
  intros H. rewrite Hg. eapply Rle_trans; [apply pow_le1; auto; split; [apply pos|apply le1]; now apply ratio_pos|].
  apply le1. now apply ratio_pos.
Qed.
Let Y := 2 * ln (2 / tol).
Lemma g_small r : 0 <= r -> Y * peak <= r -> g r <= tol.
Proof.
  intros H0 H. rewrite Hg. eapply Rle_trans; [apply pow_le1; auto; split; [apply pos|apply le1]; now apply ratio_pos|].
  eapply Rle_trans; [apply tail; now apply ratio_pos|].
  assert (HY : Y <= r / peak). { apply Rmult_le_reg_r with peak; auto. unfold Rdiv. rewrite Rmult_assoc, Rinv_l by lra. lra. }
  assert (E : exp (- (r / peak / 2)) <= exp (- ln (2 / tol))).
  { unfold Y in HY. assert (- (r / peak / 2) <= - ln (2 / tol)) as [X|X] by lra; [left; now apply exp_increasing|right; now rewrite X]. }
  rewrite (exp_Ropp (ln (2 / tol))), exp_ln in E. 2:{ apply Rdiv_lt_0_compat; lra. }
  assert (E2 : 2 * / (2 / tol) = tol) by (field; lra). lra.
Qed.
Lemma grow_ok : forall fuel hi, 0 < hi -> Y * peak <= hi * 2 ^ fuel ->
  exists H, grow fuel g tol hi = Ok H /\ g H <= tol /\ hi <= H /\ (H = hi \/ H <= 2 * (Y * peak)).
Proof.
  induction fuel; intros hi Hhi HY; cbn [grow].
  - destruct (Rltb_spec tol (g hi)) as [L|L]. { exfalso. assert (g hi <= tol); [|lra]. apply g_small; [lra|]. cbn [pow] in HY. lra. }
    exists hi. repeat split; auto; lra.
  - destruct (Rltb_spec tol (g hi)) as [L|L]. 2:{ exists hi. repeat split; auto; lra. }
    assert (Hlow : hi < Y * peak). { apply Rnot_le_lt. intros C. assert (g hi <= tol) by (apply g_small; lra). lra. }
    destruct (IHfuel (hi * 2)) as (H & E & H1 & H2 & H3); [lra|cbn [pow] in HY; lra|].
    exists H. repeat split; auto; [lra|]. right. destruct H3; lra.
Qed.
Lemma bisect_ok width : forall n lo hi, peak <= lo -> lo < hi -> g hi <= tol -> (lo = peak \/ tol < g lo) ->
  hi - lo < width * 2 ^ n ->
  exists lo', peak <= lo' /\ lo' < bisect n g tol width lo hi /\ (lo' = peak \/ tol < g lo') /\
    g (bisect n g tol width lo hi) <= tol /\ bisect n g tol width lo hi - lo' < width /\ bisect n g tol width lo hi <= hi.
Proof.
  induction n; intros lo hi H1 H2 H3 H4 H5.
  - cbn [pow bisect] in *. exists lo. repeat split; auto; lra.
  - cbn [bisect]. set (mid := 1 / 2 * (lo + hi)). assert (M : lo < mid < hi) by (unfold mid; lra).
    assert (E1 : hi - mid = (hi - lo) / 2) by (unfold mid; field). assert (E2 : mid - lo = (hi - lo) / 2) by (unfold mid; field).
    clearbody mid. cbn [pow] in H5.
    destruct (Rltb_spec tol (g mid)) as [L|L].
    + destruct (Rltb_spec (hi - mid) width) as [W|W].
      * exists mid. repeat split; auto; lra.
      * apply IHn; auto; try lra.
    + destruct (Rltb_spec (mid - lo) width) as [W|W].
      * exists lo. repeat split; auto; lra.
      * destruct (IHn lo mid) as (lo' & A); auto; try lra. exists lo'. intuition lra.
Qed.

Lemma extent_ok h0 : peak < h0 -> h0 <= 201 * peak -> exp (- (10 ^ 40)) <= tol ->
  exists fuel0, forall fuel, (fuel0 <= fuel)%nat -> exists e, extent fuel g tol peak h0 = Ok e /\
    peak < e /\ g e <= tol /\ forall r, peak < r -> r + 1 / 10 ^ 12 * Rmax 1 peak <= e -> tol < g r.
Proof.
  intros Hh0 Hh Htol. destruct (pow2_above (Y * peak / h0)) as (k & Hk). exists k. intros fuel Hf.
  assert (HY : Y * peak <= h0 * 2 ^ fuel).
  { assert (2 ^ k <= 2 ^ fuel) by (apply Rle_pow; [lra|auto]).
    replace (Y * peak) with (h0 * (Y * peak / h0)) by (field; lra). apply Rmult_le_compat_l; lra. }
  destruct (grow_ok fuel h0 ltac:(lra) HY) as (H & EH & H1 & H2 & H3).
  unfold extent. rewrite EH. cbn [bind]. eexists; split; [reflexivity|].
  set (width := 1 / 10 ^ 12 * Rmax 1 peak).
  assert (W : H - peak < width * 2 ^ 200).
  { assert (W1 : peak / 10 ^ 12 <= width).
    { unfold width, Rdiv. rewrite Rmult_1_l, Rmult_comm. apply Rmult_le_compat_l; [|apply Rmax_r].
      left. apply Rinv_0_lt_compat. apply pow_lt. lra. }
    assert (T0 : 0 < 10 ^ 12) by (apply pow_lt; lra).
    assert (P2 : 0 < 2 ^ 200) by (apply pow_lt; lra).
    apply Rlt_le_trans with (peak / 10 ^ 12 * 2 ^ 200). 2:{ apply Rmult_le_compat_r; lra. }
    replace (peak / 10 ^ 12 * 2 ^ 200) with (2 ^ 200 * peak / 10 ^ 12) by (unfold Rdiv; ring).
    apply Rmult_lt_reg_r with (10 ^ 12); [exact T0|]. unfold Rdiv. rewrite Rmult_assoc, Rinv_l, Rmult_1_r by lra.
    assert (Q : forall c, 10 ^ 12 * c < 2 ^ 200 -> H - peak <= c * peak -> (H - peak) * 10 ^ 12 < 2 ^ 200 * peak).
    { intros c C1 C2. apply Rle_lt_trans with ((10 ^ 12 * c) * peak).
      - replace (10 ^ 12 * c * peak) with ((c * peak) * 10 ^ 12) by ring. apply Rmult_le_compat_r; lra.
      - apply Rmult_lt_compat_r; auto. }
    destruct H3 as [-> | H3].
    - apply (Q 300); [apply big_enough'|]. lra.
    - apply (Q (5 + 4 * 10 ^ 40)); [apply big_enough|].
      assert (L : ln (2 / tol) <= 1 + 10 ^ 40).
      { unfold Rdiv. rewrite ln_mult by (try apply Rinv_0_lt_compat; lra). rewrite ln_Rinv by lra.
        assert (ln 2 <= 1). { left. rewrite <- (ln_exp 1). apply ln_increasing; [lra|]. pose proof (exp_ineq1 1). lra. }
        assert (- (10 ^ 40) <= ln tol).
        { rewrite <- (ln_exp (- (10 ^ 40))). destruct Htol as [Q1|Q1]; [left; apply ln_increasing; [apply exp_pos|auto]|right; now rewrite Q1]. }
        lra. }
      assert (2 * (Y * peak) <= (4 + 4 * 10 ^ 40) * peak).
      { replace (2 * (Y * peak)) with ((4 * ln (2 / tol)) * peak) by (unfold Y; ring). apply Rmult_le_compat_r; lra. }
      replace ((5 + 4 * 10 ^ 40) * peak) with ((4 + 4 * 10 ^ 40) * peak + peak) by ring. lra. }
  destruct (bisect_ok width 200 peak H) as (lo' & A1 & A2 & A3 & A4 & A5 & _); auto; try lra.
  set (e := bisect 200 g tol width peak H) in *. clearbody e.
  split; [lra|]. split; [auto|]. intros r Hr1 Hr2. destruct A3 as [->|A3]; [lra|].
  eapply Rlt_le_trans; [exact A3|]. apply g_mono; lra.
Qed.
End Bell.

(* ------------------------------------------------------------------ *)
Lemma sto_le1 y : y * exp (1 - y) <= 1.
Proof.
  pose proof (exp_line (y - 1)). replace (1 - y) with (- (y - 1)) by ring. rewrite exp_Ropp.
  pose proof (exp_pos (y - 1)). apply Rmult_le_reg_r with (exp (y - 1)); auto. rewrite Rmult_assoc, Rinv_l by lra. lra.
Qed.
Lemma sto_mono y z : 1 <= y -> y <= z -> z * exp (1 - z) <= y * exp (1 - y).
Proof.
  intros H1 H2. pose proof (exp_line (z - y)).
  replace (1 - y) with ((z - y) + (1 - z)) by ring. rewrite exp_plus, <- Rmult_assoc. pose proof (exp_pos (1 - z)).
  apply Rmult_le_compat_r; [lra|]. apply Rle_trans with (y * (1 + (z - y))); [nra|]. apply Rmult_le_compat_l; lra.
Qed.
Lemma sto_tail y : y * exp (1 - y) <= 2 * exp (- (y / 2)).
Proof.
  pose proof (sto_le1 (y / 2)) as H. replace (1 - y) with ((1 - y / 2) + - (y / 2)) by field. rewrite exp_plus.
  pose proof (exp_pos (- (y / 2))). replace (y * (exp (1 - y / 2) * exp (- (y / 2)))) with (2 * (y / 2 * exp (1 - y / 2)) * exp (- (y / 2))) by field.
  apply Rmult_le_compat_r; lra.
Qed.
Lemma gto_base_le y : 0 <= y -> y * exp ((1 - y * y) / 2) <= y * exp (1 - y).
Proof.
  intros Hy. apply Rmult_le_compat_l; auto. assert ((1 - y * y) / 2 <= 1 - y) as [X|X] by (pose proof (Rle_0_sqr (1 - y)); unfold Rsqr in *; lra); [left; now apply exp_increasing|right; now rewrite X].
Qed.
Lemma gto_mono y z : 1 <= y -> y <= z -> z * exp ((1 - z * z) / 2) <= y * exp ((1 - y * y) / 2).
Proof.
  intros H1 H2. pose proof (exp_line ((z * z - y * y) / 2)).
  replace ((1 - y * y) / 2) with ((z * z - y * y) / 2 + (1 - z * z) / 2) by field. rewrite exp_plus, <- Rmult_assoc.
  pose proof (exp_pos ((1 - z * z) / 2)).
  apply Rmult_le_compat_r; [lra|]. apply Rle_trans with (y * (1 + (z * z - y * y) / 2)); [|apply Rmult_le_compat_l; lra].
  replace (z * z - y * y) with ((z - y) * (z + y)) by ring.
  assert ((z - y) * 1 <= (z - y) * ((z + y) / 2)) by (apply Rmult_le_compat_l; lra). nra.
Qed.

Section Prims.
Variable p : prim.
Section Sto.
Hypothesis Hv : valid_prim 1 p.
Let n := Z.to_nat (p_n p).
Lemma n_IZR : IZR (p_n p) = INR n.
Proof. destruct Hv as [H _]. unfold n. rewrite INR_IZR_INZ, Z2Nat.id by lia. reflexivity. Qed.
Lemma n_ge1 : (1 <= n)%nat.
Proof. destruct Hv as [H _]. unfold n. lia. Qed.
Lemma sto_peak_pos : 0 < sto_peak p.
Proof. destruct Hv as [H1 H2]. unfold sto_peak. apply Rdiv_lt_0_compat; auto. apply (IZR_lt 0). lia. Qed.
Lemma sto_g r : sto_over_peak p r = (r / sto_peak p * exp (1 - r / sto_peak p)) ^ n.
Proof.
  unfold sto_over_peak. fold n. rewrite Rpow_mult_distr, <- exp_INR. f_equal. f_equal. rewrite <- n_IZR. unfold sto_peak.
  destruct Hv as [H1 H2]. pose proof sto_peak_pos as Hp. field.
  split; [lra|]. apply not_0_IZR. lia.
Qed.
Lemma sto_shape_g r : slater_shape p r = sto_over_peak p r * slater_shape p (sto_peak p).
Proof.
  pose proof sto_peak_pos as Hp. unfold slater_shape, sto_over_peak. fold n.
  transitivity ((r / sto_peak p * sto_peak p) ^ n * (exp (IZR (p_n p) - p_exp p * r) * exp (- (p_exp p * sto_peak p)))).
  - rewrite <- exp_plus. f_equal; [f_equal; field; lra|]. f_equal. unfold sto_peak. field. destruct Hv; lra.
  - rewrite Rpow_mult_distr. ring.
Qed.
Lemma sto_shape_pos r : 0 < r -> 0 < slater_shape p r.
Proof. intros H. unfold slater_shape. apply Rmult_lt_0_compat; [now apply pow_lt|apply exp_pos]. Qed.
Lemma sto_start : 200 / p_exp p <= 200 * sto_peak p.
Proof.
  destruct Hv as [H1 H2]. unfold sto_peak. apply (IZR_le 1) in H1. replace (200 * (IZR (p_n p) / p_exp p)) with (200 * IZR (p_n p) / p_exp p) by (field; lra).
  apply Rmult_le_compat_r; [|lra]. left. now apply Rinv_0_lt_compat.
Qed.
Lemma sto_extent_ok tol : exp (- (10 ^ 40)) <= tol ->
  maximum_at (slater_shape p) (sto_peak p) /\
  exists fuel0, forall fuel, (fuel0 <= fuel)%nat -> exists e, sto_extent fuel tol p = Ok e /\
    tail_radius (slater_shape p) (sto_peak p) tol (1 / 10 ^ 12 * Rmax 1 (sto_peak p)) e.
Proof.
  intros Ht. pose proof sto_peak_pos as Hp. pose proof (sto_shape_pos _ Hp) as Hs.
  assert (Ht0 : 0 < tol) by (pose proof (exp_pos (- (10 ^ 40))); lra).
  pose proof n_ge1 as Hn.
  assert (B1 : forall y, 0 <= y -> 0 <= y * exp (1 - y)) by (intros y Hy; pose proof (exp_pos (1 - y)); nra).
  split.
  { split; [exact Hp|]. intros r Hr. rewrite sto_shape_g. rewrite <- (Rmult_1_l (slater_shape p (sto_peak p))) at 2.
    apply Rmult_le_compat_r; [lra|]. apply (g_le1 (fun y => y * exp (1 - y)) n (sto_peak p) Hn Hp B1 (fun y _ => sto_le1 y) _ sto_g r Hr). }
  assert (Hsum : sto_peak p < sto_peak p + 200 / p_exp p).
  { destruct Hv as [_ H]. assert (0 < 200 / p_exp p) by (apply Rdiv_lt_0_compat; lra). lra. }
  destruct (extent_ok (fun y => y * exp (1 - y)) n (sto_peak p) Hn Hp sto_mono B1 (fun y _ => sto_le1 y) (fun y _ => sto_tail y)
     (sto_over_peak p) sto_g tol Ht0 (sto_peak p + 200 / p_exp p) Hsum) as (fuel0 & Hf); [pose proof sto_start; lra|exact Ht|].
  exists fuel0. intros fuel Hle. destruct (Hf fuel Hle) as (e & E & A1 & A2 & A3). exists e. split; [exact E|].
  split; [exact A1|]. split.
  - intros r Hr. rewrite sto_shape_g. apply Rmult_le_compat_r; [lra|]. eapply Rle_trans; [|exact A2].
    apply (g_mono (fun y => y * exp (1 - y)) n (sto_peak p) Hp sto_mono B1 _ sto_g); lra.
  - intros r R1 R2. rewrite (sto_shape_g r). apply Rmult_lt_compat_r; [lra|]. now apply A3.
Qed.
End Sto.

Section Gto.
Hypothesis Hv : valid_prim 0 p.
Let m := Z.to_nat (p_n p + 1).
Lemma m_S : m = S (Z.to_nat (p_n p)).
Proof. destruct Hv as [H _]. unfold m. lia. Qed.
Lemma m_IZR : IZR (p_n p + 1) = INR m.
Proof. destruct Hv as [H _]. unfold m. rewrite INR_IZR_INZ, Z2Nat.id by lia. reflexivity. Qed.
Lemma m_pos : 1 <= IZR (p_n p + 1).
Proof. destruct Hv as [H _]. apply (IZR_le 1). lia. Qed.
Lemma gto_peak_pos : 0 < gto_peak p.
Proof. destruct Hv as [H1 H2]. unfold gto_peak. pose proof m_pos. apply sqrt_lt_R0, Rdiv_lt_0_compat; lra. Qed.
Lemma gto_peak_sq : gto_peak p * gto_peak p = IZR (p_n p + 1) / (2 * p_exp p).
Proof. destruct Hv as [H1 H2]. unfold gto_peak. pose proof m_pos. apply sqrt_sqrt. left. apply Rdiv_lt_0_compat; lra. Qed.
Lemma gto_g r : gto_over_peak p r = (r / gto_peak p * exp ((1 - r / gto_peak p * (r / gto_peak p)) / 2)) ^ m.
Proof.
  unfold gto_over_peak. fold m. rewrite Rpow_mult_distr, <- exp_INR. f_equal. f_equal. rewrite <- m_IZR.
  pose proof gto_peak_pos as Hp. pose proof gto_peak_sq as Hq. destruct Hv as [H1 H2].
  assert (E : IZR (p_n p + 1) = 2 * p_exp p * (gto_peak p * gto_peak p)) by (rewrite Hq; field; lra).
  rewrite E. field. lra.
Qed.
Lemma gto_shape_g r : gauss_shape p r = gto_over_peak p r * gauss_shape p (gto_peak p).
Proof.
  pose proof gto_peak_pos as Hp. unfold gauss_shape, gto_over_peak. fold m. rewrite <- m_S.
  transitivity ((r / gto_peak p * gto_peak p) ^ m * (exp (p_exp p * (gto_peak p * gto_peak p - r * r)) * exp (- (p_exp p * (gto_peak p * gto_peak p))))).
  - rewrite <- exp_plus. f_equal; [f_equal; field; lra|]. f_equal. ring.
  - rewrite Rpow_mult_distr. ring.
Qed.
Lemma gto_shape_pos r : 0 < r -> 0 < gauss_shape p r.
Proof. intros H. unfold gauss_shape. apply Rmult_lt_0_compat; [now apply pow_lt|apply exp_pos]. Qed.
Lemma gto_start : 20 / sqrt (p_exp p) <= 200 * gto_peak p.
Proof.
  destruct Hv as [H1 H2]. pose proof gto_peak_pos as Hp. pose proof gto_peak_sq as Hq. pose proof m_pos as Hm.
  assert (Hs : 0 < sqrt (p_exp p)) by now apply sqrt_lt_R0.
  apply Rmult_le_reg_r with (sqrt (p_exp p)); auto. replace (20 / sqrt (p_exp p) * sqrt (p_exp p)) with 20 by (field; lra).
  assert (Q : (gto_peak p * sqrt (p_exp p)) * (gto_peak p * sqrt (p_exp p)) = IZR (p_n p + 1) / 2).
  { transitivity ((gto_peak p * gto_peak p) * (sqrt (p_exp p) * sqrt (p_exp p))); [ring|]. rewrite Hq, sqrt_sqrt by lra. field. lra. }
  assert (0 < gto_peak p * sqrt (p_exp p)) by (apply Rmult_lt_0_compat; auto). nra.
Qed.
Lemma gto_extent_ok tol : exp (- (10 ^ 40)) <= tol ->
  maximum_at (gauss_shape p) (gto_peak p) /\
  exists fuel0, forall fuel, (fuel0 <= fuel)%nat -> exists e, gto_extent fuel tol p = Ok e /\
    tail_radius (gauss_shape p) (gto_peak p) tol (1 / 10 ^ 12 * Rmax 1 (gto_peak p)) e.
Proof.
  intros Ht. pose proof gto_peak_pos as Hp. pose proof (gto_shape_pos _ Hp) as Hs.
  assert (Ht0 : 0 < tol) by (pose proof (exp_pos (- (10 ^ 40))); lra).
  assert (Hm : (1 <= m)%nat) by (rewrite m_S; lia).
  set (base := fun y => y * exp ((1 - y * y) / 2)).
  assert (B1 : forall y, 0 <= y -> 0 <= base y) by (intros y Hy; unfold base; pose proof (exp_pos ((1 - y * y) / 2)); nra).
  assert (B2 : forall y, 0 <= y -> base y <= 1) by (intros y Hy; eapply Rle_trans; [now apply gto_base_le|apply sto_le1]).
  assert (B3 : forall y, 0 <= y -> base y <= 2 * exp (- (y / 2))) by (intros y Hy; eapply Rle_trans; [now apply gto_base_le|apply sto_tail]).
  split.
  { split; [exact Hp|]. intros r Hr. rewrite gto_shape_g. rewrite <- (Rmult_1_l (gauss_shape p (gto_peak p))) at 2.
    apply Rmult_le_compat_r; [lra|]. apply (g_le1 base m (gto_peak p) Hm Hp B1 B2 _ gto_g r Hr). }
  assert (Hsum : gto_peak p < gto_peak p + 20 / sqrt (p_exp p)).
  { destruct Hv as [_ H]. assert (0 < 20 / sqrt (p_exp p)) by (apply Rdiv_lt_0_compat; [lra|now apply sqrt_lt_R0]). lra. }
  destruct (extent_ok base m (gto_peak p) Hm Hp gto_mono B1 B2 B3
     (gto_over_peak p) gto_g tol Ht0 (gto_peak p + 20 / sqrt (p_exp p)) Hsum) as (fuel0 & Hf); [pose proof gto_start; lra|exact Ht|].
  exists fuel0. intros fuel Hle. destruct (Hf fuel Hle) as (e & E & A1 & A2 & A3). exists e. split; [exact E|].
  split; [exact A1|]. split.
  - intros r Hr. rewrite gto_shape_g. apply Rmult_le_compat_r; [lra|]. eapply Rle_trans; [|exact A2].
    apply (g_mono base m (gto_peak p) Hp gto_mono B1 _ gto_g); lra.
  - intros r R1 R2. rewrite (gto_shape_g r). apply Rmult_lt_compat_r; [lra|]. now apply A3.
Qed.
End Gto.
End Prims.
