(** Spherical densities on the grid with spheres. *)
Require Import Reals ZArith List Bool Arith Lia Lra Permutation.
Require Import Verif.Prelude Verif.FEModel Verif.FESpec Verif.FEProofs Verif.AngProofs Verif.AngModel Verif.JKModel Verif.DftModel Verif.DftSpec Verif.DftProofs Verif.DftXc Verif.DftFock Verif.DftDrv Verif.DftGrad Verif.DftMore Verif.SgModel Verif.SgSpec Verif.SgDrv Verif.SgMore Verif.SgAtSpec.
Import ListNotations.
Local Open Scope R_scope.

(** * Sums *)
Lemma sum_blocks a n f : sum (a * n) f = sum a (fun s => sum n (fun i => f (s * n + i)%nat)).
Proof.
  induction a as [|a IH]; [reflexivity|]. cbn [sum]. rewrite <- IH. replace (S a * n)%nat with (a * n + n)%nat by lia.
  clear IH. induction n as [|n IH].
  - rewrite Nat.add_0_r. cbn [sum]. ring.
  - cbn [sum]. rewrite <- Rplus_assoc.
    replace (a * S n + S n)%nat with (S (a * S n + n)) by lia. cbn [sum]. f_equal.
    clear IH. induction n as [|m IH]; [rewrite Nat.add_0_r; cbn [sum]; ring|].
    assert (G : forall p q, sum (p + q) f = sum p f + sum q (fun i => f (p + i)%nat)).
    { intros p q. induction q as [|q IHq]; [rewrite Nat.add_0_r; cbn [sum]; ring|]. rewrite Nat.add_succ_r. cbn [sum]. rewrite IHq. ring. }
    rewrite G. reflexivity.
Qed.
Lemma sum_shift n g : sum n (fun k => g (S k)) = sum n g + g n - g 0%nat.
Proof. induction n as [|n IH]; cbn [sum]; [ring|]. rewrite IH. ring. Qed.
Lemma sum_shells sh (g : Z * Z -> R) nl : Permutation sh (full_shells nl) ->
  sum (length sh) (fun s => g (shell sh s)) = sum nl (fun l => sum (2 * l + 1) (fun k => g (Z.of_nat l, Z.of_nat k - Z.of_nat l)%Z)).
Proof.
  intros HP. rewrite <- (lsum_seq0 (length sh)).
  rewrite <- (lsum_map (shell sh) (seq 0 (length sh)) g).
  replace (map (shell sh) (seq 0 (length sh))) with sh by (symmetry; apply (map_nth_seq (0, 0)%Z sh)).
  rewrite (lsum_perm _ _ g HP). unfold full_shells. rewrite lsum_flat_map, lsum_seq0. apply sum_ext. intros l _.
  rewrite lsum_map, lsum_seq0. reflexivity.
Qed.

(** * Spherical harmonics *)
Section Harm.
Variables (Y : Z -> Z -> R -> R -> R * R) (nl l : nat) (cth phi : R).
Hypothesis HY : harmonics Y nl.
Hypothesis Hl : (l < nl)%nat.
Hypothesis Hc : -1 < cth < 1.
Let L := Z.of_nat l.
Let y m := Y L m cth phi.
Let cot := cth / sqrt (1 - cth * cth).
Let up m := sqrt (IZR ((L - m) * (L + m + 1))).
Let dn m := sqrt (IZR ((L + m) * (L - m + 1))).
Let A m := cscal (up m) (cmul (cos phi, - sin phi) (y (m + 1)%Z)).
Let B m := cscal (dn m) (cmul (cos phi, sin phi) (y (m - 1)%Z)).
Let mz (k : nat) : Z := (Z.of_nat k - L)%Z.
Lemma sth_pos : 0 < 1 - cth * cth. Proof. nra. Qed.
Lemma y_ladder m : (- L <= m <= L)%Z -> 2 * (IZR m * cot) * fst (y m) = - fst (A m) - fst (B m) /\ 2 * (IZR m * cot) * snd (y m) = - snd (A m) - snd (B m).
Proof.
  intros Hm. destruct (HY l cth phi ltac:(lia) Hc) as [H _]. specialize (H m Hm).
  assert (E1 := f_equal fst H). assert (E2 := f_equal snd H). unfold cscal, cadd in E1, E2. cbn [fst snd] in E1, E2.
  unfold A, B, cscal. cbn [fst snd]. fold L in E1, E2. fold (y m) (y (m + 1)%Z) (y (m - 1)%Z) in E1, E2. fold (up m) (dn m) in E1, E2. fold cot in E1, E2. split; lra.
Qed.
Lemma dtheta_half m : (- L <= m <= L)%Z -> fst (dtheta Y L m cth phi) = / 2 * (fst (A m) - fst (B m)) /\ snd (dtheta Y L m cth phi) = / 2 * (snd (A m) - snd (B m)).
Proof.
  intros Hm. destruct (y_ladder m Hm) as [E1 E2]. unfold dtheta. fold (y m) (y (m + 1)%Z). fold cot (up m). fold (A m).
  unfold cadd. cbn [fst snd]. change (fst (cscal (IZR m * cot) (y m))) with (IZR m * cot * fst (y m)). change (snd (cscal (IZR m * cot) (y m))) with (IZR m * cot * snd (y m)). split; lra.
Qed.
Lemma up_dn m : up m = dn (m + 1)%Z.
Proof. unfold up, dn. do 2 f_equal. ring. Qed.
Lemma up_top : up (Z.of_nat (2 * l) - L)%Z = 0.
Proof. unfold up. replace ((L - (Z.of_nat (2 * l) - L)) * (L + (Z.of_nat (2 * l) - L) + 1))%Z with 0%Z by (unfold L; nia). apply sqrt_0. Qed.
Lemma dn_bottom : dn (- L)%Z = 0.
Proof. unfold dn. replace ((L + - L) * (L - - L + 1))%Z with 0%Z by (unfold L; nia). apply sqrt_0. Qed.
Lemma y_B m : reprod (y (m + 1)%Z) (B (m + 1)%Z) = reprod (y m) (A m).
Proof.
  unfold A, B, reprod, cscal, cmul. cbn [fst snd]. rewrite up_dn. replace (m + 1 - 1)%Z with m by lia. ring.
Qed.
Lemma mz_S k : mz (S k) = (mz k + 1)%Z. Proof. unfold mz. lia. Qed.
Lemma harm_cross : sum (2 * l + 1) (fun k => reprod (y (mz k)) (dtheta Y L (mz k) cth phi)) = 0.
Proof.
  rewrite (sum_ext _ _ (fun k => / 2 * reprod (y (mz k)) (A (mz k)) + - (/ 2) * reprod (y (mz k)) (B (mz k)))).
  2:{ intros k Hk. destruct (dtheta_half (mz k)) as [E1 E2]; [unfold mz, L; lia|]. unfold reprod. rewrite E1, E2. field. }
  rewrite sum_plus, !sum_scal.
  assert (E : sum (2 * l + 1) (fun k => reprod (y (mz k)) (A (mz k))) = sum (2 * l + 1) (fun k => reprod (y (mz k)) (B (mz k)))).
  { rewrite (sum_ext _ (fun k => reprod (y (mz k)) (A (mz k))) (fun k => (fun k => reprod (y (mz k)) (B (mz k))) (S k))).
    2:{ intros k _. cbv beta. rewrite mz_S. symmetry. apply y_B. }
    rewrite (sum_shift _ (fun k => reprod (y (mz k)) (B (mz k)))).
    replace (mz (2 * l + 1)) with (mz (2 * l) + 1)%Z by (unfold mz; lia). rewrite y_B.
    assert (A (mz (2 * l)) = (0, 0)). { unfold A, mz. rewrite up_top. unfold cscal. f_equal; ring. } rewrite H.
    assert (B (mz 0) = (0, 0)). { unfold B, mz. change (Z.of_nat 0 - L)%Z with (- L)%Z. rewrite dn_bottom. unfold cscal. f_equal; ring. } rewrite H0.
    unfold reprod; cbn [fst snd]. ring. }
  rewrite E. ring.
Qed.
Lemma up_sq m : (- L <= m <= L)%Z -> up m * up m = IZR ((L - m) * (L + m + 1)).
Proof. intros H. apply sqrt_sqrt. apply IZR_le. nia. Qed.
Lemma dn_sq m : (- L <= m <= L)%Z -> dn m * dn m = IZR ((L + m) * (L - m + 1)).
Proof. intros H. apply sqrt_sqrt. apply IZR_le. nia. Qed.
Lemma rot x c s : c * c + s * s = 1 -> reprod (cmul (c, s) x) (cmul (c, s) x) = reprod x x.
Proof.
  intros H. unfold reprod, cmul. cbn [fst snd].
  replace ((c * fst x - s * snd x) * (c * fst x - s * snd x) + (c * snd x + s * fst x) * (c * snd x + s * fst x))
    with ((c * c + s * s) * (fst x * fst x + snd x * snd x)) by ring. rewrite H. ring.
Qed.
Lemma cs2 : cos phi * cos phi + sin phi * sin phi = 1.
Proof. assert (H := sin2_cos2 phi). unfold Rsqr in H. lra. Qed.
Lemma A_sq m : reprod (A m) (A m) = up m * up m * reprod (y (m + 1)%Z) (y (m + 1)%Z).
Proof.
  rewrite <- (rot (y (m + 1)%Z) (cos phi) (- sin phi)) by (assert (H := cs2); lra). unfold A. set (x := cmul _ _). unfold reprod, cscal. cbn [fst snd]. ring.
Qed.
Lemma B_sq m : reprod (B m) (B m) = dn m * dn m * reprod (y (m - 1)%Z) (y (m - 1)%Z).
Proof.
  rewrite <- (rot (y (m - 1)%Z) (cos phi) (sin phi)) by apply cs2. unfold B. set (x := cmul _ _). unfold reprod, cscal. cbn [fst snd]. ring.
Qed.
Lemma harm_point m : (- L <= m <= L)%Z -> reprod (dtheta Y L m cth phi) (dtheta Y L m cth phi) + IZR m * IZR m / (1 - cth * cth) * reprod (y m) (y m)
  = / 2 * (reprod (A m) (A m) + reprod (B m) (B m)) + IZR m * IZR m * reprod (y m) (y m).
Proof.
  intros Hm. destruct (dtheta_half m Hm) as [D1 D2]. destruct (y_ladder m Hm) as [E1 E2].
  assert (Hs := sth_pos).
  assert (Ec : cot * cot = cth * cth / (1 - cth * cth)).
  { unfold cot. replace (cth / sqrt (1 - cth * cth) * (cth / sqrt (1 - cth * cth))) with (cth * cth / (sqrt (1 - cth * cth) * sqrt (1 - cth * cth))).
    - rewrite sqrt_sqrt by lra. reflexivity.
    - field. apply Rgt_not_eq, sqrt_lt_R0. exact Hs. }
  assert (Em : IZR m * IZR m / (1 - cth * cth) * reprod (y m) (y m) = IZR m * IZR m * reprod (y m) (y m)
      + / 4 * ((2 * (IZR m * cot) * fst (y m)) * (2 * (IZR m * cot) * fst (y m)) + (2 * (IZR m * cot) * snd (y m)) * (2 * (IZR m * cot) * snd (y m)))).
  { replace ((2 * (IZR m * cot) * fst (y m)) * (2 * (IZR m * cot) * fst (y m)) + (2 * (IZR m * cot) * snd (y m)) * (2 * (IZR m * cot) * snd (y m)))
      with (4 * (IZR m * IZR m) * (cot * cot) * reprod (y m) (y m)) by (unfold reprod; ring). rewrite Ec. field. lra. }
  rewrite Em, E1, E2. unfold reprod at 1. rewrite D1, D2. unfold reprod. field.
Qed.
Lemma harm_kin : sum (2 * l + 1) (fun k => reprod (dtheta Y L (mz k) cth phi) (dtheta Y L (mz k) cth phi) + IZR (mz k) * IZR (mz k) / (1 - cth * cth) * reprod (y (mz k)) (y (mz k)))
  = INR (l * (l + 1)) * (INR (2 * l + 1) / (4 * PI)).
Proof.
  destruct (HY l cth phi ltac:(lia) Hc) as [_ HU]. cbv zeta in HU. fold L in HU.
  rewrite (sum_ext _ _ (fun k => / 2 * reprod (A (mz k)) (A (mz k)) + (/ 2 * reprod (B (mz k)) (B (mz k)) + IZR (mz k) * IZR (mz k) * reprod (y (mz k)) (y (mz k))))).
  2:{ intros k Hk. rewrite harm_point by (unfold mz, L; lia). ring. }
  rewrite !sum_plus, !sum_scal.
  assert (EA : sum (2 * l + 1) (fun k => reprod (A (mz k)) (A (mz k))) = sum (2 * l + 1) (fun k => IZR ((L - mz k + 1) * (L + mz k)) * reprod (y (mz k)) (y (mz k)))).
  { rewrite (sum_ext _ (fun k => reprod (A (mz k)) (A (mz k))) (fun k => (fun k => IZR ((L - mz k + 1) * (L + mz k)) * reprod (y (mz k)) (y (mz k))) (S k))).
    2:{ intros k Hk. cbv beta. rewrite A_sq, up_sq by (unfold mz, L; lia). rewrite mz_S. f_equal. f_equal. ring. }
    rewrite (sum_shift _ (fun k => IZR ((L - mz k + 1) * (L + mz k)) * reprod (y (mz k)) (y (mz k)))).
    replace ((L - mz (2 * l + 1) + 1) * (L + mz (2 * l + 1)))%Z with 0%Z by (unfold mz, L; nia).
    replace ((L - mz 0 + 1) * (L + mz 0))%Z with 0%Z by (unfold mz, L; nia). ring. }
  assert (EB : sum (2 * l + 1) (fun k => reprod (B (mz k)) (B (mz k))) = sum (2 * l + 1) (fun k => IZR ((L + mz k + 1) * (L - mz k)) * reprod (y (mz k)) (y (mz k)))).
  { transitivity (sum (2 * l + 1) (fun k => IZR ((L + mz k) * (L - mz k + 1)) * reprod (y (mz k - 1)%Z) (y (mz k - 1)%Z))).
    { apply sum_ext. intros k Hk. rewrite B_sq, dn_sq by (unfold mz, L; lia). reflexivity. }
    rewrite (sum_ext _ (fun k => IZR ((L + mz k + 1) * (L - mz k)) * reprod (y (mz k)) (y (mz k)))
      (fun k => (fun k => IZR ((L + mz k) * (L - mz k + 1)) * reprod (y (mz k - 1)%Z) (y (mz k - 1)%Z)) (S k))).
    2:{ intros k _. cbv beta. rewrite mz_S. replace (mz k + 1 - 1)%Z with (mz k) by lia. f_equal. f_equal. ring. }
    rewrite (sum_shift _ (fun k => IZR ((L + mz k) * (L - mz k + 1)) * reprod (y (mz k - 1)%Z) (y (mz k - 1)%Z))).
    replace ((L + mz (2 * l + 1)) * (L - mz (2 * l + 1) + 1))%Z with 0%Z by (unfold mz, L; nia).
    replace ((L + mz 0) * (L - mz 0 + 1))%Z with 0%Z by (unfold mz, L; nia). ring. }
  rewrite EA, EB, <- !sum_scal, <- !sum_plus, <- HU, <- sum_scal. apply sum_ext. intros k _. fold (mz k). fold (y (mz k)).
  rewrite <- !mult_IZR. rewrite INR_IZR_INZ. replace (Z.of_nat (l * (l + 1))) with (L * (L + 1))%Z by (unfold L; lia).
  rewrite <- !Rmult_assoc, <- !Rmult_plus_distr_r. f_equal. rewrite ?mult_IZR, ?plus_IZR, ?minus_IZR, ?plus_IZR, ?minus_IZR. field.
Qed.
Lemma harm_norm : sum (2 * l + 1) (fun k => reprod (y (mz k)) (y (mz k))) = INR (2 * l + 1) / (4 * PI).
Proof. exact (proj2 (HY l cth phi ltac:(lia) Hc)). Qed.
End Harm.

(** * Blocks of shells *)
Lemma block_div n s i : (i < n)%nat -> ((s * n + i) / n = s)%nat /\ ((s * n + i) mod n = i)%nat.
Proof.
  intros H. split.
  - rewrite Nat.add_comm, Nat.div_add, Nat.div_small by lia. reflexivity.
  - rewrite Nat.add_comm, Nat.mod_add, Nat.mod_small by lia. reflexivity.
Qed.
Section Blocks.
Variables (b : abasis) (nl : nat).
Hypothesis HSh : Permutation (ab_sh b) (full_shells nl).
Let nr := at_nr b.
Let ns := length (ab_sh b).
Definition rep (x : mat) (X : Z * Z -> mat) : Prop := forall s i j, (s < ns)%nat -> (i < nr)%nat -> (j < nr)%nat ->
  x (s * nr + i)%nat (s * nr + j)%nat = X (shell (ab_sh b) s) i j.
Definition avg (X : Z * Z -> mat) (y : nat -> mat) : Prop := forall l i j, (l < nl)%nat -> (i < nr)%nat -> (j < nr)%nat ->
  sum (2 * l + 1) (fun k => X (Z.of_nat l, Z.of_nat k - Z.of_nat l)%Z i j) = INR (2 * l + 1) / (4 * PI) * y l i j.
Lemma odd_pos l : 0 < INR (2 * l + 1).
Proof. apply lt_0_INR. lia. Qed.
Lemma four_pi : 0 < 4 * PI. Proof. assert (H := PI_RGT_0). lra. Qed.
Lemma contract_spherical Ps P x X y : length Ps = nl -> spherical b Ps P -> rep x X -> avg X y -> contract (at_nbf b) (dent P) x = rsum nr Ps y.
Proof.
  intros HL HP HX HA. unfold contract, at_nbf. fold ns nr. rewrite sum_blocks.
  set (G := fun lm : Z * Z => 4 * PI / INR (2 * Z.to_nat (fst lm) + 1) * contract nr (part Ps (Z.to_nat (fst lm))) (X lm)).
  rewrite (sum_ext ns _ (fun s => G (shell (ab_sh b) s))).
  - unfold ns. rewrite (sum_shells _ G _ HSh). unfold G, rsum. rewrite HL. apply sum_ext. intros l Hl. cbn [fst]. rewrite Nat2Z.id.
    rewrite sum_scal. unfold contract at 1.
    assert (E : sum (2 * l + 1) (fun k => sum nr (fun i => sum nr (fun j => part Ps l i j * X (Z.of_nat l, Z.of_nat k - Z.of_nat l)%Z i j)))
      = INR (2 * l + 1) / (4 * PI) * contract nr (part Ps l) (y l)).
    { rewrite sum_swap. unfold contract. rewrite <- sum_scal. apply sum_ext. intros i Hi. rewrite sum_swap, <- sum_scal. apply sum_ext. intros j Hj.
      rewrite sum_scal, HA by auto. ring. }
    rewrite E. assert (H1 := odd_pos l). assert (H2 := four_pi). assert (H3 := PI_RGT_0). field. split; lra.
  - intros s Hs. unfold G, contract. rewrite <- sum_scal. apply sum_ext. intros i Hi. rewrite sum_blocks.
    rewrite (sum_single ns s _ Hs).
    + rewrite <- sum_scal. apply sum_ext. intros j Hj. rewrite HX by auto. rewrite (HP (s * nr + i)%nat (s * nr + j)%nat) by (unfold at_nbf; fold ns nr; nia).
      fold nr. destruct (block_div nr s i Hi) as [E1 E2]. destruct (block_div nr s j Hj) as [E3 E4]. rewrite E1, E2, E3, E4, Nat.eqb_refl. cbv zeta. ring.
    + intros s' Hs' Hne. apply sum_zero'. intros j Hj. rewrite (HP (s * nr + i)%nat (s' * nr + j)%nat) by (unfold at_nbf; fold ns nr; nia).
      fold nr. destruct (block_div nr s i Hi) as [E1 _]. destruct (block_div nr s' j Hj) as [E3 _]. rewrite E1, E3.
      destruct (Nat.eqb_spec s s'); [congruence|ring].
Qed.
Lemma trace_spherical x X y l i j : rep x X -> avg X y -> (l < nl)%nat -> (i < nr)%nat -> (j < nr)%nat ->
  sum ns (fun s => if Z.eqb (fst (shell (ab_sh b) s)) (Z.of_nat l) then x (s * nr + i)%nat (s * nr + j)%nat else 0) = INR (2 * l + 1) / (4 * PI) * y l i j.
Proof.
  intros HX HA Hl Hi Hj.
  set (G := fun lm : Z * Z => if Z.eqb (fst lm) (Z.of_nat l) then X lm i j else 0).
  rewrite (sum_ext ns _ (fun s => G (shell (ab_sh b) s))).
  2:{ intros s Hs. rewrite HX by auto. reflexivity. }
  unfold ns. rewrite (sum_shells _ G _ HSh). unfold G. rewrite (sum_single nl l _ Hl).
  - cbn [fst]. rewrite Z.eqb_refl. apply HA; auto.
  - intros l' _ Hne. apply sum_zero'. intros k _. cbn [fst]. destruct (Z.eqb_spec (Z.of_nat l') (Z.of_nat l)); [lia|reflexivity].
Qed.
Lemma rep_plus x X x' X' : rep x X -> rep x' X' -> rep (fun i j => x i j + x' i j) (fun lm i j => X lm i j + X' lm i j).
Proof. intros H H' s i j Hs Hi Hj. rewrite H, H' by auto. reflexivity. Qed.
Lemma rep_scal c x X : rep x X -> rep (fun i j => c * x i j) (fun lm i j => c * X lm i j).
Proof. intros H s i j Hs Hi Hj. rewrite H by auto. reflexivity. Qed.
Lemma avg_plus X y X' y' : avg X y -> avg X' y' -> avg (fun lm i j => X lm i j + X' lm i j) (fun l i j => y l i j + y' l i j).
Proof. intros H H' l i j Hl Hi Hj. rewrite sum_plus, H, H' by auto. ring. Qed.
Lemma avg_scal c X y : avg X y -> avg (fun lm i j => c * X lm i j) (fun l i j => c * y l i j).
Proof. intros H l i j Hl Hi Hj. rewrite sum_scal, H by auto. ring. Qed.
Definition ravg (x : mat) (y : nat -> mat) : Prop := exists X, rep x X /\ avg X y.
Lemma ravg_plus x y x' y' : ravg x y -> ravg x' y' -> ravg (fun i j => x i j + x' i j) (fun l i j => y l i j + y' l i j).
Proof. intros (X & H1 & H2) (X' & H3 & H4). eexists. split; [apply rep_plus; eassumption|apply avg_plus; auto]. Qed.
Lemma ravg_scal c x y : ravg x y -> ravg (fun i j => c * x i j) (fun l i j => c * y l i j).
Proof. intros (X & H1 & H2). eexists. split; [apply rep_scal; eassumption|apply avg_scal; auto]. Qed.
Lemma ravg_ext x y x' y' : (forall i j, x i j = x' i j) -> (forall l i j, (l < nl)%nat -> (i < nr)%nat -> (j < nr)%nat -> y l i j = y' l i j) -> ravg x y -> ravg x' y'.
Proof.
  intros E1 E2 (X & H1 & H2). exists X. split; [intros s i j Hs Hi Hj; rewrite <- E1; apply H1; auto|intros l i j Hl Hi Hj; rewrite <- E2 by auto; apply H2; auto].
Qed.
Lemma ravg_contract Ps P x y : length Ps = nl -> spherical b Ps P -> ravg x y -> contract (at_nbf b) (dent P) x = rsum nr Ps y.
Proof. intros HL HP (X & H1 & H2). exact (contract_spherical Ps P x X y HL HP H1 H2). Qed.
Lemma ravg_trace x y l i j : ravg x y -> (l < nl)%nat -> (i < nr)%nat -> (j < nr)%nat ->
  sum ns (fun s => if Z.eqb (fst (shell (ab_sh b) s)) (Z.of_nat l) then x (s * nr + i)%nat (s * nr + j)%nat else 0) = INR (2 * l + 1) / (4 * PI) * y l i j.
Proof. intros (X & H1 & H2). apply (trace_spherical x X y l i j H1 H2). Qed.

(** * One point *)
Variables (ru : rule) (iel ia ir : nat).
Hypothesis HY : harmonics (ab_Y b) nl.
Hypothesis Hcth : -1 < a_cth (ang ru ia) < 1.
Hypothesis Hr : 0 < nth ir (ab_r b iel) 0.
Let q3 := at_point b ru iel ia ir.
Let q := sg_point b iel ir.
Let cth := a_cth (ang ru ia).
Let phi := a_phi (ang ru ia).
Let r := nth ir (ab_r b iel) 0.
Let sth := sqrt (1 - cth * cth).
Let Yv (lm : Z * Z) := ab_Y b (fst lm) (snd lm) cth phi.
Let Dv (lm : Z * Z) := dtheta (ab_Y b) (fst lm) (snd lm) cth phi.
Lemma sth_sq : sth * sth = 1 - cth * cth.
Proof. apply sqrt_sqrt. unfold cth. nra. Qed.
Lemma sth_pos' : 0 < sth.
Proof. apply sqrt_lt_R0. unfold cth. nra. Qed.
Lemma pf s i : (i < nr)%nat -> p_f q3 (s * nr + i)%nat = cscal (q_f q i) (Yv (shell (ab_sh b) s)).
Proof. intros H. unfold q3, at_point. cbn [p_f]. fold nr. destruct (block_div nr s i H) as [E1 E2]. rewrite E1, E2. reflexivity. Qed.
Lemma pg0 s i : (i < nr)%nat -> p_g q3 0 (s * nr + i)%nat = cscal (q_d q i) (Yv (shell (ab_sh b) s)).
Proof. intros H. unfold q3, at_point. cbn [p_g]. fold nr. destruct (block_div nr s i H) as [E1 E2]. rewrite E1, E2. reflexivity. Qed.
Lemma pg1 s i : (i < nr)%nat -> p_g q3 1 (s * nr + i)%nat = cscal (q_f q i / r) (Dv (shell (ab_sh b) s)).
Proof. intros H. unfold q3, at_point. cbn [p_g]. fold nr. destruct (block_div nr s i H) as [E1 E2]. rewrite E1, E2. reflexivity. Qed.
Lemma pg2 s i : (i < nr)%nat -> p_g q3 2 (s * nr + i)%nat = cscal (q_f q i / (r * sth)) (cmul (0, IZR (snd (shell (ab_sh b) s))) (Yv (shell (ab_sh b) s))).
Proof. intros H. unfold q3, at_point. cbn [p_g]. fold nr. destruct (block_div nr s i H) as [E1 E2]. rewrite E1, E2. reflexivity. Qed.
Lemma pl s i : (i < nr)%nat -> p_l q3 (s * nr + i)%nat
  = cscal (q_l q i + 2 * q_d q i / r - IZR (fst (shell (ab_sh b) s) * (fst (shell (ab_sh b) s) + 1)) * q_f q i / (r * r)) (Yv (shell (ab_sh b) s)).
Proof. intros H. unfold q3, at_point. cbn [p_l]. fold nr. destruct (block_div nr s i H) as [E1 E2]. rewrite E1, E2. reflexivity. Qed.
Lemma avg_YY (g : nat -> mat) : avg (fun lm i j => reprod (Yv lm) (Yv lm) * g (Z.to_nat (fst lm)) i j) g.
Proof.
  intros l i j Hl _ _. unfold Yv. cbn [fst snd]. rewrite Nat2Z.id, sum_scal_r. f_equal.
  exact (harm_norm (ab_Y b) nl l cth phi HY Hl Hcth).
Qed.
Lemma ravg_n : ravg (pair_n q3) (fun _ => r_n q).
Proof.
  eexists. split; [|apply (avg_YY (fun _ => r_n q))]. intros s i j Hs Hi Hj. unfold pair_n. rewrite !pf by auto. unfold r_n, reprod, cscal. cbn [fst snd]. ring.
Qed.
Lemma ravg_g0 : ravg (pair_g q3 0) (fun _ => r_g q).
Proof.
  eexists. split; [|apply (avg_YY (fun _ => r_g q))]. intros s i j Hs Hi Hj. unfold pair_g. rewrite !pf, !pg0 by auto. unfold r_g, reprod, cscal. cbn [fst snd]. ring.
Qed.
Lemma ravg_g1 : ravg (pair_g q3 1) (fun _ _ _ => 0).
Proof.
  exists (fun lm i j => reprod (Yv lm) (Dv lm) * (2 * (q_f q i * q_f q j) / r)). split.
  - intros s i j Hs Hi Hj. unfold pair_g. rewrite !pf, !pg1 by auto. unfold reprod, cscal. cbn [fst snd]. field. apply Rgt_not_eq. exact Hr.
  - intros l i j Hl _ _. rewrite sum_scal_r. unfold Yv, Dv. cbn [fst snd].
    rewrite (harm_cross (ab_Y b) nl l cth phi HY Hl Hcth). ring.
Qed.
Lemma ravg_g2 : ravg (pair_g q3 2) (fun _ _ _ => 0).
Proof.
  exists (fun _ _ _ => 0). split.
  - intros s i j Hs Hi Hj. unfold pair_g. rewrite !pf, !pg2 by auto. unfold reprod, cscal, cmul. cbn [fst snd]. field.
    split; apply Rgt_not_eq; [exact sth_pos'|exact Hr].
  - intros l i j _ _ _. rewrite sum_zero' by reflexivity. ring.
Qed.
Lemma ravg_gg : ravg (pair_gg q3) (fun l i j => r_k q i j + r_a q l i j).
Proof.
  exists (fun lm i j => reprod (Yv lm) (Yv lm) * r_k q i j
     + (q_f q i * q_f q j / (r * r)) * (reprod (Dv lm) (Dv lm) + IZR (snd lm) * IZR (snd lm) / (1 - cth * cth) * reprod (Yv lm) (Yv lm))). split.
  - intros s i j Hs Hi Hj. unfold pair_gg. cbn [sum]. rewrite !pg0, !pg1, !pg2 by auto. rewrite <- sth_sq. unfold r_k, reprod, cscal, cmul. cbn [fst snd].
    field. split; apply Rgt_not_eq; [exact sth_pos'|exact Hr].
  - intros l i j Hl Hi Hj. rewrite sum_plus, sum_scal. rewrite (avg_YY (fun _ => r_k q) l i j Hl Hi Hj). unfold Yv, Dv. cbn [fst snd].
    rewrite (harm_kin (ab_Y b) nl l cth phi HY Hl Hcth). unfold r_a, r_n. change (q_r q) with r. assert (H := PI_RGT_0). field. split; [apply Rgt_not_eq; exact Hr|lra].
Qed.
Lemma ravg_t : ravg (pair_t q3) (fun l i j => / 2 * (r_k q i j + r_a q l i j)).
Proof. apply (ravg_scal (/ 2) _ _ ravg_gg). Qed.
Lemma ravg_l : ravg (pair_l q3) (fun _ => r_l q).
Proof.
  set (g := fun l i j => q_f q i * (q_l q j + 2 * q_d q j / r) + (q_l q i + 2 * q_d q i / r) * q_f q j - 2 * r_a q l i j).
  apply (ravg_ext (fun i j => (reprod (p_f q3 i) (p_l q3 j) + reprod (p_l q3 i) (p_f q3 j)) + 2 * pair_gg q3 i j) (fun l i j => g l i j + 2 * (r_k q i j + r_a q l i j))).
  - intros i j. reflexivity.
  - intros l i j _ _ _. unfold g, r_l, r_k, r_g. change (q_r q) with r. field. apply Rgt_not_eq. exact Hr.
  - apply ravg_plus; [|apply ravg_scal, ravg_gg].
    exists (fun lm i j => reprod (Yv lm) (Yv lm) * (q_f q i * (q_l q j + 2 * q_d q j / r) + (q_l q i + 2 * q_d q i / r) * q_f q j - 2 * (IZR (fst lm * (fst lm + 1)) / (r * r) * r_n q i j))). split.
    + intros s i j Hs Hi Hj. rewrite !pf, !pl by auto. unfold r_n, reprod, cscal. cbn [fst snd]. field. apply Rgt_not_eq. exact Hr.
    + intros l i j Hl Hi Hj. rewrite <- (avg_YY g l i j Hl Hi Hj). apply sum_ext. intros k _. cbn [fst snd]. rewrite Nat2Z.id. f_equal. unfold g, r_a.
      change (q_r q) with r. rewrite INR_IZR_INZ. replace (Z.of_nat (l * (l + 1))) with (Z.of_nat l * (Z.of_nat l + 1))%Z by lia. reflexivity.
Qed.
End Blocks.

(** * All points *)
Section Points.
Variables (b : abasis) (ru : rule) (nl : nat) (lib : libxc) (fn : functional).
Hypothesis HB : at_grid_ok b ru.
Hypothesis HSh : Permutation (ab_sh b) (full_shells nl).
Hypothesis HY : harmonics (ab_Y b) nl.
Hypothesis HW : lsum ru a_w = 4 * PI.
Hypothesis HF : functional_ok lib fn.
Let nr := at_nr b.
Let n := at_nbf b.
Lemma sg_of_at : sg_grid_ok b.
Proof. destruct HB as (H1 & _ & _ & H4). split; [exact H1|exact H4]. Qed.
Definition same_point (q3 : gpoint) (q : rpoint) : Prop := exists iel ia ir, (iel < get_nelem (ab_fe b))%nat /\ (ia < length ru)%nat /\ (ir < length (ab_r b iel))%nat /\
  q3 = at_point b ru iel ia ir /\ q = sg_point b iel ir.
Lemma points_sum (g : gpoint -> R) (h : rpoint -> R) : (forall q3 q, same_point q3 q -> In q (sg_points b) -> g q3 = h q) ->
  lsum (at_points b ru) (fun q3 => p_w q3 * g q3) = lsum (sg_points b) (fun q => q_w q * h q).
Proof.
  intros H. unfold at_points, sg_points. rewrite !lsum_flat_map. apply lsum_ext. intros iel Hiel. apply in_seq in Hiel.
  unfold at_elem_points, sg_elem_points. rewrite lsum_flat_map, lsum_map, !lsum_seq0.
  rewrite (sum_ext _ _ (fun ia => sum (length (ab_r b iel)) (fun ir => a_w (ang ru ia) * (nth ir (ab_wrad b iel) 0 * (nth ir (ab_r b iel) 0 * nth ir (ab_r b iel) 0) * h (sg_point b iel ir))))).
  2:{ intros ia Hia. rewrite lsum_map, lsum_seq0. apply sum_ext. intros ir Hir.
      rewrite (H _ (sg_point b iel ir)).
      - unfold at_point. cbn [p_w]. ring.
      - exists iel, ia, ir. repeat split; auto; lia.
      - apply in_flat_map. exists iel. split; [apply in_seq; lia|]. apply in_map. apply in_seq. lia. }
  rewrite sum_swap. apply sum_ext. intros ir Hir. rewrite sum_scal_r.
  assert (E : sum (length ru) (fun ia => a_w (ang ru ia)) = 4 * PI).
  { rewrite <- HW, <- lsum_seq0, <- (lsum_map (ang ru) (seq 0 (length ru)) a_w). f_equal. apply (map_nth_seq (0, 0, 0) ru). }
  rewrite E. unfold sg_point. cbn [q_w]. ring.
Qed.
Section Point.
Variables (q3 : gpoint) (q : rpoint).
Hypothesis HS : same_point q3 q.
Lemma sp_r iel ir : (iel < get_nelem (ab_fe b))%nat -> (ir < length (ab_r b iel))%nat -> 0 < nth ir (ab_r b iel) 0.
Proof. intros H1 H2. destruct HB as (_ & _ & _ & H4). apply (proj1 (H4 iel H1)). apply nth_In. exact H2. Qed.
Lemma sp_c ia : (ia < length ru)%nat -> -1 < a_cth (ang ru ia) < 1.
Proof. intros H. destruct HB as (_ & _ & H3 & _). apply H3. exact H. Qed.
Lemma pt_n : ravg b nl (pair_n q3) (fun _ => r_n q).
Proof. destruct HS as (iel & ia & ir & A1 & A2 & A3 & -> & ->). apply ravg_n; auto using sp_c, sp_r. Qed.
Lemma pt_g0 : ravg b nl (pair_g q3 0) (fun _ => r_g q).
Proof. destruct HS as (iel & ia & ir & A1 & A2 & A3 & -> & ->). apply ravg_g0; auto using sp_c, sp_r. Qed.
Lemma pt_g1 : ravg b nl (pair_g q3 1) (fun _ _ _ => 0).
Proof. destruct HS as (iel & ia & ir & A1 & A2 & A3 & -> & ->). apply ravg_g1; auto using sp_c, sp_r. Qed.
Lemma pt_g2 : ravg b nl (pair_g q3 2) (fun _ _ _ => 0).
Proof. destruct HS as (iel & ia & ir & A1 & A2 & A3 & -> & ->). apply ravg_g2; auto using sp_c, sp_r. Qed.
Lemma pt_t : ravg b nl (pair_t q3) (fun l i j => / 2 * (r_k q i j + r_a q l i j)).
Proof. destruct HS as (iel & ia & ir & A1 & A2 & A3 & -> & ->). apply ravg_t; auto using sp_c, sp_r. Qed.
Lemma pt_l : ravg b nl (pair_l q3) (fun _ => r_l q).
Proof. destruct HS as (iel & ia & ir & A1 & A2 & A3 & -> & ->). apply ravg_l; auto using sp_c, sp_r. Qed.
Variables (Ps : list dmat) (P : dmat).
Hypothesis HL : length Ps = nl.
Hypothesis HP : spherical b Ps P.
Lemma pt_dens : dens n (dent P) q3 = rdens nr Ps q.
Proof. apply (ravg_contract b nl HSh Ps P _ _ HL HP pt_n). Qed.
Lemma pt_lapl : lapl n (dent P) q3 = rlapl nr Ps q.
Proof. apply (ravg_contract b nl HSh Ps P _ _ HL HP pt_l). Qed.
Lemma rsum_0 : rsum nr Ps (fun _ _ _ => 0) = 0.
Proof. unfold rsum. apply sum_zero'. intros l _. unfold contract. apply sum_zero'. intros i _. apply sum_zero'. intros j _. ring. Qed.
Lemma pt_grad c : (c < 3)%nat -> grad n (dent P) q3 c = if Nat.eqb c 0 then rgrad nr Ps q else 0.
Proof.
  intros Hc. unfold grad. destruct c as [|[|[|c]]]; [| | |lia]; cbn [Nat.eqb].
  - apply (ravg_contract b nl HSh Ps P _ _ HL HP pt_g0).
  - rewrite <- rsum_0. apply (ravg_contract b nl HSh Ps P _ _ HL HP pt_g1).
  - rewrite <- rsum_0. apply (ravg_contract b nl HSh Ps P _ _ HL HP pt_g2).
Qed.
Lemma pt_tau : 0 <= rang nr Ps q -> tau n (dent P) q3 = rtau nr Ps q.
Proof.
  intros H. unfold tau, rtau. rewrite Rmax_left by exact H. unfold n. rewrite (ravg_contract b nl HSh Ps P _ _ HL HP pt_t).
  fold nr. rewrite rsum_scal, rsum_plus. reflexivity.
Qed.
End Point.
Lemma pt_dot q3 q Ps P Ps' P' : same_point q3 q -> length Ps = nl -> spherical b Ps P -> length Ps' = nl -> spherical b Ps' P' ->
  dot3 (grad n (dent P) q3) (grad n (dent P') q3) = rgrad nr Ps q * rgrad nr Ps' q.
Proof.
  intros HS HL HP HL' HP'. unfold dot3. cbn [sum]. rewrite !(pt_grad q3 q HS Ps P HL HP), !(pt_grad q3 q HS Ps' P' HL' HP') by lia. cbn [Nat.eqb]. ring.
Qed.
Lemma pt_gdot q3 q Ps P : same_point q3 q -> length Ps = nl -> spherical b Ps P ->
  ravg b nl (fun i j => dot3 (grad n (dent P) q3) (fun c => pair_g q3 c i j)) (fun _ i j => rgrad nr Ps q * r_g q i j).
Proof.
  intros HS HL HP. apply (ravg_ext b nl (fun i j => rgrad nr Ps q * pair_g q3 0 i j) (fun _ i j => rgrad nr Ps q * r_g q i j)).
  - intros i j. unfold dot3. cbn [sum]. rewrite !(pt_grad q3 q HS Ps P HL HP) by lia. cbn [Nat.eqb]. ring.
  - reflexivity.
  - apply (ravg_scal b nl (rgrad nr Ps q) (pair_g q3 0) (fun _ => r_g q)). apply pt_g0. exact HS.
Qed.
Lemma pt_over1 q3 q Ps P c f : same_point q3 q -> length Ps = nl -> spherical b Ps P -> (uses fn (is_tau lib) = true -> 0 <= rang nr Ps q) ->
  over lib false fn c f (args1 n (dent P) q3) = over lib false fn c f (rargs1 nr Ps q).
Proof.
  intros HS HL HP HT. unfold args1, rargs1. rewrite (pt_dens q3 q HS Ps P HL HP), (pt_lapl q3 q HS Ps P HL HP), (pt_dot q3 q Ps P Ps P HS HL HP HL HP).
  destruct (uses fn (is_tau lib)) eqn:E.
  - rewrite (pt_tau q3 q HS Ps P HL HP (HT eq_refl)). reflexivity.
  - apply over_notau; auto.
Qed.
Lemma pt_over2 q3 q Ps P Ps' P' c f : same_point q3 q -> length Ps = nl -> spherical b Ps P -> length Ps' = nl -> spherical b Ps' P' ->
  (uses fn (is_tau lib) = true -> 0 <= rang nr Ps q) -> (uses fn (is_tau lib) = true -> 0 <= rang nr Ps' q) ->
  over lib true fn c f (args2 n (dent P) (dent P') q3) = over lib true fn c f (rargs2 nr Ps Ps' q).
Proof.
  intros HS HL HP HL' HP' HT HT'. unfold args2, rargs2. rewrite (pt_dens q3 q HS Ps P HL HP), (pt_lapl q3 q HS Ps P HL HP), (pt_dens q3 q HS Ps' P' HL' HP'), (pt_lapl q3 q HS Ps' P' HL' HP').
  rewrite (pt_dot q3 q Ps P Ps P HS HL HP HL HP), (pt_dot q3 q Ps P Ps' P' HS HL HP HL' HP'), (pt_dot q3 q Ps' P' Ps' P' HS HL' HP' HL' HP').
  destruct (uses fn (is_tau lib)) eqn:E.
  - rewrite (pt_tau q3 q HS Ps P HL HP (HT eq_refl)), (pt_tau q3 q HS Ps' P' HL' HP' (HT' eq_refl)). reflexivity.
  - apply over_notau; auto.
Qed.

(** The sum of the blocks of a matrix that is a sum over the points *)
Lemma trace_points (x : gpoint -> mat) (y : rpoint -> nat -> mat) l i j : (forall q3 q, same_point q3 q -> In q (sg_points b) -> ravg b nl (x q3) (y q)) ->
  (l < nl)%nat -> (i < nr)%nat -> (j < nr)%nat ->
  sum (length (ab_sh b)) (fun s => if Z.eqb (fst (shell (ab_sh b) s)) (Z.of_nat l)
    then lsum (at_points b ru) (fun q3 => p_w q3 * x q3 (s * nr + i)%nat (s * nr + j)%nat) else 0)
  = INR (2 * l + 1) / (4 * PI) * lsum (sg_points b) (fun q => q_w q * y q l i j).
Proof.
  intros H Hl Hi Hj.
  rewrite (sum_ext _ _ (fun s => lsum (at_points b ru) (fun q3 => p_w q3 * (if Z.eqb (fst (shell (ab_sh b) s)) (Z.of_nat l) then x q3 (s * nr + i)%nat (s * nr + j)%nat else 0)))).
  2:{ intros s _. destruct (Z.eqb _ _); [reflexivity|]. symmetry. apply lsum_zero. intros; ring. }
  rewrite <- lsum_sum_swap.
  rewrite (lsum_ext _ _ (fun q3 => p_w q3 * sum (length (ab_sh b)) (fun s => if Z.eqb (fst (shell (ab_sh b) s)) (Z.of_nat l) then x q3 (s * nr + i)%nat (s * nr + j)%nat else 0))).
  2:{ intros q3 _. rewrite sum_scal. reflexivity. }
  rewrite (points_sum _ (fun q => INR (2 * l + 1) / (4 * PI) * y q l i j)).
  - rewrite <- lsum_scal. apply lsum_ext. intros; ring.
  - intros q3 q HS Hq. apply (ravg_trace b nl HSh (x q3) (y q) l i j (H q3 q HS Hq) Hl Hi Hj).
Qed.

Section One.
Variables (Ps : list dmat) (P : dmat).
Hypothesis HL : length Ps = nl.
Hypothesis HP : spherical b Ps P.
Lemma at_sg_nel : spec_nel n (dent P) (at_points b ru) = rnel nr Ps (sg_points b).
Proof. apply points_sum. intros q3 q HS _. apply pt_dens; auto. Qed.
Hypothesis HT : forall q, In q (sg_points b) -> uses fn (is_tau lib) = true -> 0 <= rang nr Ps q.
Lemma at_sg_exc1 : spec_exc1 lib fn n (dent P) (at_points b ru) = rexc1 lib fn nr Ps (sg_points b).
Proof.
  unfold spec_exc1, rexc1. rewrite (lsum_ext _ _ (fun q3 => p_w q3 * (e_exc lib false fn (args1 n (dent P) q3) * dens n (dent P) q3))) by (intros; ring).
  rewrite (points_sum _ (fun q => e_exc lib false fn (rargs1 nr Ps q) * rdens nr Ps q)); [apply lsum_ext; intros; ring|].
  intros q3 q HS Hq. rewrite (pt_dens q3 q HS Ps P HL HP). f_equal. apply pt_over1; auto.
Qed.
Lemma at_sg_fock1 l i j : (l < nl)%nat -> (i < nr)%nat -> (j < nr)%nat ->
  sum (length (ab_sh b)) (fun s => if Z.eqb (fst (shell (ab_sh b) s)) (Z.of_nat l)
    then spec_fock1 lib fn n (dent P) (at_points b ru) (s * nr + i)%nat (s * nr + j)%nat else 0)
  = INR (2 * l + 1) / (4 * PI) * rfock1 lib fn nr Ps (sg_points b) l i j.
Proof.
  intros Hl Hi Hj. unfold spec_fock1, rfock1.
  apply (trace_points (fun q3 => fock1 lib fn n (dent P) q3) (fun q l i j => let a := rargs1 nr Ps q in
      e_vrho lib false fn a 0 * r_n q i j + e_vsigma lib false fn a 0 * (2 * rgrad nr Ps q * r_g q i j)
      + e_vtau lib false fn a 0 * (/ 2 * (r_k q i j + r_a q l i j)) + e_vlapl lib false fn a 0 * r_l q i j)); auto.
  intros q3 q HS Hq.
  assert (EO := fun c f => pt_over1 q3 q Ps P c f HS HL HP (HT q Hq)).
  unfold fock1, e_vrho, e_vsigma, e_vtau, e_vlapl. cbv zeta. rewrite !EO.
  apply (ravg_ext b nl _ (fun l i j => over lib false fn (fun _ => true) (fun o => o_vrho o 0) (rargs1 nr Ps q) * r_n q i j
    + over lib false fn (is_gga lib) (fun o => o_vsigma o 0) (rargs1 nr Ps q) * (2 * (rgrad nr Ps q * r_g q i j))
    + over lib false fn (is_tau lib) (fun o => o_vtau o 0) (rargs1 nr Ps q) * (/ 2 * (r_k q i j + r_a q l i j))
    + over lib false fn (is_lapl lib) (fun o => o_vlapl o 0) (rargs1 nr Ps q) * r_l q i j) _ _ (fun i j => eq_refl)); [intros; ring|].
  apply (ravg_plus b nl _ (fun l i j => _ + _ + _) _ (fun _ i j => _)); [|apply (ravg_scal b nl _ (pair_l q3) (fun _ => r_l q)), pt_l; auto].
  apply (ravg_plus b nl _ (fun l i j => _ + _) _ (fun l i j => _)); [|apply (ravg_scal b nl _ (pair_t q3)), pt_t; auto].
  apply (ravg_plus b nl _ (fun l i j => _) _ (fun l i j => _)); [apply (ravg_scal b nl _ (pair_n q3) (fun _ => r_n q)), pt_n; auto|].
  apply (ravg_scal b nl _ (fun i j => 2 * dot3 (grad n (dent P) q3) (fun c => pair_g q3 c i j)) (fun _ i j => 2 * (rgrad nr Ps q * r_g q i j))).
  apply (ravg_scal b nl 2 (fun i j => dot3 (grad n (dent P) q3) (fun c => pair_g q3 c i j)) (fun _ i j => (rgrad nr Ps q * r_g q i j))).
  apply pt_gdot; auto.
Qed.
End One.
Section Two.
Variables (Psa Psb : list dmat) (Pa Pb : dmat).
Hypothesis HLa : length Psa = nl.
Hypothesis HPa : spherical b Psa Pa.
Hypothesis HLb : length Psb = nl.
Hypothesis HPb : spherical b Psb Pb.
Hypothesis HTa : forall q, In q (sg_points b) -> uses fn (is_tau lib) = true -> 0 <= rang nr Psa q.
Hypothesis HTb : forall q, In q (sg_points b) -> uses fn (is_tau lib) = true -> 0 <= rang nr Psb q.
Lemma at_sg_exc2 : spec_exc2 lib fn n (dent Pa) (dent Pb) (at_points b ru) = rexc2 lib fn nr Psa Psb (sg_points b).
Proof.
  unfold spec_exc2, rexc2. rewrite (lsum_ext _ _ (fun q3 => p_w q3 * (e_exc lib true fn (args2 n (dent Pa) (dent Pb) q3) * (dens n (dent Pa) q3 + dens n (dent Pb) q3)))) by (intros; ring).
  rewrite (points_sum _ (fun q => e_exc lib true fn (rargs2 nr Psa Psb q) * (rdens nr Psa q + rdens nr Psb q))); [apply lsum_ext; intros; ring|].
  intros q3 q HS Hq. rewrite (pt_dens q3 q HS Psa Pa HLa HPa), (pt_dens q3 q HS Psb Pb HLb HPb). f_equal. apply pt_over2; auto.
Qed.
Lemma at_sg_fock2 s0 l i j : (l < nl)%nat -> (i < nr)%nat -> (j < nr)%nat ->
  sum (length (ab_sh b)) (fun s => if Z.eqb (fst (shell (ab_sh b) s)) (Z.of_nat l)
    then spec_fock2 lib fn n (dent Pa) (dent Pb) s0 (at_points b ru) (s * nr + i)%nat (s * nr + j)%nat else 0)
  = INR (2 * l + 1) / (4 * PI) * rfock2 lib fn nr Psa Psb s0 (sg_points b) l i j.
Proof.
  intros Hl Hi Hj. unfold spec_fock2, rfock2.
  set (ow := if Nat.eqb s0 0 then Psa else Psb). set (ot := if Nat.eqb s0 0 then Psb else Psa). cbv zeta.
  apply (trace_points (fun q3 => fock2 lib fn n (dent Pa) (dent Pb) s0 q3) (fun q l i j =>
      e_vrho lib true fn (rargs2 nr Psa Psb q) s0 * r_n q i j + e_vsigma lib true fn (rargs2 nr Psa Psb q) (2 * s0) * (2 * rgrad nr ow q * r_g q i j)
      + e_vsigma lib true fn (rargs2 nr Psa Psb q) 1 * (rgrad nr ot q * r_g q i j)
      + e_vtau lib true fn (rargs2 nr Psa Psb q) s0 * (/ 2 * (r_k q i j + r_a q l i j)) + e_vlapl lib true fn (rargs2 nr Psa Psb q) s0 * r_l q i j)); auto.
  intros q3 q HS Hq.
  assert (EO := fun c f => pt_over2 q3 q Psa Pa Psb Pb c f HS HLa HPa HLb HPb (HTa q Hq) (HTb q Hq)).
  unfold fock2, e_vrho, e_vsigma, e_vtau, e_vlapl. cbv zeta. rewrite !EO.
  assert (Gow : ravg b nl (fun i j => dot3 (grad n (if Nat.eqb s0 0 then dent Pa else dent Pb) q3) (fun c => pair_g q3 c i j)) (fun _ i j => rgrad nr ow q * r_g q i j)).
  { unfold ow. destruct (Nat.eqb s0 0); apply pt_gdot; auto. }
  assert (Got : ravg b nl (fun i j => dot3 (grad n (if Nat.eqb s0 0 then dent Pb else dent Pa) q3) (fun c => pair_g q3 c i j)) (fun _ i j => rgrad nr ot q * r_g q i j)).
  { unfold ot. destruct (Nat.eqb s0 0); apply pt_gdot; auto. }
  set (v1 := over lib true fn (fun _ => true) (fun o => o_vrho o s0) (rargs2 nr Psa Psb q)).
  set (v2 := over lib true fn (is_gga lib) (fun o => o_vsigma o (2 * s0)) (rargs2 nr Psa Psb q)).
  set (v2' := over lib true fn (is_gga lib) (fun o => o_vsigma o 1) (rargs2 nr Psa Psb q)).
  set (v3 := over lib true fn (is_tau lib) (fun o => o_vtau o s0) (rargs2 nr Psa Psb q)).
  set (v4 := over lib true fn (is_lapl lib) (fun o => o_vlapl o s0) (rargs2 nr Psa Psb q)).
  apply (ravg_ext b nl _ (fun l i j => v1 * r_n q i j + v2 * (2 * (rgrad nr ow q * r_g q i j)) + v2' * (rgrad nr ot q * r_g q i j)
    + v3 * (/ 2 * (r_k q i j + r_a q l i j)) + v4 * r_l q i j) _ _ (fun i j => eq_refl)); [intros; ring|].
  apply (ravg_plus b nl _ (fun l i j => _ + _ + _ + _) _ (fun _ i j => _)); [|apply (ravg_scal b nl _ (pair_l q3) (fun _ => r_l q)), pt_l; auto].
  apply (ravg_plus b nl _ (fun l i j => _ + _ + _) _ (fun l i j => _)); [|apply (ravg_scal b nl _ (pair_t q3)), pt_t; auto].
  apply (ravg_plus b nl _ (fun l i j => _ + _) _ (fun l i j => _)); [|apply (ravg_scal b nl v2' _ (fun _ i j => rgrad nr ot q * r_g q i j)); exact Got].
  apply (ravg_plus b nl _ (fun l i j => _) _ (fun l i j => _)); [apply (ravg_scal b nl _ (pair_n q3) (fun _ => r_n q)), pt_n; auto|].
  apply (ravg_scal b nl v2 (fun i j => 2 * dot3 (grad n (if Nat.eqb s0 0 then dent Pa else dent Pb) q3) (fun c => pair_g q3 c i j)) (fun _ i j => 2 * (rgrad nr ow q * r_g q i j))).
  apply (ravg_scal b nl 2 (fun i j => dot3 (grad n (if Nat.eqb s0 0 then dent Pa else dent Pb) q3) (fun c => pair_g q3 c i j)) (fun _ i j => (rgrad nr ow q * r_g q i j))).
  exact Gow.
Qed.
End Two.

(** * The results agree *)
Lemma trace_mat H h l i j : is_mat H n n h -> (i < nr)%nat -> (j < nr)%nat ->
  shell_trace b H l i j = sum (length (ab_sh b)) (fun s => if Z.eqb (fst (shell (ab_sh b) s)) (Z.of_nat l) then h (s * nr + i)%nat (s * nr + j)%nat else 0).
Proof.
  intros (_ & _ & HM) Hi Hj. unfold shell_trace. fold nr. apply sum_ext. intros s Hs. destruct (Z.eqb _ _); [|reflexivity].
  apply HM; unfold n, at_nbf; fold nr; nia.
Qed.
Lemma agreement1 Ps P sc sc' H H' E N K E' N' : (0 < n)%nat -> cube_ok nr Ps -> length Ps = nl -> is_density n P -> spherical b Ps P ->
  (forall q, In q (sg_points b) -> uses fn (is_tau lib) = true -> 0 <= rang nr Ps q) ->
  schedule_ok (get_nelem (ab_fe b)) sc -> schedule_ok (get_nelem (ab_fe b)) sc' ->
  at_eval_Fxc lib b ru fn P sc = Ok (H, (E, N, K)) -> sg_eval_Fxc lib b fn Ps sc' = Ok (H', (E', N')) ->
  E = E' /\ N = N' /\ forall l i j, (l < nl)%nat -> (i < nr)%nat -> (j < nr)%nat -> shell_trace b H l i j = INR (2 * l + 1) / (4 * PI) * part H' l i j.
Proof.
  intros Hn HC HL HD HP HT Hs Hs' Ev Ev'.
  destruct (restricted_value b ru HB Hn lib fn P sc H E N K HF HD Hs Ev) as (-> & -> & _ & HM).
  destruct (sg_value1 lib b fn sg_of_at HF Ps sc' H' _ HC Hs' Ev') as (Es & HC'). injection Es as -> ->.
  split; [apply at_sg_exc1; auto|]. split; [apply at_sg_nel; auto|]. intros l i j Hl Hi Hj.
  rewrite (trace_mat H _ l i j HM Hi Hj). rewrite (is_cube_part H' _ _ _ l i j HC') by (auto; lia). apply at_sg_fock1; auto.
Qed.
Lemma agreement2 Psa Psb Pa Pb beta sc sc' Ha Hb Ha' Hb' E N K E' N' : (0 < n)%nat -> cube_ok nr Psa -> length Psa = nl -> is_density n Pa -> spherical b Psa Pa ->
  cube_ok nr Psb -> length Psb = nl -> is_density n Pb -> spherical b Psb Pb ->
  uses fn (is_lapl lib) = false \/ uses fn (is_tau lib) = true /\ beta = true ->
  (forall q, In q (sg_points b) -> uses fn (is_tau lib) = true -> 0 <= rang nr Psa q /\ 0 <= rang nr Psb q) ->
  schedule_ok (get_nelem (ab_fe b)) sc -> schedule_ok (get_nelem (ab_fe b)) sc' ->
  at_eval_Fxc_pol lib b ru fn Pa Pb beta sc = Ok (Ha, Hb, (E, N, K)) -> sg_eval_Fxc_pol lib b fn Psa Psb beta sc' = Ok (Ha', Hb', (E', N')) ->
  E = E' /\ N = N' /\ forall l i j, (l < nl)%nat -> (i < nr)%nat -> (j < nr)%nat ->
    shell_trace b Ha l i j = INR (2 * l + 1) / (4 * PI) * part Ha' l i j /\ shell_trace b Hb l i j = INR (2 * l + 1) / (4 * PI) * part Hb' l i j.
Proof.
  intros Hn HCa HLa HDa HPa HCb HLb HDb HPb Hc HT Hs Hs' Ev Ev'.
  destruct (unrestricted_value b ru HB Hn lib fn Pa Pb beta sc Ha Hb E N K HF HDa HDb Hs Hc Ev) as (-> & -> & _ & MA & MB).
  destruct (sg_value2 lib b fn sg_of_at HF Psa Psb beta sc' Ha' Hb' _ HCa HCb Hs' Ev') as (Es & HCa' & HCb'). injection Es as -> ->.
  assert (HTa := fun q Hq Hu => proj1 (HT q Hq Hu)). assert (HTb := fun q Hq Hu => proj2 (HT q Hq Hu)).
  split; [apply at_sg_exc2; auto|]. split; [fold n; rewrite (at_sg_nel Psa Pa), (at_sg_nel Psb Pb); auto|]. intros l i j Hl Hi Hj.
  rewrite (trace_mat Ha _ l i j MA Hi Hj), (trace_mat Hb _ l i j MB Hi Hj).
  rewrite (is_cube_part Ha' _ _ _ l i j HCa'), (is_cube_part Hb' _ _ _ l i j HCb') by (auto; lia). split; [apply at_sg_fock2; auto|].
  destruct beta; [apply at_sg_fock2; auto|]. rewrite sum_zero'; [ring|]. intros s _. destruct (Z.eqb _ _); reflexivity.
Qed.
End Points.
