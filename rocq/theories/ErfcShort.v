(** The power series of the code: binomials, coefficients and the origin. *)
Require Import Reals List Arith Lra Lia ZArith Bool.
Require Import Verif.Prelude Verif.SadSpec Verif.SadWit Verif.PotSpec Verif.LegMath Verif.PotNuc Verif.ShapeModel Verif.ShapeLeg Verif.ErfcModel Verif.ErfcSpec Verif.ErfcAnti Verif.ErfcProofs.
Import ListNotations.
Open Scope R_scope.

(* ---- binomials ---- *)
Lemma product_binomial n k : (0 <= k)%Z -> product n k = binomial n (Z.to_nat k).
Proof.
  intros _. unfold product. generalize (Z.to_nat k). clear k. intros k. induction k as [|k IH]; [reflexivity|].
  rewrite seq_S, fold_left_app. cbn [fold_left binomial]. rewrite IH. rewrite Nat.add_0_l.
  replace (IZR (Z.of_nat k + 1)) with (INR (S k)) by (rewrite INR_IZR_INZ; f_equal; lia). unfold Rdiv. ring.
Qed.
Lemma binomial_fact n m : (m <= n)%nat -> binomial (Z.of_nat n) m = INR (fact n) / (INR (fact m) * INR (fact (n - m))).
Proof.
  induction m as [|m IH]; intros H.
  - cbn [binomial fact]. rewrite Nat.sub_0_r, INR_1. pose proof (fact_pos n). field. lra.
  - cbn [binomial]. rewrite IH by lia. assert (exists d, n = S m + d)%nat as [d ->] by (exists (n - S m)%nat; lia).
    replace (S m + d - m)%nat with (S d) by lia. replace (S m + d - S m)%nat with d by lia.
    replace (IZR (Z.of_nat (S m + d) - Z.of_nat m)) with (INR (S d)) by (rewrite INR_IZR_INZ; f_equal; lia).
    rewrite (INR_fact_S d), (INR_fact_S m), !S_INR. pose proof (fact_pos m). pose proof (fact_pos d). pose proof (pos_INR m). pose proof (pos_INR d).
    field. repeat split; lra.
Qed.
Lemma binomial_sym n m : (m <= n)%nat -> binomial (Z.of_nat n) (n - m) = binomial (Z.of_nat n) m.
Proof.
  intros H. rewrite !binomial_fact by lia. replace (n - (n - m))%nat with m by lia. f_equal. ring.
Qed.
Lemma binomial_zero n m : (n < m)%nat -> binomial (Z.of_nat n) m = 0.
Proof.
  induction m as [|m IH]; intros H; [lia|]. cbn [binomial]. destruct (Nat.eq_dec n m) as [->|Hne].
  - rewrite Z.sub_diag. unfold Rdiv. ring.
  - rewrite IH by lia. unfold Rdiv. ring.
Qed.
Lemma binomial_m1 m : binomial (-1) m = (-1) ^ m.
Proof.
  induction m as [|m IH]; [reflexivity|]. cbn [binomial pow]. rewrite IH.
  replace (IZR (-1 - Z.of_nat m)) with (- INR (S m)).
  2:{ rewrite INR_IZR_INZ, <- opp_IZR. f_equal. lia. }
  pose proof (lt_0_INR (S m) ltac:(lia)). field. lra.
Qed.
Lemma pow_m1_Z m : powerRZ (-1) (Z.of_nat m) = (-1) ^ m.
Proof. symmetry. apply pow_powerRZ. Qed.

Lemma choose_right fuel n m : (Z.to_nat (- n) < fuel)%nat -> (-1 <= n)%Z \/ (m <= 1)%nat -> choose fuel n (Z.of_nat m) = Ok (binomial n m).
Proof.
  intros Hf H. destruct fuel as [|f]; [lia|]. cbn [choose].
  destruct (Z.eqb_spec n (-1)) as [->|H1]; [rewrite pow_m1_Z, binomial_m1; reflexivity|].
  destruct (Z.eqb_spec n 0) as [->|H2].
  { destruct (Z.eqb_spec (Z.of_nat m) 0) as [E|E]; [replace m with 0%nat by lia; reflexivity|]. f_equal. symmetry. apply (binomial_zero 0). lia. }
  destruct (Z.eqb_spec (Z.of_nat m) 0) as [E0|E0]; [replace m with 0%nat by lia; reflexivity|].
  destruct (Z.eqb_spec (Z.of_nat m) 1) as [E1|E1].
  { replace m with 1%nat by lia. cbn [binomial Z.of_nat]. rewrite Z.sub_0_r. rewrite INR_1. f_equal. field. }
  assert (Hn : (0 < n)%Z) by lia. clear H. assert (exists k, n = Z.of_nat k) as [k ->] by (exists (Z.to_nat n); lia).
  destruct (Z.ltb_spec 0 (Z.of_nat k)); [|lia]. destruct (Z.ltb_spec 0 (Z.of_nat m)); [|lia]. cbn [andb].
  destruct (Z.ltb_spec (Z.of_nat k) (Z.of_nat m)).
  { f_equal. symmetry. apply binomial_zero. lia. }
  destruct (Z.ltb_spec (Z.of_nat k) 0); [lia|]. f_equal. rewrite product_binomial by lia.
  destruct (Z.min_spec (Z.of_nat m) (Z.of_nat k - Z.of_nat m)) as [[_ ->]|[_ ->]].
  - f_equal. lia.
  - replace (Z.to_nat (Z.of_nat k - Z.of_nat m)) with (k - m)%nat by lia. apply binomial_sym. lia.
Qed.

Lemma choose_small fuel n m : (Z.to_nat (- n) < fuel)%nat -> (n <= -2)%Z -> (2 <= m)%nat -> exists v, choose fuel n (Z.of_nat m) = Ok v /\ Rabs v <= 1.
Proof.
  revert n. induction fuel as [|f IH]; intros n Hf Hn Hm; [lia|]. cbn [choose].
  destruct (Z.eqb_spec n (-1)); [lia|]. destruct (Z.eqb_spec n 0); [lia|]. destruct (Z.eqb_spec (Z.of_nat m) 0); [lia|]. destruct (Z.eqb_spec (Z.of_nat m) 1); [lia|].
  destruct (Z.ltb_spec 0 n); [lia|]. cbn [andb]. destruct (Z.ltb_spec n 0); [|lia].
  assert (Hv : exists v, choose f (n + Z.of_nat m - 1) (Z.of_nat m) = Ok v /\ Rabs v <= 1).
  { destruct (Z_le_gt_dec (n + Z.of_nat m - 1) (-2)) as [H2|H2]; [apply IH; lia|].
    exists (binomial (n + Z.of_nat m - 1) m). split; [apply choose_right; lia|].
    destruct (Z.eq_dec (n + Z.of_nat m - 1) (-1)) as [->|H3].
    - rewrite binomial_m1, pow_1_abs. lra.
    - replace (n + Z.of_nat m - 1)%Z with (Z.of_nat (Z.to_nat (n + Z.of_nat m - 1))) by lia. rewrite binomial_zero by lia. rewrite Rabs_R0. lra. }
  destruct Hv as [v [-> Hv]]. cbn [bind]. eexists. split; [reflexivity|]. rewrite Rabs_mult, pow_m1_Z, pow_1_abs, Rmult_1_r. exact Hv.
Qed.
Lemma binomial_big n m : (n <= -2)%Z -> INR m + 1 <= Rabs (binomial n m).
Proof.
  intros Hn. induction m as [|m IH]; [cbn [binomial]; rewrite Rabs_R1; simpl; lra|].
  cbn [binomial]. pose proof (pos_INR m). rewrite S_INR in *. unfold Rdiv. rewrite !Rabs_mult, (Rabs_pos_eq (/ (INR m + 1))).
  2:{ left. apply Rinv_0_lt_compat. lra. }
  assert (Hk : INR m + 2 <= Rabs (IZR (n - Z.of_nat m))).
  { rewrite <- Rabs_Ropp, <- opp_IZR. eapply Rle_trans; [|apply Rle_abs]. rewrite INR_IZR_INZ, <- plus_IZR. apply IZR_le. lia. }
  apply (Rmult_le_reg_r (INR m + 1)); [lra|]. rewrite (Rmult_assoc (_ * _)), Rinv_l, Rmult_1_r by lra.
  replace ((INR m + 1 + 1) * (INR m + 1)) with ((INR m + 1) * (INR m + 2)) by ring. apply Rmult_le_compat; lra.
Qed.
Lemma choose_wrong fuel n m : (Z.to_nat (- n) < fuel)%nat -> (n <= -2)%Z -> (2 <= m)%nat ->
  exists v, choose fuel n (Z.of_nat m) = Ok v /\ v <> binomial n m.
Proof.
  intros Hf Hn Hm. destruct (choose_small fuel n m Hf Hn Hm) as [v [E Hv]]. exists v. split; [exact E|]. intros ->.
  pose proof (binomial_big n m Hn). assert (2 <= INR m) by (apply (le_INR 2); exact Hm). lra.
Qed.

(* ---- the coefficients for n = 0 ---- *)
Definition herm (j : nat) (x : R) : R :=
  match j with
  | 1%nat => 1 | 2%nat => -2 * x | 3%nat => 4 * x ^ 2 - 2 | 4%nat => -8 * x ^ 3 + 12 * x | 5%nat => 16 * x ^ 4 - 48 * x ^ 2 + 12
  | 6%nat => -32 * x ^ 5 + 160 * x ^ 3 - 120 * x | 7%nat => 64 * x ^ 6 - 480 * x ^ 4 + 720 * x ^ 2 - 120
  | 8%nat => -128 * x ^ 7 + 1344 * x ^ 5 - 3360 * x ^ 3 + 1680 * x
  | _ => 0
  end.
Lemma lim_pow n x : derivable_pt_lim (fun y => y ^ n) x (INR n * x ^ pred n).
Proof. apply derivable_pt_lim_pow. Qed.
Lemma herm_der j x : (1 <= j <= 7)%nat -> derivable_pt_lim (fun y => herm j y * bell y) x (herm (S j) x * bell x).
Proof.
  intros H. destruct j as [|j]; [lia|]. do 7 (destruct j as [|j]; [cbn [herm];
    eapply lim_eq; [|apply lim_mul; [repeat first [exact (lim_const _ _) | apply lim_id | apply lim_pow | apply lim_scal | apply lim_minus | apply lim_plus | apply lim_mul]|apply lim_bell]];
    cbv beta; simpl; ring|]). lia.
Qed.
Lemma derivs_herm erfc d j : is_erfc erfc -> derivatives erfc d -> (1 <= j <= 8)%nat -> forall x, d j x = - (2 / sqrt PI) * (herm j x * bell x).
Proof.
  intros He [D0 D] H. induction j as [|j IH]; [lia|]. intros x. destruct j as [|j].
  - pose proof (D 0%nat x) as E. apply (lim_ext _ erfc) in E; [|exact D0]. rewrite (uniqueness_limite _ _ _ _ E (erfc_der erfc He x)). cbn [herm]. unfold bell. ring.
  - pose proof (D (S j) x) as E. apply (lim_ext _ (fun y => - (2 / sqrt PI) * (herm (S j) y * bell y))) in E; [|apply IH; lia].
    apply (uniqueness_limite _ _ _ _ E). apply lim_scal, herm_der. lia.
Qed.

Lemma Dnk_sum_ok n k X : exists s, Dnk_sum n k X = Ok s.
Proof.
  unfold Dnk_sum. assert (G : forall l s, (forall m, In m l -> (1 <= m)%nat) -> exists s', fold_left (fun acc m => bind acc (fun s =>
      bind (choose (S (S k)) (Z.of_nat m - Z.of_nat k - 1) (Z.of_nat m - 1)) (fun c =>
      Ok (s + c * (2 * X * X) ^ (k - m) / double_factorial (2 * (n + k - m) + 1))))) l (Ok s) = Ok s').
  { induction l as [|m l IH]; intros s Hl; [exists s; reflexivity|]. cbn [fold_left].
    assert (Hc : exists c, choose (S (S k)) (Z.of_nat m - Z.of_nat k - 1) (Z.of_nat m - 1) = Ok c).
    { assert (1 <= m)%nat by (apply Hl; left; reflexivity). replace (Z.of_nat m - 1)%Z with (Z.of_nat (m - 1)) by lia.
      destruct (Z_le_gt_dec (-1) (Z.of_nat m - Z.of_nat k - 1)); [eexists; apply choose_right; lia|].
      destruct (le_lt_dec (m - 1) 1); [eexists; apply choose_right; lia|].
      destruct (choose_small (S (S k)) (Z.of_nat m - Z.of_nat k - 1) (m - 1)) as [c [E _]]; try lia. exists c; exact E. }
    destruct Hc as [c ->]. cbn [bind]. apply IH. intros; apply Hl; right; assumption. }
  apply G. intros m Hm. apply in_seq in Hm. lia.
Qed.
Lemma Dnk_ok erfc n k X : exists s, Dnk erfc n k X = Ok s.
Proof.
  unfold Dnk. destruct (k =? 0)%nat; [eexists; reflexivity|]. destruct (Dnk_sum_ok n k X) as [s ->]. eexists. reflexivity.
Qed.

Lemma fact_1 : factorial 1 = 1. Proof. reflexivity. Qed.
Lemma bell_X X : exp (- X ^ 2) = bell X. Proof. unfold bell. f_equal. ring. Qed.

Ltac lits := cbn -[IZR powerRZ]; change (powerRZ (-1) 1) with ((-1) ^ 1); change (powerRZ (-1) 2) with ((-1) ^ 2); change (powerRZ (-1) 3) with ((-1) ^ 3); cbn [pow]; f_equal; lra.
Lemma D0_right erfc d X k : is_erfc erfc -> derivatives erfc d -> (k <= 3)%nat -> Dnk erfc 0 k X = Ok (d (2 * k)%nat X / INR (fact (2 * k + 1))).
Proof.
  intros He Hd Hk. pose proof sp as Hp.
  destruct k as [|[|[|[|k]]]]; [| | | |lia].
  - unfold Dnk. cbn. f_equal. rewrite (proj1 Hd). field; lra.
  - rewrite (derivs_herm erfc d _ He Hd) by (cbn; lia). unfold Dnk, Dnk_sum. cbn [seq fold_left].
    replace (choose 3 (Z.of_nat 1 - Z.of_nat 1 - 1) (Z.of_nat 1 - 1)) with (Ok 1 : res R) by reflexivity. cbn [bind Nat.eqb]. f_equal. rewrite bell_X, !fact_fold.
    cbn. field. lra.
  - rewrite (derivs_herm erfc d _ He Hd) by (cbn; lia). unfold Dnk, Dnk_sum. cbn [seq fold_left].
    replace (choose 4 (Z.of_nat 1 - Z.of_nat 2 - 1) (Z.of_nat 1 - 1)) with (Ok 1 : res R) by reflexivity.
    replace (choose 4 (Z.of_nat 2 - Z.of_nat 2 - 1) (Z.of_nat 2 - 1)) with (Ok (-1) : res R) by lits.
    cbn [bind Nat.eqb]. f_equal. rewrite bell_X, !fact_fold. cbn. field. lra.
  - rewrite (derivs_herm erfc d _ He Hd) by (cbn; lia). unfold Dnk, Dnk_sum. cbn [seq fold_left].
    replace (choose 5 (Z.of_nat 1 - Z.of_nat 3 - 1) (Z.of_nat 1 - 1)) with (Ok 1 : res R) by reflexivity.
    replace (choose 5 (Z.of_nat 2 - Z.of_nat 3 - 1) (Z.of_nat 2 - 1)) with (Ok (-2) : res R) by lits.
    replace (choose 5 (Z.of_nat 3 - Z.of_nat 3 - 1) (Z.of_nat 3 - 1)) with (Ok 1 : res R) by lits.
    cbn [bind Nat.eqb]. f_equal. rewrite bell_X, !fact_fold. cbn. field. lra.
Qed.
Lemma D0_wrong erfc d X : is_erfc erfc -> derivatives erfc d -> 0 < X -> exists v, Dnk erfc 0 4 X = Ok v /\ v <> d 8%nat X / INR (fact 9).
Proof.
  intros He Hd HX. pose proof sp as Hp. rewrite (derivs_herm erfc d 8 He Hd) by lia. unfold Dnk, Dnk_sum. cbn [seq fold_left].
  replace (choose 6 (Z.of_nat 1 - Z.of_nat 4 - 1) (Z.of_nat 1 - 1)) with (Ok 1 : res R) by reflexivity.
  replace (choose 6 (Z.of_nat 2 - Z.of_nat 4 - 1) (Z.of_nat 2 - 1)) with (Ok (-3) : res R) by lits.
  replace (choose 6 (Z.of_nat 3 - Z.of_nat 4 - 1) (Z.of_nat 3 - 1)) with (Ok 1 : res R) by lits.
  replace (choose 6 (Z.of_nat 4 - Z.of_nat 4 - 1) (Z.of_nat 4 - 1)) with (Ok (-1) : res R) by lits.
  cbn [bind Nat.eqb]. eexists. split; [reflexivity|]. rewrite bell_X, fact_fold.
  replace (INR (fact 9)) with 362880 by (rewrite !INR_fact_S; simpl; ring).
  replace (INR (fact 4)) with 24 by (simpl; ring).
  replace (double_factorial (2 * (0 + 4 - 1) + 1)) with 105 by (cbn; ring). replace (double_factorial (2 * (0 + 4 - 2) + 1)) with 15 by (cbn; ring).
  replace (double_factorial (2 * (0 + 4 - 3) + 1)) with 3 by (cbn; ring). replace (double_factorial (2 * (0 + 4 - 4) + 1)) with 1 by (cbn; ring).
  cbn [herm Nat.sub Nat.add Nat.mul pow]. replace (INR 0) with 0 by reflexivity. replace (INR 4) with 4 by (simpl; ring).
  assert (Hb : 0 < bell X) by apply exp_pos.
  match goal with |- ?l <> ?r => assert (E : r - l = bell X / sqrt PI * X * X * X / 81) by (field; lra) end.
  assert (0 < bell X / sqrt PI * X * X * X / 81).
  { apply Rdiv_lt_0_compat; [|lra]. repeat apply Rmult_lt_0_compat; try assumption. apply Rinv_0_lt_compat, Hp. }
  lra.
Qed.

(* ---- one point at the origin ---- *)
Lemma int_const c a b : a <= b -> is_int (fun _ => c) a b (c * (b - a)).
Proof.
  intros H. replace (c * (b - a)) with ((fun y => c * y) b - (fun y => c * y) a) by ring. apply (ftc (fun y => c * y)); [|exact (const_cont c)|exact H].
  intros y. eapply lim_eq; [|apply lim_scal, lim_id]. ring.
Qed.
Lemma leg_int n : is_int (leg (S n)) (-1) 1 0.
Proof.
  pose proof (pos_INR n).
  destruct n as [|n].
  - replace 0 with ((fun y => / 2 * (y * y)) 1 - (fun y => / 2 * (y * y)) (-1)) by (cbv beta; field). apply (ftc (fun y => / 2 * (y * y))); [|intros y; apply derivable_continuous_pt; eexists; apply leg_der|lra].
    intros y. eapply lim_eq; [|apply lim_scal, lim_mul; apply lim_id]. cbv beta. rewrite (leg1 y). field.
  - set (k := 2 * INR (S (S n)) + 1). assert (Hk : 0 < k) by (unfold k; rewrite !S_INR in *; lra).
    replace 0 with ((fun y => / k * (leg (S (S (S n))) y - leg (S n) y)) 1 - (fun y => / k * (leg (S (S (S n))) y - leg (S n) y)) (-1))
      by (cbv beta; rewrite Q_plus, Q_minus; ring).
    apply (ftc (fun y => / k * (leg (S (S (S n))) y - leg (S n) y))); [|intros y; apply derivable_continuous_pt; eexists; apply leg_der|lra].
    intros y. eapply lim_eq; [|apply lim_scal, lim_minus; apply leg_der]. rewrite leg_diff. unfold k in *. field. lra.
Qed.
Lemma distance_0 X t : 0 <= X -> distance X 0 t = X.
Proof. intros H. unfold distance. replace (X * X + 0 * 0 - 2 * X * 0 * t) with (X * X) by ring. apply sqrt_square, H. Qed.
Lemma int_scal c f a b v : a <= b -> is_int f a b v -> is_int (fun x => c * f x) a b (c * v).
Proof.
  intros Hab H. pose proof (SadAtom.int_lin (fun _ => 0) f a b c _ _ (int_const 0 a b Hab) H) as I. cbv beta in I.
  replace (c * v) with (0 * (b - a) + c * v) by ring. revert I. apply int_ext. intros. ring.
Qed.
Lemma short_zero eps erfc X f : 0 < eps -> forall k Phi, (0 < k)%nat -> (0 < f)%nat -> short_loop eps erfc 0 X 0 f k Phi = Ok Phi.
Proof.
  intros He k Phi Hk Hf. destruct f as [|f]; [lia|]. cbn [short_loop]. destruct (Dnk_ok erfc 0 k X) as [d0 ->]. destruct (Dnk_ok erfc 0 (k + 1) X) as [d1 ->]. cbn [bind].
  rewrite !(pow_ne_zero _) by lia. rewrite !Rmult_0_r, !Rplus_0_r. rewrite Rabs_R0.
  destruct (Rltb_spec 0 (eps * Rmax (Rabs Phi) 1)) as [_|H]; [reflexivity|]. exfalso. apply H. apply Rmult_lt_0_compat; [exact He|]. pose proof (Rmax_r (Rabs Phi) 1). lra.
Qed.
Lemma Phi_origin_r eps erfc P n X : 0 < eps -> legendre P -> 0 < X -> exists v, Phi eps erfc n X 0 = Ok v /\ multipole erfc P n X 0 v.
Proof.
  intros He HP HX. unfold Phi. destruct (Rltb_spec X 0); [lra|]. cbv beta iota. destruct (Rltb_spec 0 (4 / 10)); [|lra]. cbn [orb].
  unfold Phi_short. destruct (Rltb_spec X 0); [lra|]. cbv beta iota. destruct (Reqb_spec 0 0); [|lra]. cbn [andb].
  destruct n as [|n].
  - cbn [Nat.ltb Nat.leb Nat.eqb andb]. destruct (Reqb_spec X 0); [lra|].
    assert (E : short_loop eps erfc 0 X 0 101 0 0 = Ok (erfc X)).
    { change 101%nat with (S 100). generalize 100%nat (eq_refl : (0 <? 100)%nat = true). intros f Hf. apply Nat.ltb_lt in Hf.
      cbn [short_loop]. destruct (Dnk_ok erfc 0 (0 + 1) X) as [d1 ->]. unfold Dnk at 1. cbn [Nat.eqb bind sum].
      replace (erfc X + exp (- X ^ 2) / sqrt PI * 2 ^ (0 + 1) * X ^ (2 * 0 + 1) * 0) with (erfc X) by ring.
      replace (erfc X * 0 ^ (0 + 2 * 0) + d1 * 0 ^ (0 + 2 * (0 + 1))) with (erfc X) by (cbn; ring). rewrite Rplus_0_l.
      match goal with |- (if ?c then _ else _) = _ => destruct c end; [reflexivity|]. apply short_zero; [exact He|lia|exact Hf]. }
    rewrite E. cbn [bind]. eexists. split; [reflexivity|]. exists (erfc X / X * (1 - -1)). split.
    + generalize (int_const (erfc X / X) (-1) 1 ltac:(lra)). apply int_ext. intros t. rewrite distance_0 by lra. rewrite (proj1 (HP t)). ring.
    + cbn [Nat.add pow]. replace (INR 0) with 0 by reflexivity. field. lra.
  - cbn [Nat.ltb Nat.leb]. eexists. split; [reflexivity|]. exists 0. split; [|ring].
    generalize (int_scal (erfc X / X) (leg (S n)) (-1) 1 0 ltac:(lra) (leg_int n)). rewrite Rmult_0_r. apply int_ext. intros t.
    rewrite distance_0 by lra. rewrite (legendre_unique P HP). reflexivity.
Qed.
