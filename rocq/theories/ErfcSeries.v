(** The coefficients of the power series for every order. *)
Require Import Reals List Arith Lra Lia ZArith Bool.
Require Import Verif.Prelude Verif.SadSpec Verif.PotSpec Verif.LegMath Verif.PotNuc Verif.ErfcModel Verif.ErfcSpec Verif.ErfcAnti Verif.ErfcProofs Verif.ErfcShort.
Import ListNotations.
Open Scope R_scope.

Lemma odds_pos n : 0 < odds n.
Proof. induction n; cbn [odds]; [lra|]. pose proof (pos_INR n). apply Rmult_lt_0_compat; lra. Qed.
Lemma evens_fact n : evens n = 2 ^ n * INR (fact n).
Proof. induction n; [simpl; ring|]. cbn [evens]. rewrite IHn, INR_fact_S, S_INR. cbn [pow]. ring. Qed.
Lemma dfact_odds n : double_factorial (2 * n + 1) = odds (S n).
Proof.
  induction n as [|n IH]; [cbn; ring|]. replace (2 * S n + 1)%nat with (S (S (2 * n + 1))) by lia. cbn [double_factorial]. rewrite IH.
  cbn [odds]. rewrite !S_INR, plus_INR, mult_INR. simpl INR. ring.
Qed.
Lemma sum_rev n f : sum n f = sum n (fun i => f (n - 1 - i)%nat).
Proof.
  induction n as [|n IH]; [reflexivity|]. rewrite (sum_shift n (fun i => f (S n - 1 - i)%nat)). cbn [sum]. rewrite IH. replace (S n - 1 - 0)%nat with n by lia.
  rewrite Rplus_comm. f_equal. apply sum_ext. intros i Hi. f_equal. lia.
Qed.

(* ---- binomials ---- *)
Lemma bin_step n i : (INR i + 1) * binomial n (S i) = (IZR n - INR i) * binomial n i.
Proof. cbn [binomial]. rewrite minus_IZR, <- INR_IZR_INZ, S_INR. pose proof (pos_INR i). field. lra. Qed.
Lemma bin_up n i : binomial (n + 1) i * (IZR n + 1 - INR i) = (IZR n + 1) * binomial n i.
Proof.
  induction i as [|i IH]; [cbn [binomial]; simpl INR; ring|]. pose proof (pos_INR i). pose proof (bin_step n i) as E1. pose proof (bin_step (n + 1) i) as E2.
  rewrite plus_IZR in E2. rewrite S_INR. apply (Rmult_eq_reg_l (INR i + 1)); [|lra].
  transitivity ((INR i + 1) * binomial (n + 1) (S i) * (IZR n + 1 - (INR i + 1))); [ring|]. rewrite E2.
  transitivity ((IZR n + 1) * ((INR i + 1) * binomial n (S i))); [|ring]. rewrite E1.
  transitivity (binomial (n + 1) i * (IZR n + 1 - INR i) * (IZR n - INR i)); [ring|]. rewrite IH. ring.
Qed.
Lemma pascal n i : binomial (n + 1) (S i) = binomial n (S i) + binomial n i.
Proof.
  pose proof (pos_INR i). pose proof (bin_step n i) as E1. pose proof (bin_step (n + 1) i) as E2. pose proof (bin_up n i) as E3. rewrite plus_IZR in E2.
  apply (Rmult_eq_reg_l (INR i + 1)); [|lra]. rewrite E2, Rmult_plus_distr_l, E1.
  replace ((IZR n + 1 - INR i) * binomial (n + 1) i) with ((IZR n + 1) * binomial n i) by lra. ring.
Qed.
Lemma bin_neg a m : binomial (- Z.of_nat a - 1) m = (-1) ^ m * binomial (Z.of_nat (a + m)) m.
Proof.
  revert a. induction m as [|m IH]; intros a; [cbn; ring|]. pose proof (pos_INR m).
  apply (Rmult_eq_reg_l (INR m + 1)); [|lra]. rewrite bin_step, IH.
  replace ((INR m + 1) * ((-1) ^ S m * binomial (Z.of_nat (a + S m)) (S m))) with (- (-1) ^ m * ((INR m + 1) * binomial (Z.of_nat (a + S m)) (S m))) by (cbn [pow]; ring).
  rewrite bin_step. pose proof (bin_up (Z.of_nat (a + m)) m) as U. replace (Z.of_nat (a + m) + 1)%Z with (Z.of_nat (a + S m)) in U by lia.
  rewrite <- !INR_IZR_INZ in *. rewrite minus_IZR, opp_IZR, <- INR_IZR_INZ. rewrite !plus_INR, S_INR in *.
  replace ((INR a + (INR m + 1) - INR m) * binomial (Z.of_nat (a + S m)) m) with ((INR a + INR m + 1) * binomial (Z.of_nat (a + m)) m) by lra. ring.
Qed.

(* ---- the polynomials ---- *)
Definition cc (K i : nat) : R := (-1) ^ (K + i) * binomial (Z.of_nat K) i.
Definition SS (n K : nat) (y : R) : R := sum (S K) (fun i => cc K i * (2 * y) ^ i / odds (S (n + i))).
Definition SS' (n K : nat) (y : R) : R := sum (S K) (fun i => cc K i * (2 * INR i * (2 * y) ^ (i - 1)) / odds (S (n + i))).
Lemma cc_top K : cc K (S K) = 0.
Proof. unfold cc. rewrite binomial_zero by lia. ring. Qed.
Lemma cc_step K i : (INR i + 1) * cc K (S i) = - (INR K - INR i) * cc K i.
Proof.
  unfold cc. pose proof (bin_step (Z.of_nat K) i) as E. rewrite <- INR_IZR_INZ in E. replace (K + S i)%nat with (S (K + i)) by lia. cbn [pow].
  transitivity (- (-1) ^ (K + i) * ((INR i + 1) * binomial (Z.of_nat K) (S i))); [ring|]. rewrite E. ring.
Qed.
Lemma cc_pascal K i : cc (S K) (S i) = - cc K (S i) + cc K i.
Proof.
  unfold cc. replace (Z.of_nat (S K)) with (Z.of_nat K + 1)%Z by lia. rewrite pascal. replace (S K + S i)%nat with (S (S (K + i))) by lia. replace (K + S i)%nat with (S (K + i)) by lia.
  cbn [pow]. ring.
Qed.
Lemma cc_0 K : cc (S K) 0 = - cc K 0.
Proof. unfold cc. cbn [binomial]. rewrite !Nat.add_0_r. cbn [pow]. ring. Qed.
Lemma lim_sum n (f g : nat -> R -> R) y : (forall i, (i < n)%nat -> derivable_pt_lim (f i) y (g i y)) -> derivable_pt_lim (fun z => sum n (fun i => f i z)) y (sum n (fun i => g i y)).
Proof.
  induction n as [|n IH]; intros H; [cbn [sum]; apply lim_const|]. cbn [sum]. apply lim_plus; [apply IH; intros; apply H; lia|apply H; lia].
Qed.
Lemma SS_der n K y : derivable_pt_lim (SS n K) y (SS' n K y).
Proof.
  unfold SS, SS'. apply (lim_sum (S K) (fun i z => cc K i * (2 * z) ^ i / odds (S (n + i))) (fun i z => cc K i * (2 * INR i * (2 * z) ^ (i - 1)) / odds (S (n + i)))).
  intros i _. pose proof (odds_pos (S (n + i))).
  apply (lim_ext (fun z => cc K i / odds (S (n + i)) * (2 * z) ^ i)); [intros; field; lra|].
  eapply lim_eq; [|apply lim_scal, (derivable_pt_lim_comp (fun z => 2 * z) (fun z => z ^ i)); [apply lim_scal, lim_id|apply derivable_pt_lim_pow]].
  rewrite <- Nat.sub_1_r. field. lra.
Qed.
(** (2n+2K+3) S_{n+1} = S_n - S_n'. *)
Lemma SS_next n K y : (2 * INR n + 2 * INR K + 3) * SS (S n) K y = SS n K y - SS' n K y.
Proof.
  assert (E : SS' n K y = sum (S K) (fun i => cc K (S i) * (2 * (INR i + 1) * (2 * y) ^ i) / odds (S (n + S i)))).
  { unfold SS'. rewrite sum_shift. change (INR 0) with 0. replace (cc K 0 * (2 * 0 * (2 * y) ^ (0 - 1)) / odds (S (n + 0))) with 0 by (unfold Rdiv; ring). rewrite Rplus_0_l.
    cbn [sum]. rewrite cc_top. match goal with |- _ = _ + ?t => replace t with 0 by (unfold Rdiv; ring) end. rewrite Rplus_0_r. apply sum_ext. intros i _. rewrite S_INR. replace (S i - 1)%nat with i by lia. reflexivity. }
  rewrite E. unfold SS. rewrite <- sum_scal, <- sum_minus. apply sum_ext. intros i _.
  replace (S n + i)%nat with (S (n + i)) by lia. replace (n + S i)%nat with (S (n + i)) by lia. set (o := odds (S (S (n + i)))).
  assert (Ho : o = (2 * INR (S (n + i)) + 1) * odds (S (n + i))) by reflexivity. pose proof (odds_pos (S (n + i))). pose proof (pos_INR (S (n + i))). pose proof (odds_pos (S (S (n + i)))) as Hp. fold o in Hp.
  pose proof (cc_step K i) as C.
  replace (cc K (S i) * (2 * (INR i + 1) * (2 * y) ^ i)) with (2 * ((INR i + 1) * cc K (S i)) * (2 * y) ^ i) by ring. rewrite C. rewrite Ho in *. clear Ho o. rewrite S_INR, plus_INR in *.
  field. split; lra.
Qed.
(** S_{0,K+1} = 2 y (2K+5) S_{2,K} - 3 S_{1,K}. *)
Lemma SS_raise K y : SS 0 (S K) y = 2 * y * (2 * INR K + 5) * SS 2 K y - 3 * SS 1 K y.
Proof.
  assert (E : 2 * y * (2 * INR K + 5) * SS 2 K y = sum (S (S K)) (fun i => match i with O => 0 | S j => (2 * INR K + 5) * cc K j * (2 * y) ^ i / odds (S (S i)) end)).
  { rewrite sum_shift, Rplus_0_l. unfold SS. rewrite <- sum_scal. apply sum_ext. intros i _. replace (S (2 + i)) with (S (S (S i))) by lia. cbn [pow]. pose proof (odds_pos (S (S (S i)))). field. lra. }
  rewrite E. replace (SS 1 K y) with (sum (S (S K)) (fun i => cc K i * (2 * y) ^ i / odds (S (1 + i)))).
  2:{ cbn [sum]. rewrite cc_top. unfold SS. cbn [sum]. unfold Rdiv at 3. ring. }
  rewrite <- sum_scal, <- sum_minus. unfold SS. apply sum_ext. intros i _. pose proof (odds_pos (S i)) as Hp. cbn [Nat.add]. pose proof (pos_INR i).
  replace (odds (S (S i))) with ((2 * INR (S i) + 1) * odds (S i)) by reflexivity. set (o := odds (S i)) in *. clearbody o. rewrite (S_INR i).
  destruct i as [|i].
  - rewrite cc_0. simpl INR. cbn [pow]. field. lra.
  - pose proof (cc_step K i) as C. rewrite cc_pascal. rewrite S_INR in *. pose proof (pos_INR i).
    assert (C2 : 2 * (INR i + 1) * cc K (S i) = - 2 * (INR K - INR i) * cc K i) by lra. set (a := cc K (S i)) in *. set (b := cc K i) in *. clearbody a b.
    apply (Rmult_eq_reg_r ((2 * (INR i + 1 + 1) + 1) * o)); [|apply Rmult_integral_contrapositive_currified; lra].
    transitivity ((- a + b) * (2 * INR i + 5) * (2 * y) ^ S i); [field; lra|]. transitivity (((2 * INR K + 5) * b - 3 * a) * (2 * y) ^ S i); [|field; lra].
    f_equal. lra.
Qed.

(* ---- the radial functions ---- *)
Section Radial.
Variables (erfc : R -> R) (He : is_erfc erfc).
Definition br (n : nat) (X : R) : R := erfc X + bell X / sqrt PI * sum n (fun j => 2 ^ (j + 1) * X ^ (2 * j + 1) / odds (S j)).
Definition hc (n k : nat) (X : R) : R :=
  match k with
  | O => odds n / X ^ (2 * n + 1) * br n X
  | S K => 2 ^ (n + K + 2) * odds (n + K + 1) / sqrt PI * (bell X * SS n K (X * X))
  end.

Lemma br_der n X : derivable_pt_lim (br n) X (- (bell X / sqrt PI * (2 ^ (n + 1) * X ^ (2 * n) / odds n))).
Proof.
  pose proof sp as Hp. set (g := fun j (X : R) => 2 ^ (j + 1) * ((2 * INR j + 1) * X ^ (2 * j)) / odds (S j)).
  unfold br. apply (lim_ext (fun X => erfc X + bell X * (/ sqrt PI * sum n (fun j => 2 ^ (j + 1) * X ^ (2 * j + 1) / odds (S j))))).
  { intros. unfold Rdiv. ring. }
  eapply lim_eq; [|apply lim_plus; [apply (erfc_der erfc He)|apply lim_mul; [apply ErfcAnti.lim_bell|apply lim_scal, (lim_sum n (fun j X => 2 ^ (j + 1) * X ^ (2 * j + 1) / odds (S j)) g)]]].
  2:{ intros i _. pose proof (odds_pos (S i)). apply (lim_ext (fun X => 2 ^ (i + 1) / odds (S i) * X ^ (2 * i + 1))); [intros; field; lra|].
      eapply lim_eq; [|apply lim_scal, derivable_pt_lim_pow]. unfold g. replace (Init.Nat.pred (2 * i + 1)) with (2 * i)%nat by lia. rewrite plus_INR, mult_INR. simpl (INR 1). simpl (INR 2). field. lra. }
  assert (T : sum n (fun j => g j X) - 2 * X * sum n (fun j => 2 ^ (j + 1) * X ^ (2 * j + 1) / odds (S j)) = 2 - 2 ^ (n + 1) * X ^ (2 * n) / odds n).
  { rewrite <- sum_scal, <- sum_minus. induction n as [|n IH]; [cbn; field|]. cbn [sum]. rewrite IH. unfold g.
    pose proof (odds_pos n). pose proof (pos_INR n). cbn [odds]. replace (2 * S n)%nat with (S (S (2 * n))) by lia. rewrite !(Nat.add_1_r). cbn [pow]. field. split; lra. }
  fold (bell X). change (exp (- (X * X))) with (bell X).
  transitivity (bell X / sqrt PI * (sum n (fun j => g j X) - 2 * X * sum n (fun j => 2 ^ (j + 1) * X ^ (2 * j + 1) / odds (S j)) - 2)); [field; lra|]. rewrite T. field. pose proof (odds_pos n). lra.
Qed.
Lemma hc_der n k X : 0 < X -> derivable_pt_lim (hc n k) X (- X * hc (S n) k X).
Proof.
  intros HX. pose proof sp as Hp. destruct k as [|K].
  - unfold hc. pose proof (odds_pos n). assert (0 < X ^ (2 * n)) by (apply pow_lt, HX).
    apply (lim_ext (fun X => odds n * (br n X / X ^ (2 * n + 1)))); [intros; unfold Rdiv; ring|].
    eapply lim_eq; [|apply lim_scal, (derivable_pt_lim_div (br n) (fun X => X ^ (2 * n + 1))); [apply br_der|apply derivable_pt_lim_pow|]].
    2:{ apply pow_nonzero. lra. }
    replace (Init.Nat.pred (2 * n + 1)) with (2 * n)%nat by lia. unfold Rsqr.
    replace (br (S n) X) with (br n X + bell X / sqrt PI * (2 ^ (n + 1) * X ^ (2 * n + 1) / odds (S n))) by (unfold br; cbn [sum]; field; split; [apply Rgt_not_eq, odds_pos|lra]).
    cbn [odds]. replace (2 * S n + 1)%nat with (S (S (S (2 * n)))) by lia. replace (2 * n + 1)%nat with (S (2 * n)) by lia. cbn [pow].
    replace (INR (S (2 * n))) with (2 * INR n + 1) by (rewrite S_INR, mult_INR; simpl INR; ring). pose proof (pos_INR n). field. repeat split; lra.
  - unfold hc. eapply lim_eq; [|apply lim_scal, lim_mul; [apply ErfcAnti.lim_bell|apply (derivable_pt_lim_comp (fun X => X * X) (SS n K)); [apply lim_mul; apply lim_id|apply SS_der]]].
    cbv beta. replace (S n + K + 2)%nat with (S (n + K + 2)) by lia. replace (S n + K + 1)%nat with (S (n + K + 1)) by lia. cbn [pow odds].
    pose proof (SS_next n K (X * X)) as E. replace (2 * INR (n + K + 1) + 1) with (2 * INR n + 2 * INR K + 3) by (rewrite !plus_INR; simpl INR; ring).
    transitivity (- X * 2 * (2 ^ (n + K + 2) * odds (n + K + 1) / sqrt PI * (bell X * (SS n K (X * X) - SS' n K (X * X))))); [field; lra|]. rewrite <- E. field. lra.
Qed.
Lemma laplace1 X : 0 < X -> hc 0 1 X = X * X * hc 2 0 X - 3 * hc 1 0 X.
Proof.
  intros HX. pose proof sp as Hp. unfold hc, br, SS, cc. cbn. field. lra.
Qed.
Lemma laplace K X : 0 < X -> hc 0 (S (S K)) X = X * X * hc 2 (S K) X - 3 * hc 1 (S K) X.
Proof.
  intros HX. pose proof sp as Hp. unfold hc. rewrite SS_raise. cbn [Nat.add]. rewrite !(Nat.add_1_r), !(Nat.add_succ_r), !Nat.add_0_r. cbn [pow odds]. rewrite !S_INR. field. lra.
Qed.
Lemma laplace_step k X : 0 < X -> hc 0 (S k) X = X * X * hc 2 k X - 3 * hc 1 k X.
Proof. destruct k; [apply laplace1|apply laplace]. Qed.

Lemma second_der h1 h2 X (first : R -> R) second : derivable_pt_lim h1 X (- X * h2) -> (forall r, 0 < r -> first r = - r * h1 r) -> 0 < X ->
  derivable_pt_lim first X second -> second = - h1 X + X * X * h2.
Proof.
  intros D E HX D2. apply (uniqueness_limite first X); [exact D2|]. apply (local_lim (fun r => - r * h1 r)).
  - exists X. split; [exact HX|]. intros y Hy. symmetry. apply E. apply Rabs_def2 in Hy. lra.
  - eapply lim_eq; [|apply lim_mul; [apply lim_opp, lim_id|exact D]]. ring.
Qed.
Lemma hc_family : radial_family (fun r => erfc r / r) hc.
Proof.
  intros X HX. pose proof sp as Hp. split; [unfold hc, br; cbn; field; lra|]. split; [intros; apply hc_der; exact HX|]. intros k.
  exists (fun r => - r * hc 1 k r), (- hc 1 k X + X * X * hc 2 k X). split; [intros; apply hc_der; assumption|]. split.
  - eapply lim_eq; [|apply lim_mul; [apply lim_opp, lim_id|apply hc_der, HX]]. cbv beta. ring.
  - rewrite laplace_step by exact HX. field. lra.
Qed.
Lemma hc_unique h : radial_family (fun r => erfc r / r) h -> forall k n X, 0 < X -> h n k X = hc n k X.
Proof.
  intros H.
  assert (Nx : forall k, (forall X, 0 < X -> h 0%nat k X = hc 0 k X) -> forall n X, 0 < X -> h n k X = hc n k X).
  { intros k H0 n. induction n as [|n IH]; [exact H0|]. intros X HX.
    apply (Rmult_eq_reg_l (- X)); [|lra]. apply (uniqueness_limite (hc n k) X); [|apply hc_der, HX].
    apply (local_lim (h n k)); [|apply (proj1 (proj2 (H X HX)))]. exists X. split; [exact HX|]. intros y Hy. apply IH. apply Rabs_def2 in Hy. lra. }
  induction k as [|k IH].
  - apply Nx. intros X HX. rewrite (proj1 (H X HX)). pose proof sp as Hp. unfold hc, br. cbn. field. lra.
  - apply Nx. intros X HX. destruct (proj2 (proj2 (H X HX)) k) as [first [second [D1 [D2 E]]]]. rewrite E, laplace_step by exact HX.
    assert (F : forall r, 0 < r -> first r = - r * h 1%nat k r) by (intros r Hr; apply (uniqueness_limite (h 0%nat k) r); [apply D1, Hr|apply (proj1 (proj2 (H r Hr)))]).
    rewrite (second_der (h 1%nat k) (h 2%nat k X) X first second (proj1 (proj2 (H X HX)) 1%nat k) F HX D2). rewrite F by exact HX. rewrite !IH by exact HX. field. lra.
Qed.

(* ---- the code ---- *)
Lemma Dsum_right n k X : (1 <= k)%nat -> (forall m, (1 <= m <= k)%nat -> choose (S (S k)) (Z.of_nat m - Z.of_nat k - 1) (Z.of_nat m - 1) = Ok (binomial (Z.of_nat m - Z.of_nat k - 1) (m - 1))) ->
  Dnk_sum n k X = Ok (SS n (k - 1) (X * X)).
Proof.
  intros Hk Hc. unfold Dnk_sum.
  assert (G : forall j, (j <= k)%nat -> fold_left (fun acc m => bind acc (fun s =>
      bind (choose (S (S k)) (Z.of_nat m - Z.of_nat k - 1) (Z.of_nat m - 1)) (fun c =>
      Ok (s + c * (2 * X * X) ^ (k - m) / double_factorial (2 * (n + k - m) + 1))))) (seq 1 j) (Ok 0)
      = Ok (sum j (fun i => binomial (Z.of_nat (S i) - Z.of_nat k - 1) i * (2 * X * X) ^ (k - S i) / double_factorial (2 * (n + k - S i) + 1)))).
  { induction j as [|j IH]; intros Hj; [reflexivity|]. rewrite seq_S, fold_left_app, IH by lia. cbn [fold_left bind]. replace (1 + j)%nat with (S j) by lia.
    rewrite Hc by lia. cbn [bind sum]. replace (S j - 1)%nat with j by lia. reflexivity. }
  rewrite G by lia. f_equal. unfold SS. replace (S (k - 1)) with k by lia. rewrite (sum_rev k (fun i => cc _ _ * _ / _)). apply sum_ext. intros i Hi.
  replace (Z.of_nat (S i) - Z.of_nat k - 1)%Z with (- Z.of_nat (k - 1 - i) - 1)%Z by lia. rewrite bin_neg. unfold cc.
  replace (k - 1 - i + i)%nat with (k - 1)%nat by lia. rewrite <- (binomial_sym (k - 1) i) by lia.
  rewrite (pow_m1_even (k - 1 + (k - 1 - i)) i) by (exists (k - 1 - i)%nat; lia). replace (2 * (n + k - S i) + 1)%nat with (2 * (n + (k - 1 - i)) + 1)%nat by lia. rewrite dfact_odds.
  replace (k - S i)%nat with (k - 1 - i)%nat by lia. replace (2 * X * X) with (2 * (X * X)) by ring. reflexivity.
Qed.
Lemma D_from_sum n k X s : (1 <= k)%nat -> Dnk_sum n k X = Ok s ->
  Dnk erfc n k X = Ok (X ^ (n + 1) * ((2 * INR n + 1) * X ^ n * (2 ^ (n + k + 1) * odds (n + k) / sqrt PI * (bell X * s)) / (evens k * odds (n + k + 1)))).
Proof.
  intros Hk Hs. pose proof sp as Hp. unfold Dnk. destruct (Nat.eqb_spec k 0); [lia|]. rewrite Hs. cbn [bind]. f_equal.
  rewrite bell_X, fact_fold, evens_fact. replace (n + k + 1)%nat with (S (n + k)) by lia. cbn [odds]. pose proof (odds_pos (n + k)). pose proof (pos_INR (n + k)). pose proof (fact_pos k).
  assert (0 < 2 ^ k) by (apply pow_lt; lra). replace (2 ^ S (n + k)) with (2 ^ (n + 1) * 2 ^ k) by (rewrite <- pow_add; f_equal; lia).
  replace (X ^ (2 * n + 1)) with (X ^ (n + 1) * X ^ n) by (rewrite <- pow_add; f_equal; lia). field. repeat split; lra.
Qed.
Lemma D_zero n X : 0 < X -> Dnk erfc n 0 X = Ok (X ^ (n + 1) * ((2 * INR n + 1) * X ^ n * hc n 0 X / (evens 0 * odds (n + 0 + 1)))).
Proof.
  intros HX. pose proof sp as Hp. unfold Dnk. cbn [Nat.eqb]. f_equal. rewrite bell_X.
  assert (E : 2 ^ (n + 1) * X ^ (2 * n + 1) * sum n (fun i => let m := S i in 1 / (double_factorial (2 * (n - m) + 1) * (2 * X * X) ^ m))
              = sum n (fun j => 2 ^ (j + 1) * X ^ (2 * j + 1) / odds (S j))).
  { rewrite (sum_rev n (fun j => 2 ^ (j + 1) * X ^ (2 * j + 1) / odds (S j))), <- sum_scal. apply sum_ext. intros i Hi. cbv zeta. rewrite dfact_odds.
    assert (exists j, n = S i + j)%nat as [j ->] by (exists (n - S i)%nat; lia).
    replace (S i + j - 1 - i)%nat with j by lia. replace (S i + j - S i)%nat with j by lia.
    replace (2 * (S i + j) + 1)%nat with (S i + S i + (2 * j + 1))%nat by lia. replace (S i + j + 1)%nat with (S i + (j + 1))%nat by lia.
    rewrite (pow_add 2 (S i)), !(pow_add X (S i + S i)), (pow_add X (S i)), !Rpow_mult_distr.
    assert (0 < X ^ S i) by (apply pow_lt, HX). assert (0 < 2 ^ S i) by (apply pow_lt; lra). pose proof (odds_pos (S j)).
    set (p := X ^ S i) in *. set (q := 2 ^ S i) in *. clearbody p q. field. repeat split; lra. }
  transitivity (br n X).
  { unfold br. rewrite <- E. unfold Rdiv. ring. }
  unfold hc. replace (n + 0 + 1)%nat with (S n) by lia. cbn [evens odds].
  pose proof (odds_pos n). pose proof (pos_INR n). assert (0 < X ^ n) by (apply pow_lt, HX). replace (2 * n + 1)%nat with (n + 1 + n)%nat by lia. rewrite !pow_add. cbn [pow].
  field. repeat split; lra.
Qed.
Lemma D_right h n k X : radial_family (fun r => erfc r / r) h -> 0 < X -> (k <= 3)%nat -> Dnk erfc n k X = Ok (X ^ (n + 1) * taylor h n k X).
Proof.
  intros Hh HX Hk. unfold taylor. rewrite (hc_unique h Hh) by exact HX. destruct k as [|K]; [apply D_zero, HX|].
  rewrite (D_from_sum n (S K) X (SS n K (X * X))); [|lia|].
  2:{ rewrite (Dsum_right n (S K) X) by (try lia; intros m Hm; replace (Z.of_nat m - 1)%Z with (Z.of_nat (m - 1)) by lia; apply choose_right; lia). replace (S K - 1)%nat with K by lia. reflexivity. }
  unfold hc. replace (n + S K + 1)%nat with (n + K + 2)%nat by lia. replace (n + S K)%nat with (n + K + 1)%nat by lia. reflexivity.
Qed.
Lemma D_wrong h n X : radial_family (fun r => erfc r / r) h -> 0 < X -> exists v, Dnk erfc n 4 X = Ok v /\ v <> X ^ (n + 1) * taylor h n 4 X.
Proof.
  intros Hh HX. pose proof sp as Hp. unfold taylor. rewrite (hc_unique h Hh) by exact HX.
  assert (Es : Dnk_sum n 4 X = Ok (SS n 3 (X * X) - 2 * (2 * (X * X)) / odds (S (n + 1)))).
  { unfold Dnk_sum. cbn [seq fold_left].
    replace (choose 6 (Z.of_nat 1 - Z.of_nat 4 - 1) (Z.of_nat 1 - 1)) with (Ok 1 : res R) by reflexivity.
    replace (choose 6 (Z.of_nat 2 - Z.of_nat 4 - 1) (Z.of_nat 2 - 1)) with (Ok (-3) : res R) by lits.
    replace (choose 6 (Z.of_nat 3 - Z.of_nat 4 - 1) (Z.of_nat 3 - 1)) with (Ok 1 : res R) by lits.
    replace (choose 6 (Z.of_nat 4 - Z.of_nat 4 - 1) (Z.of_nat 4 - 1)) with (Ok (-1) : res R) by lits.
    cbn [bind]. f_equal. rewrite !dfact_odds. unfold SS, cc. cbn [sum].
    replace (n + 4 - 1)%nat with (n + 3)%nat by lia. replace (n + 4 - 2)%nat with (n + 2)%nat by lia. replace (n + 4 - 3)%nat with (n + 1)%nat by lia. replace (n + 4 - 4)%nat with (n + 0)%nat by lia.
    pose proof (odds_pos (S (n + 0))). pose proof (odds_pos (S (n + 1))). pose proof (odds_pos (S (n + 2))). pose proof (odds_pos (S (n + 3))).
    set (o0 := odds (S (n + 0))) in *. set (o1 := odds (S (n + 1))) in *. set (o2 := odds (S (n + 2))) in *. set (o3 := odds (S (n + 3))) in *. clearbody o0 o1 o2 o3.
    cbn. field. repeat split; lra. }
  rewrite (D_from_sum n 4 X _ ltac:(lia) Es). eexists. split; [reflexivity|]. unfold hc.
  replace (n + 4 + 1)%nat with (n + 3 + 2)%nat by lia. replace (n + 4)%nat with (n + 3 + 1)%nat by lia.
  assert (Hb : 0 < bell X) by apply exp_pos. pose proof (odds_pos (n + 3 + 1)). pose proof (odds_pos (n + 3 + 2)). pose proof (odds_pos (S (n + 1))). pose proof (pos_INR n).
  assert (0 < evens 4) by (rewrite evens_fact; apply Rmult_lt_0_compat; [apply pow_lt; lra|apply fact_pos]). assert (0 < X ^ (n + 1)) by (apply pow_lt, HX). assert (0 < X ^ n) by (apply pow_lt, HX).
  assert (0 < 2 ^ (n + 3 + 2)) by (apply pow_lt; lra).
  intros E. apply Rmult_eq_reg_l in E; [|lra]. unfold Rdiv in E. apply Rmult_eq_reg_r in E; [|apply Rinv_neq_0_compat; apply Rmult_integral_contrapositive_currified; lra].
  apply Rmult_eq_reg_l in E; [|apply Rmult_integral_contrapositive_currified; lra].
  apply Rmult_eq_reg_l in E; [|apply Rmult_integral_contrapositive_currified; [apply Rmult_integral_contrapositive_currified; lra|apply Rinv_neq_0_compat; lra]].
  apply Rmult_eq_reg_l in E; [|lra]. change (4 - 1)%nat with 3%nat in E.
  assert (0 < 2 * (2 * (X * X)) * / odds (S (n + 1))) by (apply Rmult_lt_0_compat; [nra|apply Rinv_0_lt_compat; lra]). lra.
Qed.
End Radial.
