(** Slater and Gaussian orbitals are normalised. *)
Require Import Reals Lra Lia List Arith Bool ZArith FunctionalExtensionality.
Require Import Verif.Prelude Verif.SadSpec Verif.SadAtom Verif.SadWit Verif.LegMath Verif.PotModel Verif.PotSpec Verif.PotNuc Verif.PotGauss.
Import ListNotations.
Open Scope R_scope.

Definition tends (f : R -> R) (v : R) : Prop := forall e, 0 < e -> exists X0, forall X, X0 <= X -> Rabs (f X - v) < e.
Lemma tends_ext f g v : (forall x, f x = g x) -> tends f v -> tends g v.
Proof. intros E H e He. destruct (H e He) as (X & HX). exists X. intros x Hx. rewrite <- E. apply HX. exact Hx. Qed.
Lemma tends_scal c f v : tends f v -> tends (fun x => c * f x) (c * v).
Proof.
  intros H e He. assert (Hc : 0 < Rabs c + 1) by (pose proof (Rabs_pos c); lra).
  destruct (H (e / (Rabs c + 1)) ltac:(apply Rdiv_lt_0_compat; assumption)) as (X & HX). exists X. intros x Hx. specialize (HX x Hx).
  rewrite <- Rmult_minus_distr_l, Rabs_mult. pose proof (Rabs_pos c). pose proof (Rabs_pos (f x - v)).
  apply Rle_lt_trans with ((Rabs c + 1) * Rabs (f x - v)); [apply Rmult_le_compat_r; lra|].
  apply Rmult_lt_reg_l with (/ (Rabs c + 1)); [apply Rinv_0_lt_compat; exact Hc|]. rewrite <- Rmult_assoc, Rinv_l, Rmult_1_l by lra. unfold Rdiv in HX. lra.
Qed.
Lemma tends_plus f g v w : tends f v -> tends g w -> tends (fun x => f x + g x) (v + w).
Proof.
  intros H G e He. destruct (H (e / 2) ltac:(lra)) as (X & HX). destruct (G (e / 2) ltac:(lra)) as (Y & HY). exists (Rmax X Y). intros x Hx.
  specialize (HX x ltac:(pose proof (Rmax_l X Y); lra)). specialize (HY x ltac:(pose proof (Rmax_r X Y); lra)).
  replace (f x + g x - (v + w)) with ((f x - v) + (g x - w)) by ring. eapply Rle_lt_trans; [apply Rabs_triang|]. lra.
Qed.
Lemma tends_sum : forall n (f : nat -> R -> R), (forall i, (i < n)%nat -> tends (f i) 0) -> tends (fun x => sum n (fun i => f i x)) 0.
Proof.
  induction n as [|n IH]; intros f H.
  - intros e He. exists 0. intros X _. cbn [sum]. rewrite Rminus_0_r, Rabs_R0. exact He.
  - replace 0 with (0 + 0) by ring. apply (tends_plus (fun x => sum n (fun i => f i x)) (f n)); [apply IH; intros; apply H; lia|apply H; lia].
Qed.
Lemma tends_pow_exp k m : 0 < k -> tends (fun r => r ^ m * exp (- (k * r))) 0.
Proof.
  intros Hk e He. set (F := INR (fact (S m))). assert (HF : 0 < F) by apply lt_0_INR, lt_O_fact.
  assert (Hkm : 0 < k ^ S m) by (apply pow_lt; exact Hk). set (q := F / (k ^ S m * e)). assert (Hq : 0 < q) by (unfold q; apply Rdiv_lt_0_compat; [exact HF|apply Rmult_lt_0_compat; assumption]).
  exists (1 + q). intros r Hr. rewrite Rminus_0_r. pose proof (exp_pos (- (k * r))) as Ep.
  assert (Hrm : 0 < r ^ m) by (apply pow_lt; lra). rewrite Rabs_pos_eq by (apply Rmult_le_pos; lra).
  pose proof (pow_exp (S m) (k * r) ltac:(apply Rmult_le_pos; lra)) as P. fold F in P. rewrite exp_Ropp. pose proof (exp_pos (k * r)) as Ek. rewrite Rpow_mult_distr in P. replace (r ^ S m) with (r * r ^ m) in P by reflexivity.
  apply Rmult_lt_reg_r with (exp (k * r)); [exact Ek|]. rewrite Rmult_assoc, Rinv_l, Rmult_1_r by lra.
  assert (P1 : r ^ m * r * k ^ S m / F <= exp (k * r)).
  { apply Rmult_le_reg_r with F; [exact HF|]. replace (r ^ m * r * k ^ S m / F * F) with (k ^ S m * (r * r ^ m)) by (field; lra). lra. }
  apply Rlt_le_trans with (e * (r ^ m * r * k ^ S m / F)); [|apply Rmult_le_compat_l; lra].
  replace (e * (r ^ m * r * k ^ S m / F)) with (r ^ m * (r / q)) by (unfold q; field; repeat split; lra).
  rewrite <- (Rmult_1_r (r ^ m)) at 1. apply Rmult_lt_compat_l; [exact Hrm|]. apply Rmult_lt_reg_r with q; [exact Hq|]. unfold Rdiv. rewrite Rmult_assoc, Rinv_l by lra. lra.
Qed.
Lemma improper_ftc F f a L : (forall x, derivable_pt_lim F x (f x)) -> continuity f -> tends F L -> is_improper f a (L - F a).
Proof.
  intros HD HC HT e He. destruct (HT e He) as (X0 & HX). exists (Rmax X0 a). intros X Hx. exists (F X - F a). split.
  - apply ftc; [exact HD|exact HC|]. pose proof (Rmax_r X0 a). lra.
  - replace (F X - F a - (L - F a)) with (F X - L) by ring. apply HX. pose proof (Rmax_l X0 a). lra.
Qed.
Lemma improper_ext f g a v : (forall x, f x = g x) -> is_improper f a v -> is_improper g a v.
Proof. intros E H. replace g with f; [exact H|]. apply functional_extensionality. exact E. Qed.

(* ---- Slater orbitals ---- *)
Lemma fact_fold : forall n, factorial n = INR (fact n).
Proof.
  assert (G : forall m, fold_left (fun v k => v * INR k) (seq 2 m) 1 = INR (fact (S m))).
  { induction m as [|m IH]; [cbn; lra|]. rewrite seq_S, fold_left_app, IH. cbn [fold_left]. replace (fact (S (S m))) with (S (S m) * fact (S m))%nat by reflexivity. rewrite mult_INR. replace (2 + m)%nat with (S (S m)) by lia. ring. }
  intros n. unfold factorial. rewrite G. destruct n; [reflexivity|]. f_equal. f_equal. lia.
Qed.
Definition ser (n : nat) (y : R) : R := sum (S n) (fun j => y ^ j / INR (fact j)).
Lemma ser_derive n y : derivable_pt_lim (ser (S n)) y (ser n y).
Proof.
  induction n as [|n IH].
  - unfold ser. cbn [sum pow fact]. apply (lim_ext (fun y => 1 + y)); [intros; cbn; field|]. eapply lim_eq; [|apply lim_plus; [apply lim_const|apply lim_id]]. cbn. field.
  - assert (E : forall m z, ser (S m) z = ser m z + / INR (fact (S m)) * z ^ S m) by (intros m z; unfold ser; cbn [sum]; unfold Rdiv; ring).
    apply (lim_ext (fun z => ser (S n) z + / INR (fact (S (S n))) * z ^ S (S n))); [intros z; symmetry; apply E|]. rewrite (E n y).
    apply lim_plus; [exact IH|]. eapply lim_eq; [|apply lim_scal; apply (derivable_pt_lim_pow y (S (S n)))].
    replace (fact (S (S n))) with (S (S n) * fact (S n))%nat by reflexivity. rewrite mult_INR. cbn [pred]. field. split; [apply INR_fact_neq_0|apply not_0_INR; lia].
Qed.
Lemma gamma_int k n : 0 < k -> is_improper (fun r => k * ((k * r) ^ S n / INR (fact (S n)) * exp (- (k * r)))) 0 1.
Proof.
  intros Hk. set (F := fun r => - 1 * (exp (- (k * r)) * ser (S n) (k * r))).
  replace 1 with (0 - F 0).
  2: { unfold F. rewrite Rmult_0_r, Ropp_0, exp_0. unfold ser. rewrite sum_shift, sum_zero'; [cbn; field|]. intros i _. rewrite pow_ne_zero by lia. unfold Rdiv. ring. }
  assert (LE : forall x, derivable_pt_lim (fun r => exp (- (k * r))) x (exp (- (k * x)) * - k)).
  { intros x. apply (lim_exp (fun r => - (k * r))). apply lim_opp. eapply lim_eq; [|apply lim_scal, lim_id]. ring. }
  apply improper_ftc.
  - intros x. unfold F. eapply lim_eq; [|apply lim_scal, lim_mul; [apply LE|apply (derivable_pt_lim_comp (fun r => k * r) (ser (S n)) x); [apply lim_scal, lim_id|apply ser_derive]]].
    cbv beta. replace (ser (S n) (k * x)) with (ser n (k * x) + (k * x) ^ S n / INR (fact (S n))) by reflexivity. ring.
  - intros x. apply (continuity_pt_mult (fun _ => k) (fun r => (k * r) ^ S n / INR (fact (S n)) * exp (- (k * r)))); [apply const_cont|].
    apply (continuity_pt_mult (fun r => (k * r) ^ S n / INR (fact (S n))) (fun r => exp (- (k * r)))); [|apply derivable_continuous_pt; eexists; apply LE].
    apply (continuity_pt_mult (fun r => (k * r) ^ S n) (fun _ => / INR (fact (S n)))); [|apply const_cont].
    apply derivable_continuous_pt. eexists. apply (derivable_pt_lim_comp (fun r => k * r) (fun y => y ^ S n)); [apply lim_scal, lim_id|apply derivable_pt_lim_pow].
  - apply (tends_ext (fun r => sum (S (S n)) (fun j => - (k ^ j / INR (fact j)) * (r ^ j * exp (- (k * r)))))).
    + intros x. unfold F, ser. rewrite <- !sum_scal. apply sum_ext. intros i _. rewrite Rpow_mult_distr. unfold Rdiv. ring.
    + apply (tends_sum (S (S n)) (fun j r => - (k ^ j / INR (fact j)) * (r ^ j * exp (- (k * r))))). intros j _.
      replace 0 with (- (k ^ j / INR (fact j)) * 0) by ring. apply tends_scal, tends_pow_exp. exact Hk.
Qed.
Lemma Rpower_sq x y : Rpower x y * Rpower x y = Rpower x (y + y).
Proof. symmetry. apply Rpower_plus. Qed.
Lemma sto_norm l zeta : 0 < zeta -> is_improper (fun r => radial_STO r l zeta * radial_STO r l zeta * (r * r)) 0 1.
Proof.
  intros Hz. apply (improper_ext (fun r => 2 * zeta * ((2 * zeta * r) ^ S (2 * l + 1) / INR (fact (S (2 * l + 1))) * exp (- (2 * zeta * r))))); [|apply gamma_int; lra].
  intros r. unfold radial_STO. rewrite fact_fold. replace (S (2 * l + 1)) with (2 * l + 2)%nat by lia.
  set (F := INR (fact (2 * l + 2))). assert (HF : 0 < F) by apply lt_0_INR, lt_O_fact. pose proof (sqrt_sqrt F ltac:(lra)) as S2. pose proof (sqrt_lt_R0 F HF) as S0.
  set (P := Rpower (2 * zeta) (INR l + 3 / 2)). assert (EP : P * P = (2 * zeta) ^ (2 * l + 3)).
  { unfold P. rewrite Rpower_sq. rewrite <- Rpower_pow by lra. f_equal. rewrite plus_INR, mult_INR. cbn [INR]. lra. }
  set (X := exp (- zeta * r)). assert (EX : X * X = exp (- (2 * zeta * r))). { unfold X. rewrite <- exp_plus. f_equal. ring. }
  replace (P / sqrt F * r ^ l * X * (P / sqrt F * r ^ l * X) * (r * r)) with ((P * P) * (X * X) / (sqrt F * sqrt F) * (r ^ l * r ^ l * (r * r))) by (field; lra).
  rewrite EP, EX, S2. rewrite Rpow_mult_distr. replace (2 * l + 3)%nat with (S (2 * l + 2)) by lia. replace (r ^ (2 * l + 2)) with (r ^ l * r ^ l * (r * r)).
  2: { replace (2 * l + 2)%nat with (l + l + 2)%nat by lia. rewrite !pow_add. ring. }
  cbn [pow]. field. lra.
Qed.

(* ---- Gaussian orbitals ---- *)
Section GTO.
Variables (erf : R -> R) (He : is_erf erf).
Lemma lim_bell2 b x : derivable_pt_lim (fun r => exp (- (b * (r * r)))) x (exp (- (b * (x * x))) * (- (2 * b * x))).
Proof. apply (lim_exp (fun r => - (b * (r * r)))). apply lim_opp. eapply lim_eq; [|apply lim_scal, lim_mul; apply lim_id]. cbv beta. ring. Qed.
Fixpoint anti (b : R) (n : nat) (r : R) : R :=
  match n with
  | O => sqrt PI / (2 * sqrt b) * erf (sqrt b * r)
  | S m => INR (2 * m + 1) / (2 * b) * anti b m r + - / (2 * b) * (r ^ (2 * m + 1) * exp (- (b * (r * r))))
  end.
Fixpoint total (b : R) (n : nat) : R :=
  match n with O => sqrt PI / (2 * sqrt b) | S m => INR (2 * m + 1) / (2 * b) * total b m end.
Lemma anti_derive b n x : 0 < b -> derivable_pt_lim (anti b n) x (x ^ (2 * n) * exp (- (b * (x * x)))).
Proof.
  intros Hb. induction n as [|n IH].
  - cbn [anti]. pose proof (sqrt_lt_R0 b Hb) as S0. pose proof (sqrt_sqrt b ltac:(lra)) as S2. pose proof sqrtpi.
    eapply lim_eq; [|apply lim_scal, (derivable_pt_lim_comp (fun r => sqrt b * r) erf x); [apply lim_scal, lim_id|apply He]].
    replace (sqrt b * x * (sqrt b * x)) with (b * (x * x)) by (replace (sqrt b * x * (sqrt b * x)) with (sqrt b * sqrt b * (x * x)) by ring; rewrite S2; reflexivity). cbn [pow Nat.mul Nat.add]. field. split; lra.
  - cbn [anti]. eapply lim_eq; [|apply lim_plus; [apply lim_scal, IH|apply lim_scal, lim_mul; [apply derivable_pt_lim_pow|apply lim_bell2]]].
    replace (pred (2 * n + 1)) with (2 * n)%nat by lia. replace (2 * S n)%nat with (S (2 * n + 1)) by lia. replace (2 * n + 1)%nat with (S (2 * n)) by lia. cbn [pow]. field. lra.
Qed.
Lemma anti_tends b n : 0 < b -> tends (anti b n) (total b n).
Proof.
  intros Hb. induction n as [|n IH]; cbn [anti total].
  - pose proof (sqrt_lt_R0 b Hb) as S0. set (q := sqrt PI / (2 * sqrt b)). change (tends (fun r => q * erf (sqrt b * r)) q). clearbody q. enough (T1 : tends (fun r => erf (sqrt b * r)) 1) by (apply (tends_scal q) in T1; rewrite Rmult_1_r in T1; exact T1).
    intros e H. destruct He as (_ & _ & L). destruct (L e H) as (X & HX). exists (X / sqrt b). intros r Hr. apply HX.
    apply Rmult_le_compat_l with (r := sqrt b) in Hr; [|lra]. replace (sqrt b * (X / sqrt b)) with X in Hr by (field; lra). exact Hr.
  - replace (INR (2 * n + 1) / (2 * b) * total b n) with (INR (2 * n + 1) / (2 * b) * total b n + - / (2 * b) * 0) by ring.
    apply (tends_plus (fun r => INR (2 * n + 1) / (2 * b) * anti b n r) (fun r => - / (2 * b) * (r ^ (2 * n + 1) * exp (- (b * (r * r)))))); [apply tends_scal, IH|apply tends_scal].
    intros e H. destruct (tends_pow_exp b (2 * n + 1) Hb e H) as (X & HX). exists (Rmax 1 X). intros r Hr. pose proof (Rmax_l 1 X). pose proof (Rmax_r 1 X).
    specialize (HX r ltac:(lra)). rewrite Rminus_0_r in *. assert (Hp : 0 < r ^ (2 * n + 1)) by (apply pow_lt; lra).
    assert (exp (- (b * (r * r))) <= exp (- (b * r))) by (apply exp_le; assert (b * r <= b * (r * r)) by (apply Rmult_le_compat_l; nra); lra). pose proof (exp_pos (- (b * (r * r)))).
    pose proof (exp_pos (- (b * r))). rewrite Rabs_pos_eq in HX by (apply Rmult_le_pos; lra). rewrite Rabs_pos_eq by (apply Rmult_le_pos; lra). eapply Rle_lt_trans; [|exact HX]. apply Rmult_le_compat_l; lra.
Qed.
Lemma bell_int b n : 0 < b -> is_improper (fun r => r ^ (2 * n) * exp (- (b * (r * r)))) 0 (total b n).
Proof.
  intros Hb. replace (total b n) with (total b n - anti b n 0).
  2: { assert (A0 : anti b n 0 = 0); [|rewrite A0; ring]. induction n as [|n IH]; cbn [anti]; [rewrite Rmult_0_r, (proj1 He); ring|]. rewrite IH, pow_ne_zero by lia. ring. }
  apply improper_ftc; [intros x; apply anti_derive; exact Hb| |apply anti_tends; exact Hb].
  intros x. apply derivable_continuous_pt. eexists. apply lim_mul; [apply derivable_pt_lim_pow|apply lim_bell2].
Qed.
Lemma df_S n : double_factorial (2 * S n + 1) = INR (2 * n + 3) * double_factorial (2 * n + 1).
Proof. replace (2 * S n + 1)%nat with (S (S (2 * n + 1))) by lia. cbn [double_factorial]. f_equal. f_equal. lia. Qed.
Lemma df_pos n : 0 < double_factorial (2 * n + 1).
Proof. induction n as [|n IH]; [cbn; lra|]. rewrite df_S. apply Rmult_lt_0_compat; [apply lt_0_INR; lia|exact IH]. Qed.
Lemma total_df b l : 0 < b -> total b (S l) = double_factorial (2 * l + 1) * sqrt PI / (2 ^ (l + 2) * b ^ (l + 1) * sqrt b).
Proof.
  intros Hb. pose proof (sqrt_lt_R0 b Hb) as S0. induction l as [|l IH].
  - cbn. field. split; lra.
  - change (total b (S (S l))) with (INR (2 * S l + 1) / (2 * b) * total b (S l)). rewrite IH, df_S. replace (2 * S l + 1)%nat with (2 * l + 3)%nat by lia.
    replace (S l + 2)%nat with (S (l + 2)) by lia. replace (S l + 1)%nat with (S (l + 1)) by lia. cbn [pow]. field. repeat split; try lra; apply pow_nonzero; lra.
Qed.
Lemma gto_norm l alpha : 0 < alpha -> is_improper (fun r => radial_GTO r l alpha * radial_GTO r l alpha * (r * r)) 0 1.
Proof.
  intros Ha. set (b := 2 * alpha). assert (Hb : 0 < b) by (unfold b; lra).
  set (c := / total b (S l)). pose proof (total_df b l Hb) as ET. pose proof (df_pos l) as HD. pose proof (sqrt_lt_R0 b Hb) as Sb. pose proof sqrtpi as SP.
  assert (HT : 0 < total b (S l)). { rewrite ET. apply Rdiv_lt_0_compat; [apply Rmult_lt_0_compat; assumption|]. repeat apply Rmult_lt_0_compat; try assumption; apply pow_lt; lra. }
  assert (I := bell_int b (S l) Hb).
  apply (improper_ext (fun r => c * (r ^ (2 * S l) * exp (- (b * (r * r)))))).
  - intros r. unfold radial_GTO. set (D := double_factorial (2 * l + 1)) in *. pose proof (sqrt_sqrt D ltac:(lra)) as SD2. pose proof (sqrt_lt_R0 D HD) as SD.
    set (P := Rpower alpha (INR (2 * l + 3) / 4)). set (Q := Rpower (2 * PI) (1 / 4)). set (X := exp (- alpha * r * r)).
    assert (EX : X * X = exp (- (b * (r * r)))) by (unfold X, b; rewrite <- exp_plus; f_equal; ring).
    assert (EQ : Q * Q = sqrt 2 * sqrt PI).
    { unfold Q. rewrite Rpower_sq. replace (1 / 4 + 1 / 4) with (/ 2) by field. pose proof PI_RGT_0. rewrite Rpower_sqrt by lra. apply sqrt_mult; lra. }
    assert (EP : P * P = alpha ^ (l + 1) * sqrt alpha).
    { unfold P. rewrite Rpower_sq. replace (INR (2 * l + 3) / 4 + INR (2 * l + 3) / 4) with (INR (l + 1) + / 2).
      - rewrite Rpower_plus, Rpower_pow, Rpower_sqrt by lra. reflexivity.
      - rewrite !plus_INR, mult_INR. cbn [INR]. field. }
    assert (HQ : 0 < Q) by (unfold Q, Rpower; apply exp_pos).
    replace (2 ^ (l + 2) * P * r ^ l * X / (Q * sqrt D) * (2 ^ (l + 2) * P * r ^ l * X / (Q * sqrt D)) * (r * r))
      with (2 ^ (l + 2) * 2 ^ (l + 2) * (P * P) * (X * X) / ((Q * Q) * (sqrt D * sqrt D)) * (r ^ l * r ^ l * (r * r))) by (field; split; lra).
    rewrite EX, EP, EQ, SD2. unfold c. rewrite ET.
    replace (r ^ (2 * S l)) with (r ^ l * r ^ l * (r * r)). 2: { replace (2 * S l)%nat with (l + l + 2)%nat by lia. rewrite !pow_add. ring. }
    unfold b at 1 2. rewrite Rpow_mult_distr, sqrt_mult by lra. pose proof (sqrt_lt_R0 2 ltac:(lra)) as S2. pose proof (sqrt_sqrt 2 ltac:(lra)) as S22. pose proof (sqrt_lt_R0 alpha Ha) as SA.
    replace (2 ^ (l + 2)) with (2 * 2 ^ (l + 1)) by (replace (l + 2)%nat with (S (l + 1)) by lia; reflexivity).
    assert (P1 : 0 < 2 ^ (l + 1)) by (apply pow_lt; lra). assert (P2 : 0 < alpha ^ (l + 1)) by (apply pow_lt; lra).
    set (w := 2 ^ (l + 1)) in *. set (v := alpha ^ (l + 1)) in *. set (E := exp (- (b * (r * r)))).
    transitivity (w * w * v * sqrt alpha * E * (r ^ l * r ^ l * (r * r)) / (sqrt PI * D) * (2 * sqrt 2)); [field; repeat split; lra|].
    transitivity (w * w * v * sqrt alpha * E * (r ^ l * r ^ l * (r * r)) / (sqrt PI * D) * (2 * (sqrt 2 * sqrt 2) / sqrt 2)); [field; repeat split; lra|].
    rewrite S22. field. repeat split; lra.
  - intros e H. destruct (I (e * total b (S l)) ltac:(apply Rmult_lt_0_compat; assumption)) as (X0 & HX). exists X0. intros X Hx. destruct (HX X Hx) as (w & Hw & B). exists (c * w). split.
    + replace (c * w) with (w + (c - 1) * w) by ring. pose proof (int_lin _ _ 0 X (c - 1) w w Hw Hw) as L.
      match type of L with is_int ?f _ _ _ => replace (fun r => c * (r ^ (2 * S l) * exp (- (b * (r * r))))) with f by (apply functional_extensionality; intros; ring) end. exact L.
    + unfold c. replace (/ total b (S l) * w - 1) with (/ total b (S l) * (w - total b (S l))) by (field; lra). rewrite Rabs_mult, Rabs_pos_eq by (left; apply Rinv_0_lt_compat; exact HT).
      apply Rmult_lt_reg_l with (total b (S l)); [exact HT|]. rewrite <- Rmult_assoc, Rinv_r, Rmult_1_l by lra. lra.
Qed.
End GTO.
