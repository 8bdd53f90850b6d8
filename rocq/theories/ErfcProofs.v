(** The closed form of the code is the Legendre coefficient. *)
Require Import Reals List Arith Lra Lia ZArith Bool.
Require Import Verif.Prelude Verif.SadSpec Verif.SadWit Verif.PotSpec Verif.LegMath Verif.ShapeModel Verif.ShapeLeg Verif.ErfcModel Verif.ErfcSpec Verif.ErfcAnti.
Import ListNotations.
Open Scope R_scope.

Lemma fact_fold : forall n, factorial n = INR (fact n).
Proof.
  assert (G : forall m, fold_left (fun v k => v * INR k) (seq 2 m) 1 = INR (fact (S m))).
  { induction m as [|m IH]; [cbn; lra|]. rewrite seq_S, fold_left_app, IH. cbn [fold_left]. replace (fact (S (S m))) with (S (S m) * fact (S m))%nat by reflexivity. rewrite mult_INR. replace (2 + m)%nat with (S (S m)) by lia. ring. }
  intros n. unfold factorial. rewrite G. destruct n; [reflexivity|]. f_equal. f_equal. lia.
Qed.
Lemma INR_fact_S n : INR (fact (S n)) = (INR n + 1) * INR (fact n).
Proof. replace (fact (S n)) with (S n * fact n)%nat by reflexivity. rewrite mult_INR, S_INR. reflexivity. Qed.
Lemma INR_1 : INR 1 = 1. Proof. reflexivity. Qed.
Lemma fact_pos n : 0 < INR (fact n). Proof. apply lt_0_INR, lt_O_fact. Qed.

Lemma pow_m1_even m n : (exists k, m = n + 2 * k)%nat -> (-1) ^ m = (-1) ^ n.
Proof. intros [k ->]. rewrite pow_add, pow_1_even. ring. Qed.

(* ---- F ---- *)
Definition aa (n p : nat) : R := if (p <=? n)%nat then INR (fact (n + p)) / (INR (fact p) * INR (fact (n - p))) else 0.
Lemma aa_0 n : aa n 0 = 1.
Proof. unfold aa. cbn [Nat.leb]. rewrite Nat.add_0_r, Nat.sub_0_r. cbn [fact]. pose proof (fact_pos n). rewrite INR_1. field. lra. Qed.
Lemma aa_rec n q : aa (S (S n)) (S q) = aa n (S q) + 2 * (2 * INR (S n) + 1) * aa (S n) q.
Proof.
  unfold aa. destruct (Nat.leb_spec (S q) (S (S n))) as [H|H].
  2:{ destruct (Nat.leb_spec (S q) n); [lia|]. destruct (Nat.leb_spec q (S n)); [lia|]. ring. }
  destruct (Nat.leb_spec q (S n)); [|lia]. destruct (Nat.leb_spec (S q) n) as [H1|H1].
  - assert (exists d, n = S q + d)%nat as [d ->] by (exists (n - S q)%nat; lia).
    replace (S (S (S q + d)) + S q)%nat with (S (S (2 * q + d + 2))) by lia. replace (S (S (S q + d)) - S q)%nat with (S (S d)) by lia.
    replace (S q + d + S q)%nat with (2 * q + d + 2)%nat by lia. replace (S q + d - S q)%nat with d by lia.
    replace (S (S q + d) + q)%nat with (2 * q + d + 2)%nat by lia. replace (S (S q + d) - q)%nat with (S (S d)) by lia.
    rewrite !(INR_fact_S (S _)), (INR_fact_S d), (INR_fact_S q), (INR_fact_S (2 * q + d + 2)).
    pose proof (fact_pos q). pose proof (fact_pos d). pose proof (fact_pos (2 * q + d + 2)). pose proof (pos_INR q). pose proof (pos_INR d).
    replace (INR (S (2 * q + d + 2))) with (2 * INR q + INR d + 3) by (rewrite S_INR, !plus_INR, mult_INR; simpl; ring).
    replace (INR (2 * q + d + 2)) with (2 * INR q + INR d + 2) by (rewrite !plus_INR, mult_INR; simpl; ring).
    replace (INR (S (S q + d))) with (INR q + INR d + 2) by (rewrite S_INR, plus_INR, S_INR; ring). rewrite (S_INR d).
    field. repeat split; lra.
  - destruct (Nat.eq_dec q (S n)) as [->|Hq].
    + replace (S (S n) + S (S n))%nat with (S (S (2 * n + 2))) by lia. rewrite !Nat.sub_diag. replace (S n + S n)%nat with (2 * n + 2)%nat by lia.
      rewrite (INR_fact_S (S n)), !(INR_fact_S (S _)), (INR_fact_S (2 * n + 2)). change (fact 0) with 1%nat. rewrite INR_1.
      pose proof (fact_pos (S n)). pose proof (pos_INR n).
      replace (INR (S (2 * n + 2))) with (2 * INR n + 3) by (rewrite S_INR, !plus_INR, mult_INR; simpl; ring).
      replace (INR (2 * n + 2)) with (2 * INR n + 2) by (rewrite !plus_INR, mult_INR; simpl; ring). rewrite S_INR.
      rewrite (INR_fact_S n). pose proof (fact_pos n). field. split; lra.
    + assert (q = n) as -> by lia.
      replace (S (S n) + S n)%nat with (S (S (2 * n + 1))) by lia. replace (S (S n) - S n)%nat with 1%nat by lia. replace (S n + n)%nat with (2 * n + 1)%nat by lia.
      replace (S n - n)%nat with 1%nat by lia. change (fact 1) with 1%nat. rewrite INR_1.
      rewrite (INR_fact_S n), (INR_fact_S (S _)), (INR_fact_S (2 * n + 1)).
      pose proof (fact_pos n). pose proof (pos_INR n).
      replace (INR (S (2 * n + 1))) with (2 * INR n + 2) by (rewrite S_INR, !plus_INR, mult_INR; simpl; ring).
      replace (INR (2 * n + 1)) with (2 * INR n + 1) by (rewrite !plus_INR, mult_INR; simpl; ring). rewrite S_INR. field. lra.
Qed.

Section Code.
Variables (X x : R) (Hx : 0 < x) (HX : x <= X).
Notation Ep := (exp (- (X + x) ^ 2)).
Notation Em := (exp (- (X - x) ^ 2)).
Notation c := (- 1 / (4 * X * x)).
Notation A := (X * X + x * x).
Notation B := (X * x).

Definition ss (n p : nat) : R := (-1) ^ (n + p) * Ep - Em.
Lemma F_sum n M : (n < M)%nat -> Fn n X x = 2 / sqrt PI * sum M (fun p => c ^ (p + 1) * aa n p * ss n p).
Proof.
  intros H. unfold Fn. f_equal. replace M with (S n + (M - S n))%nat by lia. rewrite sum_split, (sum_zero' (M - S n)), Rplus_0_r.
  2:{ intros i _. unfold aa. destruct (Nat.leb_spec (S n + i) n); [lia|ring]. }
  apply sum_ext. intros p Hp. unfold aa, ss. destruct (Nat.leb_spec p n); [|lia]. rewrite !fact_fold.
  rewrite (pow_m1_even (n + p) (n - p)) by (exists p; lia). reflexivity.
Qed.
Lemma F_rec n : Fn (S (S n)) X x = Fn n X x - (2 * INR (S n) + 1) / (2 * B) * Fn (S n) X x.
Proof.
  rewrite (F_sum (S (S n)) (S (n + 2))), (F_sum n (S (n + 2))), (F_sum (S n) (n + 2)) by lia. rewrite !(sum_shift (n + 2)).
  rewrite !aa_0. rewrite (sum_ext (n + 2) (fun i => c ^ (S i + 1) * aa (S (S n)) (S i) * ss (S (S n)) (S i))
     (fun i => c ^ (S i + 1) * aa n (S i) * ss n (S i) + 2 * (2 * INR (S n) + 1) * c * (c ^ (i + 1) * aa (S n) i * ss (S n) i))).
  2:{ intros i _. rewrite aa_rec. unfold ss. rewrite (pow_m1_even (S (S n) + S i) (n + S i)) by (exists 1%nat; lia).
      rewrite (pow_m1_even (S n + i) (n + S i)) by (exists 0%nat; lia). cbn [Nat.add pow]. ring. }
  rewrite sum_plus, sum_scal. unfold ss at 1. rewrite (pow_m1_even (S (S n) + 0) (n + 0)) by (exists 1%nat; lia). fold (ss n 0).
  pose proof sp. field. lra.
Qed.

(* ---- H and the sum ---- *)
Section Erfc.
Variable (erfc : R -> R) (He : forall x, derivable_pt_lim erfc x (- (2 / sqrt PI * exp (- (x * x))))).
Definition Hv (n : nat) : R := ((X ^ (2 * n + 1) + x ^ (2 * n + 1)) * erfc (X + x) - (X ^ (2 * n + 1) - x ^ (2 * n + 1)) * erfc (X - x)) / (2 * (x * X) ^ (n + 1)).
Lemma pos_B : 0 < B. Proof. apply Rmult_lt_0_compat; lra. Qed.
Lemma H_rec n : Hv (S (S n)) = A / B * Hv (S n) - Hv n.
Proof.
  unfold Hv. replace (2 * S (S n) + 1)%nat with (4 + (2 * n + 1))%nat by lia. replace (2 * S n + 1)%nat with (2 + (2 * n + 1))%nat by lia.
  rewrite !pow_add. cbn [Nat.add pow]. pose proof pos_B. assert (0 < (x * X) ^ n) by (apply pow_lt; lra).
  set (Xn := X ^ (2 * n)). set (xn := x ^ (2 * n)). clearbody Xn xn. rewrite (Rmult_comm x X) in *. set (Bn := (X * x) ^ n) in *. clearbody Bn.
  field. repeat split; lra.
Qed.
Definition T (m : nat) : R := (X ^ m * X ^ m + x ^ m * x ^ m) / (X ^ m * x ^ m).
Lemma T_rec m : T (S (S m)) = A / B * T (S m) - T m.
Proof.
  unfold T. cbn [pow]. assert (0 < X ^ m) by (apply pow_lt; lra). assert (0 < x ^ m) by (apply pow_lt; lra).
  field. repeat split; lra.
Qed.
Lemma T_1 : T 1 = A / B. Proof. unfold T. cbn [pow]. field. lra. Qed.
Lemma T_2 : T 2 = A / B * (A / B) - 2. Proof. rewrite T_rec, T_1. unfold T. cbn [pow]. field. lra. Qed.

Definition G (n : nat) : R := Fn n X x + sum n (fun i => Fn (n - S i) X x * T (S i)) + Hv n.
Lemma G_rec n : G (S (S n)) = A / B * G (S n) - G n + Fn (S (S n)) X x - Fn n X x.
Proof.
  unfold G. rewrite H_rec. rewrite (sum_shift (S n)), (sum_shift n). rewrite (sum_shift n (fun i => Fn (S n - S i) X x * T (S i))).
  rewrite T_1, T_2.
  assert (E : sum n (fun i => Fn (S (S n) - S (S (S i))) X x * T (S (S (S i)))) = A / B * sum n (fun i => Fn (S n - S (S i)) X x * T (S (S i))) - sum n (fun i => Fn (n - S i) X x * T (S i))).
  { rewrite <- sum_scal, <- sum_minus. apply sum_ext. intros i _. cbn [Nat.sub]. rewrite (T_rec (S i)). ring. }
  rewrite E. clear E. cbn [Nat.sub]. rewrite !Nat.sub_0_r. ring.
Qed.

(* ---- the integral ---- *)
Definition dK n := K A B n (X + x) - K A B n (X - x).
Definition dA n := An erfc A B n (X + x) - An erfc A B n (X - x).
Lemma pp_plus : pp A B (X + x) = -1. Proof. unfold pp. field. lra. Qed.
Lemma pp_minus : pp A B (X - x) = 1. Proof. unfold pp. field. lra. Qed.
Lemma Q_plus n : leg (S (S n)) (-1) - leg n (-1) = 0. Proof. rewrite !leg_at_m1, !lsign_S. ring. Qed.
Lemma Q_minus n : leg (S (S n)) 1 - leg n 1 = 0. Proof. rewrite !leg_at_1. ring. Qed.
Lemma dK_rec n : dK (S (S n)) = dK n - (2 * INR (S n) + 1) / (2 * B) * dK (S n).
Proof. unfold dK. rewrite !K_rec, pp_plus, pp_minus, Q_plus, Q_minus. ring. Qed.
Lemma dA_rec n : (2 * INR (S n) + 3) * dA (S (S n)) = - (2 * INR (S n) - 1) * dA n + (2 * INR (S n) + 1) * (A / B) * dA (S n) + 2 / sqrt PI * (dK (S (S n)) - dK n).
Proof.
  pose proof (pos_INR (S n)). pose proof pos_B. pose proof sp.
  unfold dA, dK. rewrite !An_rec, pp_plus, pp_minus, Q_plus, Q_minus.
  set (N := INR (S n)) in *. field. lra.
Qed.
Lemma F_0 : Fn 0 X x = 2 / sqrt PI * (c * (Ep - Em)).
Proof. rewrite (F_sum 0 1) by lia. unfold aa, ss. cbn. f_equal. field. lra. Qed.
Lemma F_1 : Fn 1 X x = 2 / sqrt PI * (c * (- Ep - Em) + c * c * 2 * (Ep - Em)).
Proof. rewrite (F_sum 1 2) by lia. unfold aa, ss. cbn. f_equal. field. lra. Qed.
Lemma bell_p : bell (X + x) = Ep. Proof. unfold bell. f_equal. ring. Qed.
Lemma bell_m : bell (X - x) = Em. Proof. unfold bell. f_equal. ring. Qed.
Lemma F_dK n : Fn n X x = / (sqrt PI * B) * dK n /\ Fn (S n) X x = / (sqrt PI * B) * dK (S n).
Proof.
  pose proof sp. pose proof pos_B. induction n as [|n [I0 I1]].
  - split.
    + rewrite F_0. unfold dK, K. cbn [Kpair fst]. rewrite bell_p, bell_m. field. lra.
    + rewrite F_1. unfold dK, K. cbn [Kpair fst]. rewrite bell_p, bell_m. field. lra.
  - split; [exact I1|]. rewrite F_rec, dK_rec, I0, I1. field. lra.
Qed.

Lemma base0 : G 0 = 1 / (2 * B) * dA 0.
Proof.
  pose proof sp. pose proof pos_B.
  unfold G. cbn [sum]. rewrite F_0. rewrite <- bell_p, <- bell_m. unfold Hv, dA, An. cbn [Apair fst Nat.mul Nat.add pow]. field. lra.
Qed.
Lemma base1 : G 1 = 3 / (2 * B) * dA 1.
Proof.
  pose proof sp. pose proof pos_B.
  unfold G. cbn [sum Nat.sub]. rewrite F_0, F_1, T_1. rewrite <- bell_p, <- bell_m. unfold Hv, dA, An. cbn [Apair fst Nat.mul Nat.add pow]. field. lra.
Qed.
Lemma G_dA n : G n = (2 * INR n + 1) / (2 * B) * dA n /\ G (S n) = (2 * INR (S n) + 1) / (2 * B) * dA (S n).
Proof.
  pose proof sp. pose proof pos_B. induction n as [|n [I0 I1]].
  - split; [rewrite base0; simpl INR; field; lra|rewrite base1; simpl INR; field; lra].
  - split; [exact I1|]. pose proof (pos_INR n).
    replace ((2 * INR (S (S n)) + 1) / (2 * B) * dA (S (S n))) with (1 / (2 * B) * ((2 * INR (S n) + 3) * dA (S (S n)))).
    2:{ rewrite (S_INR (S n)). field. lra. }
    rewrite dA_rec, G_rec, I0, I1. rewrite (proj2 (F_dK (S n))), (proj1 (F_dK n)). rewrite S_INR. field. lra.
Qed.

Lemma general_value n : Phi_general erfc n X x = Ok (G n).
Proof.
  unfold Phi_general, Hn. destruct (Rltb_spec X x); [lra|]. cbv beta iota. destruct (Rltb_spec X x); [lra|]. reflexivity.
Qed.
Lemma An_cont n : continuity (fun u => erfc u * leg n (pp A B u)).
Proof.
  pose proof pos_B. intros u. apply derivable_continuous_pt. eexists. apply lim_mul; [apply He|apply lim_leg; assumption].
Qed.
Lemma dA_int n : is_int (fun u => erfc u * leg n (pp A B u)) (X - x) (X + x) (dA n).
Proof. pose proof pos_B. apply (ftc (An erfc A B n)); [apply (proj1 (An_der erfc He A B ltac:(assumption) n))|apply An_cont|lra]. Qed.
End Erfc.
End Code.

Lemma legendre_unique P : legendre P -> forall x n, P n x = leg n x.
Proof.
  intros H x n. assert (P n x = leg n x /\ P (S n) x = leg (S n) x) as [E _]; [|exact E].
  destruct (H x) as [H0 [H1 H2]]. induction n as [|n [I0 I1]]; [split; [exact H0|exact H1]|].
  split; [exact I1|]. specialize (H2 n). replace (n + 2)%nat with (S (S n)) in H2 by lia. replace (n + 1)%nat with (S n) in H2 by lia.
  rewrite leg_rec. rewrite I0, I1 in H2. rewrite (S_INR (S n)) in H2. pose proof (pos_INR (S n)).
  apply (Rmult_eq_reg_l (INR (S n) + 1)); [|lra]. rewrite H2. rewrite !S_INR in *. field. lra.
Qed.
Lemma legendre_leg : legendre leg.
Proof.
  intros x. split; [reflexivity|split; [reflexivity|]]. intros n. replace (n + 2)%nat with (S (S n)) by lia. replace (n + 1)%nat with (S n) by lia.
  rewrite leg_rec. pose proof (pos_INR n). rewrite !S_INR. field. lra.
Qed.

Lemma int_ext f g a b v : (forall x, f x = g x) -> is_int f a b v -> is_int g a b v.
Proof.
  intros E [pr H].
  assert (pr' : Riemann_integrable g a b).
  { intros eps. destruct (pr eps) as [phi [psi Hp]]. exists phi, psi. destruct Hp as [H1 H2]. split; [|exact H2]. intros t Ht. rewrite <- E. apply H1, Ht. }
  exists pr'. rewrite <- H. destruct (Rle_dec a b).
  - apply RiemannInt_P18; [assumption|]. intros. symmetry. apply E.
  - assert (pr2 : Riemann_integrable g b a) by (apply RiemannInt_P1; assumption). assert (pr3 : Riemann_integrable f b a) by (apply RiemannInt_P1; assumption).
    rewrite (RiemannInt_P8 pr' pr2), (RiemannInt_P8 pr pr3). f_equal. apply RiemannInt_P18; [lra|]. intros. symmetry. apply E.
Qed.

Lemma general_sym erfc n X x : Phi_general erfc n X x = Phi_general erfc n x X.
Proof.
  unfold Phi_general. destruct (Rltb_spec X x), (Rltb_spec x X); try reflexivity; [lra|]. assert (X = x) as -> by lra. reflexivity.
Qed.
Lemma multipole_dist_sym erfc P n X x v : multipole_dist erfc P n X x v -> multipole_dist erfc P n x X v.
Proof.
  intros [w [Hw Hv]]. exists w. split.
  - rewrite Rabs_minus_sym, (Rplus_comm x X). revert Hw. apply int_ext. intros d. do 2 f_equal. rewrite (Rplus_comm (x * x)). f_equal. ring.
  - rewrite Hv. f_equal. f_equal. ring.
Qed.
Lemma general_exact_ordered erfc P n X x : is_erfc erfc -> legendre P -> 0 < x <= X ->
  exists v, Phi_general erfc n X x = Ok v /\ multipole_dist erfc P n X x v.
Proof.
  intros He HP [H1 H2]. exists (G X x erfc n). split; [apply general_value; assumption|].
  exists (dA X x erfc n). split.
  - rewrite Rabs_pos_eq by lra. generalize (dA_int X x H1 H2 erfc (erfc_der erfc He) n). apply int_ext. intros u.
    rewrite (legendre_unique P HP). unfold pp. replace (2 * (X * x)) with (2 * X * x) by ring. reflexivity.
  - rewrite (proj1 (G_dA X x H1 H2 erfc (erfc_der erfc He) n)). f_equal. f_equal. ring.
Qed.
Lemma general_exact erfc P n X x : is_erfc erfc -> legendre P -> 0 < x -> 0 < X ->
  exists v, Phi_general erfc n X x = Ok v /\ multipole_dist erfc P n X x v.
Proof.
  intros He HP H1 H2. destruct (Rle_lt_dec x X) as [H|H]; [apply general_exact_ordered; try assumption; lra|].
  destruct (general_exact_ordered erfc P n x X He HP ltac:(lra)) as [v [E M]]. exists v. rewrite general_sym. split; [exact E|apply multipole_dist_sym, M].
Qed.
Lemma Phi_sym eps erfc n X x : Phi eps erfc n X x = Phi eps erfc n x X.
Proof.
  unfold Phi. destruct (Rltb_spec X x), (Rltb_spec x X); try reflexivity; [lra|]. assert (X = x) as -> by lra. reflexivity.
Qed.
Lemma Phi_branch eps erfc n X x : 4 / 10 <= Rmin X x -> 5 / 10 <= Rmax X x -> Phi eps erfc n X x = Phi_general erfc n X x.
Proof.
  assert (Go : forall X x, x <= X -> 4 / 10 <= x -> 5 / 10 <= X -> Phi eps erfc n X x = Phi_general erfc n X x).
  { clear. intros X x H1 H2 H3. unfold Phi. destruct (Rltb_spec X x); [lra|]. cbv beta iota. destruct (Rltb_spec x (4 / 10)); [lra|].
    destruct (Rltb_spec X (5 / 10)); [lra|]. reflexivity. }
  intros H1 H2. destruct (Rle_lt_dec x X) as [H|H].
  - rewrite Rmin_right in H1 by lra. rewrite Rmax_left in H2 by lra. apply Go; assumption.
  - rewrite Rmin_left in H1 by lra. rewrite Rmax_right in H2 by lra. rewrite Phi_sym, general_sym. apply Go; lra.
Qed.
Lemma Phi_exact eps erfc P n X x : is_erfc erfc -> legendre P -> 4 / 10 <= Rmin X x -> 5 / 10 <= Rmax X x ->
  exists v, Phi eps erfc n X x = Ok v /\ multipole_dist erfc P n X x v.
Proof.
  intros He HP H1 H2. rewrite Phi_branch by assumption. pose proof (Rmin_l X x). pose proof (Rmin_r X x). apply general_exact; try assumption; lra.
Qed.
