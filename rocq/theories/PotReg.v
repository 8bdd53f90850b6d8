(** The regularized nucleus: the potential belongs to an explicit ground state, and the short
    range expansion is that of the closed form. *)
Require Import Reals Lra Lia List Arith Bool ZArith.
Require Import Verif.Prelude Verif.SadSpec Verif.SadAtom Verif.SadWit Verif.LegMath Verif.TabModel Verif.PotModel Verif.PotSpec Verif.PotNuc Verif.PotGauss.
Import ListNotations.
Open Scope R_scope.

Section Reg.
Variables (erf : R -> R) (He : is_erf erf).

(* ---- the eigenfunction ---- *)
Lemma phi_derive a b x : derivable_pt_lim (phi erf a b) x
  (phi erf a b x * (- erf (a * x) - x * (2 / sqrt PI * exp (- (a * x) ^ 2) * a) - b * (- 2 * a * a * x * exp (- (a * x) ^ 2)))).
Proof.
  unfold phi. cbv zeta.
  apply (lim_ext (fun r => / sqrt PI * exp (- 1 * (r * erf (a * r)) - b * exp (- (a * r) ^ 2)))).
  { intros y. unfold Rdiv. rewrite Rmult_comm. f_equal. f_equal. ring. }
  eapply lim_eq; [|apply lim_scal, (lim_exp (fun r => - 1 * (r * erf (a * r)) - b * exp (- (a * r) ^ 2))); apply lim_minus; [apply lim_scal, lim_mul; [apply lim_id|apply lim_erf; exact He]|apply lim_scal, lim_bell]].
  cbv beta. replace (- 1 * (x * erf (a * x)) - b * exp (- (a * x) ^ 2)) with (- x * erf (a * x) - b * exp (- (a * x) ^ 2)) by ring. pose proof sqrtpi. field. lra.
Qed.
Lemma wave_slopes a b r : exists u1 u2, slopes (fun r => r * phi erf a b r) r u1 u2 /\
  (0 < r -> - / 2 * u2 + V_analytic erf a b r * (r * phi erf a b r) = - / 2 * (r * phi erf a b r)).
Proof.
  set (h1 := fun x => - erf (a * x) - x * (2 / sqrt PI * exp (- (a * x) ^ 2) * a) - b * (- 2 * a * a * x * exp (- (a * x) ^ 2))).
  set (h2 := fun x => - (2 / sqrt PI * exp (- (a * x) ^ 2) * a) - 2 / sqrt PI * a * (exp (- (a * x) ^ 2) + x * (- 2 * a * a * x * exp (- (a * x) ^ 2)))
                      + 2 * a * a * b * (exp (- (a * x) ^ 2) + x * (- 2 * a * a * x * exp (- (a * x) ^ 2)))).
  assert (D1 : forall x, derivable_pt_lim h1 x (h2 x)).
  { intros x. apply (lim_ext (fun x => - 1 * erf (a * x) - 2 / sqrt PI * a * (x * exp (- (a * x) ^ 2)) + 2 * a * a * b * (x * exp (- (a * x) ^ 2)))).
    { intros y. unfold h1. ring. }
    eapply lim_eq; [|apply lim_plus; [apply lim_minus; [apply lim_scal, lim_erf; exact He|apply lim_scal, lim_mul; [apply lim_id|apply lim_bell]]|apply lim_scal, lim_mul; [apply lim_id|apply lim_bell]]].
    cbv beta. unfold h2. ring. }
  set (d := fun x => phi erf a b x * (1 + x * h1 x)).
  exists (d r). exists (phi erf a b r * (2 * h1 r + r * h2 r + r * (h1 r * h1 r))). split.
  - exists d. exists 1. split; [lra|]. split; [|split; [reflexivity|]].
    + intros s _. eapply lim_eq; [|apply lim_mul; [apply lim_id|apply phi_derive]]. cbv beta. unfold d, h1. ring.
    + unfold d. eapply lim_eq; [|apply lim_mul; [apply phi_derive|apply lim_plus; [apply lim_const|apply lim_mul; [apply lim_id|apply D1]]]].
      cbv beta. fold (h1 r). ring.
  - intros Hr.
    assert (E : V_analytic erf a b r = / 2 * (h2 r + h1 r * h1 r + 2 * h1 r / r) - / 2).
    { unfold V_analytic, h1, h2. cbv zeta. replace (exp (r * r * (a * a))) with (/ exp (- (a * r) ^ 2)).
      2: { rewrite <- exp_Ropp. f_equal. ring. }
      pose proof (exp_pos (- (a * r) ^ 2)) as Ep. set (E := exp (- (a * r) ^ 2)) in *. set (e := erf (a * r)).
      pose proof sqrtpi as HP. pose proof sqrtpi2 as HP2. set (p := sqrt PI) in *. clearbody p E e. rewrite <- HP2. field. repeat split; lra. }
    rewrite E. field. lra.
Qed.
Lemma scaled_slopes Z u r u1 u2 : 0 < Z -> slopes u (Z * r) u1 u2 -> slopes (fun s => u (Z * s)) r (Z * u1) (Z ^ 2 * u2).
Proof.
  intros HZ (d & e & He0 & H1 & H2 & H3). exists (fun s => Z * d (Z * s)). exists (e / Z). split; [apply Rdiv_lt_0_compat; assumption|].
  split; [|split; [rewrite H2; reflexivity|]].
  - intros s Hs. eapply lim_eq; [|apply (derivable_pt_lim_comp (fun s => Z * s) u s); [apply lim_scal, lim_id|apply H1]]; [cbv beta; ring|].
    replace (Z * s - Z * r) with (Z * (s - r)) by ring. rewrite Rabs_mult, (Rabs_pos_eq Z) by lra.
    apply Rmult_lt_reg_r with (/ Z); [apply Rinv_0_lt_compat; exact HZ|]. replace (Z * Rabs (s - r) * / Z) with (Rabs (s - r)) by (field; lra). exact Hs.
  - eapply lim_eq; [|apply lim_scal, (derivable_pt_lim_comp (fun s => Z * s) d r); [apply lim_scal, lim_id|exact H3]]. cbn [pow]. ring.
Qed.
Lemma regularized_ground eps Z a b r : 0 < Z -> 0 < r -> cbrt eps < Z * r ->
  exists u1 u2, slopes (fun s => Z * s * phi erf a b (Z * s)) r u1 u2 /\
    - / 2 * u2 + V_regularized eps erf Z a b r * (Z * r * phi erf a b (Z * r)) = - Z ^ 2 / 2 * (Z * r * phi erf a b (Z * r)).
Proof.
  intros HZ Hr Hc. destruct (wave_slopes a b (Z * r)) as (u1 & u2 & S & E). exists (Z * u1), (Z ^ 2 * u2).
  split; [exact (scaled_slopes Z (fun r => r * phi erf a b r) r u1 u2 HZ S)|]. unfold V_regularized. cbv zeta. destruct (Rleb_spec (Z * r) (cbrt eps)); [lra|].
  assert (Hzr : 0 < Z * r) by (apply Rmult_lt_0_compat; assumption). specialize (E Hzr). apply (f_equal (fun v => Z ^ 2 * v)) in E. lra.
Qed.
Lemma phi_pos a b r : 0 < phi erf a b r.
Proof. unfold phi. cbv zeta. apply Rdiv_lt_0_compat; [apply exp_pos|apply sqrtpi]. Qed.

(* ---- even expansions to sixth order ---- *)
Definition near (f : R -> R) (c0 c1 c2 c3 : R) : Prop :=
  exists C, 0 <= C /\ forall r, 0 < r <= 1 -> let T := r * r in Rabs (f r - (c0 + T * (c1 + T * (c2 + T * c3)))) <= C * (T * T * T * T).
Lemma sq_unit r : 0 < r <= 1 -> 0 <= r * r <= 1.
Proof. intros. nra. Qed.
Lemma near_const c : near (fun _ => c) c 0 0 0.
Proof. exists 0. split; [lra|]. intros r _. cbv zeta. replace (_ - _) with 0 by ring. rewrite Rabs_R0. lra. Qed.
Lemma near_sq : near (fun r => r * r) 0 1 0 0.
Proof. exists 0. split; [lra|]. intros r _. cbv zeta. replace (_ - _) with 0 by ring. rewrite Rabs_R0. lra. Qed.
Lemma near_add f g c0 c1 c2 c3 d0 d1 d2 d3 : near f c0 c1 c2 c3 -> near g d0 d1 d2 d3 -> near (fun r => f r + g r) (c0 + d0) (c1 + d1) (c2 + d2) (c3 + d3).
Proof.
  intros (C & HC & HF) (D & HD & HG). exists (C + D). split; [lra|]. intros r Hr T. specialize (HF r Hr). specialize (HG r Hr). cbv zeta in HF, HG. fold T in HF, HG.
  replace (_ - _) with ((f r - (c0 + T * (c1 + T * (c2 + T * c3)))) + (g r - (d0 + T * (d1 + T * (d2 + T * d3))))) by ring.
  eapply Rle_trans; [apply Rabs_triang|]. lra.
Qed.
Lemma near_scal k f c0 c1 c2 c3 : near f c0 c1 c2 c3 -> near (fun r => k * f r) (k * c0) (k * c1) (k * c2) (k * c3).
Proof.
  intros (C & HC & HF). exists (Rabs k * C). split; [apply Rmult_le_pos; [apply Rabs_pos|exact HC]|]. intros r Hr T. specialize (HF r Hr). cbv zeta in HF. fold T in HF.
  replace (_ - _) with (k * (f r - (c0 + T * (c1 + T * (c2 + T * c3))))) by ring. rewrite Rabs_mult, Rmult_assoc. apply Rmult_le_compat_l; [apply Rabs_pos|exact HF].
Qed.
Lemma poly_bound c0 c1 c2 c3 T : 0 <= T <= 1 -> Rabs (c0 + T * (c1 + T * (c2 + T * c3))) <= Rabs c0 + Rabs c1 + Rabs c2 + Rabs c3.
Proof.
  intros HT. assert (G : forall a b, Rabs (a + T * b) <= Rabs a + Rabs b).
  { intros a b. eapply Rle_trans; [apply Rabs_triang|]. rewrite Rabs_mult, (Rabs_pos_eq T) by lra. pose proof (Rabs_pos b). nra. }
  eapply Rle_trans; [apply G|]. pose proof (G c1 (c2 + T * c3)). pose proof (G c2 c3). lra.
Qed.
Lemma near_mul f g c0 c1 c2 c3 d0 d1 d2 d3 : near f c0 c1 c2 c3 -> near g d0 d1 d2 d3 ->
  near (fun r => f r * g r) (c0 * d0) (c0 * d1 + c1 * d0) (c0 * d2 + c1 * d1 + c2 * d0) (c0 * d3 + c1 * d2 + c2 * d1 + c3 * d0).
Proof.
  intros (C & HC & HF) (D & HD & HG).
  set (A := Rabs c0 + Rabs c1 + Rabs c2 + Rabs c3). set (B := Rabs d0 + Rabs d1 + Rabs d2 + Rabs d3).
  set (K := Rabs (c1 * d3 + c2 * d2 + c3 * d1) + Rabs (c2 * d3 + c3 * d2) + Rabs (c3 * d3) + Rabs 0).
  assert (HA : 0 <= A) by (unfold A; pose proof (Rabs_pos c0); pose proof (Rabs_pos c1); pose proof (Rabs_pos c2); pose proof (Rabs_pos c3); lra).
  assert (HB : 0 <= B) by (unfold B; pose proof (Rabs_pos d0); pose proof (Rabs_pos d1); pose proof (Rabs_pos d2); pose proof (Rabs_pos d3); lra).
  assert (HK : 0 <= K) by (unfold K; pose proof (Rabs_pos (c1 * d3 + c2 * d2 + c3 * d1)); pose proof (Rabs_pos (c2 * d3 + c3 * d2)); pose proof (Rabs_pos (c3 * d3)); pose proof (Rabs_pos 0); lra).
  exists (K + A * D + B * C + C * D). split.
  { assert (0 <= A * D) by (apply Rmult_le_pos; assumption). assert (0 <= B * C) by (apply Rmult_le_pos; assumption). assert (0 <= C * D) by (apply Rmult_le_pos; assumption). lra. }
  intros r Hr T. pose proof (sq_unit r Hr) as HT. specialize (HF r Hr). specialize (HG r Hr). cbv zeta in HF, HG. fold T in HF, HG, HT.
  pose proof (poly_bound c0 c1 c2 c3 T HT) as PA. pose proof (poly_bound d0 d1 d2 d3 T HT) as PB. fold A in PA. fold B in PB.
  pose proof (poly_bound (c1 * d3 + c2 * d2 + c3 * d1) (c2 * d3 + c3 * d2) (c3 * d3) 0 T HT) as PK. fold K in PK.
  set (P := c0 + T * (c1 + T * (c2 + T * c3))) in *. set (Q := d0 + T * (d1 + T * (d2 + T * d3))) in *.
  set (W := c1 * d3 + c2 * d2 + c3 * d1 + T * (c2 * d3 + c3 * d2 + T * (c3 * d3 + T * 0))) in *.
  set (df := f r - P) in *. set (dg := g r - Q) in *. set (U := T * T * T * T) in *.
  assert (HU : 0 <= U <= 1). { assert (0 <= T * T <= 1) by nra. unfold U. replace (T * T * T * T) with (T * T * (T * T)) by ring. nra. }
  match goal with |- Rabs ?x <= _ => replace x with (U * W + P * dg + Q * df + df * dg) by (unfold U, W, P, Q, df, dg, P, Q; ring) end.
  eapply Rle_trans; [apply Rabs_triang|]. eapply Rle_trans; [apply Rplus_le_compat_r, Rabs_triang|]. eapply Rle_trans; [apply Rplus_le_compat_r, Rplus_le_compat_r, Rabs_triang|].
  rewrite !Rabs_mult, (Rabs_pos_eq U) by lra.
  assert (B1 : U * Rabs W <= K * U) by nra.
  assert (B2 : Rabs P * Rabs dg <= A * (D * U)) by (apply Rmult_le_compat; try apply Rabs_pos; assumption).
  assert (B3 : Rabs Q * Rabs df <= B * (C * U)) by (apply Rmult_le_compat; try apply Rabs_pos; assumption).
  assert (B4 : Rabs df * Rabs dg <= C * U * (D * U)) by (apply Rmult_le_compat; try apply Rabs_pos; assumption).
  assert (B5 : C * U * (D * U) <= C * D * U). { replace (C * U * (D * U)) with (C * D * U * U) by ring. rewrite <- (Rmult_1_r (C * D * U)) at 2. apply Rmult_le_compat_l; [|lra]. apply Rmult_le_pos; [apply Rmult_le_pos; assumption|lra]. }
  lra.
Qed.
Lemma near_ext f g c0 c1 c2 c3 : (forall r, 0 < r <= 1 -> f r = g r) -> near f c0 c1 c2 c3 -> near g c0 c1 c2 c3.
Proof. intros E (C & HC & HF). exists C. split; [exact HC|]. intros r Hr. rewrite <- E by exact Hr. apply HF. exact Hr. Qed.
Lemma near_eq f c0 c1 c2 c3 d0 d1 d2 d3 : near f c0 c1 c2 c3 -> c0 = d0 -> c1 = d1 -> c2 = d2 -> c3 = d3 -> near f d0 d1 d2 d3.
Proof. intros H -> -> -> ->. exact H. Qed.

Lemma near_bell a : near (fun r => exp (- (a * r) ^ 2)) 1 (- a ^ 2) (a ^ 4 / 2) (- a ^ 6 / 6).
Proof.
  exists ((a * a * a * a) * (a * a * a * a) / 24). split.
  { assert (0 <= a * a * a * a) by (replace (a * a * a * a) with ((a * a) * (a * a)) by ring; nra). nra. }
  intros r Hr T. set (y := (a * r) ^ 2). assert (Hy : 0 <= y) by (unfold y; apply pow2_ge_0). pose proof (exp_neg3 y Hy) as L. pose proof (exp_neg4 y Hy) as U.
  assert (Ey : y = a * a * T) by (unfold y, T; ring).
  replace (1 + T * (- a ^ 2 + T * (a ^ 4 / 2 + T * (- a ^ 6 / 6)))) with (1 - y + y * y / 2 - y * y * y / 6) by (rewrite Ey; field).
  replace (a * a * a * a * (a * a * a * a) / 24 * (T * T * T * T)) with (y * y * y * y / 24) by (rewrite Ey; field).
  rewrite Rabs_pos_eq by lra. lra.
Qed.
Lemma near_erf a : 0 < a -> near (fun r => erf (a * r) / r) (2 / sqrt PI * a) (- (2 / sqrt PI) * a ^ 3 / 3) (2 / sqrt PI * a ^ 5 / 10) (- (2 / sqrt PI) * a ^ 7 / 42).
Proof.
  intros Ha. pose proof k_pos as Hk. set (k := 2 / sqrt PI) in *. exists (k * (a ^ 9 / 216)). split.
  { apply Rmult_le_pos; [lra|]. assert (0 < a ^ 9) by (apply pow_lt; exact Ha). lra. }
  intros r Hr T. assert (Hx : 0 <= a * r) by (apply Rmult_le_pos; lra). pose proof (erf_series erf He (a * r) Hx) as [L U]. fold k in L, U. clearbody k.
  set (x := a * r) in *. unfold series in L, U.
  assert (Hi : 0 < / r) by (apply Rinv_0_lt_compat; lra).
  set (S := k * (x - x * x * x / 3 + x * x * x * x * x / 10 - x * x * x * x * x * x * x / 42)) in *.
  replace (k * a + T * (- k * a ^ 3 / 3 + T * (k * a ^ 5 / 10 + T * (- k * a ^ 7 / 42)))) with (S * / r) by (unfold S, x, T; field; lra).
  replace (k * (a ^ 9 / 216) * (T * T * T * T)) with (k * (x * x * x * x * x * x * x * x * x / 216) * / r) by (unfold x, T; field; lra).
  replace (erf x / r - S * / r) with ((erf x - S) * / r) by (unfold Rdiv; ring). rewrite Rabs_pos_eq by (apply Rmult_le_pos; lra).
  apply Rmult_le_compat_r; [lra|]. unfold S in *. lra.
Qed.
Ltac nears := repeat first [apply near_const | apply near_sq | apply near_scal | apply near_bell | (apply near_erf; assumption) | apply near_add | apply near_mul].
Lemma taylor_order a b : 0 < a -> exists C, forall r, 0 < r <= 1 -> Rabs (V_analytic erf a b r - V_taylor a b r) <= C * r ^ 8.
Proof.
  intros Ha. pose proof sqrtpi as HP. pose proof sqrtpi2 as HP2. set (p := sqrt PI) in *.
  set (E := fun r => exp (- (a * r) ^ 2)). set (g := fun r => erf (a * r) / r).
  set (V := fun r => (- 2 * b * (a * a)) * (g r * (r * r) * E r) + (2 * a / p) * (g r * (r * r) * E r) + (2 * a * a * a / p) * (E r * (r * r)) + (- 4 * a / p) * E r
     + (- 2 * b * (a * a * a * a)) * (E r * (r * r)) + (3 * b * (a * a)) * E r + (2 * b * b * (a * a * a * a)) * (E r * E r * (r * r)) + (- 4 * b * (a * a * a) / p) * (E r * E r * (r * r))
     + (2 * a * a / (p * p)) * (E r * E r * (r * r)) + / 2 * (g r * g r * (r * r)) + (- / 2) + (- 1) * g r).
  assert (NE := near_bell a). assert (NG := near_erf a Ha). fold E in NE. fold g in NG. fold p in NG.
  assert (NV : exists c0 c1 c2 c3, near V c0 c1 c2 c3 /\
     c0 = 4 * (- 1 / 8 + 3 / 4 * b * (a * a)) - 4 / p * (44 / 15) * a * (45 / 88) /\
     c1 = 4 * ((a * a * a * a) * (b - 5 / 2) * b / 2) - 4 * (44 / 15) * a * (- 15 / 22 * a / (p * p) + 15 / 22 * (a * a) * (b - 5 / 6) / p) /\
     c2 = - 4 * ((a ^ 6) * b * (b - 7 / 8)) - 4 * (44 / 15) * a * (10 / 11 * (a * a) * a / (p * p) - 25 / 22 * (a ^ 4) * (b - 63 / 200) / p) /\
     c3 = 4 * ((a ^ 8) * (b - 3 / 8) * b) - 4 * (44 / 15) * a * (- 47 / 66 * (a ^ 4) * a / (p * p) + (a ^ 6) * (b - 45 / 308) / p)).
  { do 4 eexists. split.
    - unfold V. repeat first [exact NE | exact NG | apply near_const | apply near_sq | apply near_scal | apply near_add | apply near_mul].
    - repeat split; field; lra. }
  destruct NV as (c0 & c1 & c2 & c3 & (C & HC & HV) & E0 & E1 & E2 & E3). exists C. intros r Hr. specialize (HV r Hr). cbv zeta in HV.
  replace (C * r ^ 8) with (C * (r * r * (r * r) * (r * r) * (r * r))) by ring.
  replace (V_analytic erf a b r) with (V r).
  2: { unfold V, V_analytic, g, E. cbv zeta. replace (exp (r * r * (a * a))) with (/ exp (- (a * r) ^ 2)). 2: { rewrite <- exp_Ropp. f_equal. ring. }
       pose proof (exp_pos (- (a * r) ^ 2)) as Ep. set (X := exp (- (a * r) ^ 2)) in *. set (e := erf (a * r)). fold p. clearbody p X e. rewrite <- HP2. field. repeat split; lra. }
  replace (V_taylor a b r) with (c0 + r * r * (c1 + r * r * (c2 + r * r * c3))); [exact HV|].
  rewrite E0, E1, E2, E3. unfold V_taylor. cbv zeta. fold p. clearbody p. rewrite <- HP2. field. lra.
Qed.
(** Hence the two branches of the scaled potential meet to eighth order. *)
Lemma regularized_taylor a b : 0 < a -> exists C, forall eps Z r, 0 < Z -> 0 < r -> Z * r <= 1 ->
  Rabs (V_regularized eps erf Z a b r - Z ^ 2 * V_analytic erf a b (Z * r)) <= C * Z ^ 2 * (Z * r) ^ 8.
Proof.
  intros Ha. destruct (taylor_order a b Ha) as (C & HC). exists (Rabs C). intros eps Z r HZ Hr H1. assert (Hz : 0 < Z * r) by (apply Rmult_lt_0_compat; assumption).
  assert (P8 : 0 < (Z * r) ^ 8) by (apply pow_lt; exact Hz). assert (P2 : 0 < Z ^ 2) by (apply pow_lt; exact HZ).
  unfold V_regularized. cbv zeta. destruct (Rleb_spec (Z * r) (cbrt eps)) as [Hc|Hc].
  - specialize (HC (Z * r) ltac:(lra)). rewrite <- Rmult_minus_distr_l, Rabs_mult, (Rabs_pos_eq (Z ^ 2)) by lra. rewrite Rabs_minus_sym.
    replace (Rabs C * Z ^ 2 * (Z * r) ^ 8) with (Z ^ 2 * (Rabs C * (Z * r) ^ 8)) by ring. apply Rmult_le_compat_l; [lra|].
    eapply Rle_trans; [exact HC|]. apply Rmult_le_compat_r; [lra|apply Rle_abs].
  - rewrite Rminus_diag_eq by reflexivity. rewrite Rabs_R0. repeat apply Rmult_le_pos; try lra. apply Rabs_pos.
Qed.
End Reg.
