(** The Gaussian nucleus. *)
Require Import Reals Lra Lia List Arith Bool ZArith.
Require Import Verif.Prelude Verif.SadSpec Verif.SadAtom Verif.SadWit Verif.LegMath Verif.TabModel Verif.PotModel Verif.PotSpec Verif.PotNuc.
Import ListNotations.
Open Scope R_scope.

Section Gauss.
Variables (erf : R -> R) (He : is_erf erf).
Lemma k_pos : 0 < 2 / sqrt PI.
Proof. apply Rdiv_lt_0_compat; [lra|apply sqrtpi]. Qed.
Lemma cut_pos eps mu : 0 < mu -> 0 < gauss_cut eps mu.
Proof. intros H. unfold gauss_cut. apply Rdiv_lt_0_compat; [unfold Rpower; apply exp_pos|exact H]. Qed.
Lemma cut_mu eps mu : 0 < mu -> mu * gauss_cut eps mu = Rpower (42 * eps) (1 / 6).
Proof. intros H. unfold gauss_cut. field. lra. Qed.
Lemma cut_six eps mu : 0 < eps -> 0 < mu -> (mu * gauss_cut eps mu) ^ 6 / 42 = eps.
Proof.
  intros H0 H. rewrite cut_mu by exact H. rewrite <- Rpower_pow by (unfold Rpower; apply exp_pos). rewrite Rpower_mult.
  replace (1 / 6 * INR 6) with 1 by (cbn; field). rewrite Rpower_1 by lra. field.
Qed.
Lemma cut_small eps mu r : 0 < eps <= / 42 -> 0 < mu -> 0 <= r <= gauss_cut eps mu -> 0 <= mu * r <= 1.
Proof.
  intros H0 Hm Hr. split; [apply Rmult_le_pos; lra|].
  assert (mu * r <= mu * gauss_cut eps mu) by (apply Rmult_le_compat_l; lra). eapply Rle_trans; [exact H|].
  rewrite cut_mu by exact Hm. apply Rle_trans with (Rpower 1 (1 / 6)); [apply Rle_Rpower_l; lra|].
  unfold Rpower. rewrite ln_1, Rmult_0_r, exp_0. lra.
Qed.

(** At positive radii: exact beyond the cutoff; before it the truncated series, above the
    exact value by at most the first neglected term. *)
Lemma gauss_values eps Z mu r : 0 < eps <= / 42 -> 0 <= Z -> 0 < mu -> 0 < r ->
  exists v, V_gauss eps erf Z mu r = Fin v /\
    (gauss_cut eps mu < r -> v = - Z * erf (mu * r) / r) /\
    - Z * erf (mu * r) / r <= v <= - Z * erf (mu * r) / r + Z * (2 / sqrt PI) * mu * ((mu * r) ^ 8 / 216) /\
    - Z / r <= v <= 0 /\ - Z * (2 / sqrt PI) * mu <= v.
Proof.
  intros H0 HZ Hm Hr. pose proof k_pos as Hk. set (k := 2 / sqrt PI) in *. set (x := mu * r) in *. assert (Hx : 0 < x) by (apply Rmult_lt_0_compat; assumption).
  assert (Hir : 0 < / r) by (apply Rinv_0_lt_compat; exact Hr).
  pose proof (erf_le_1 erf He x) as E1. pose proof (erf_nonneg erf He x ltac:(lra)) as E0. pose proof (erf_slope erf He x ltac:(lra)) as E2. fold k in E2.
  assert (B0 : 0 <= Z * / r) by (apply Rmult_le_pos; lra).
  assert (Exact : - Z / r <= - Z * erf x / r <= 0 /\ - Z * k * mu <= - Z * erf x / r).
  { replace (- Z / r) with (- (Z * / r) * 1) by (unfold Rdiv; ring). replace (- Z * erf x / r) with (- (Z * / r) * erf x) by (unfold Rdiv; ring).
    replace (- Z * k * mu) with (- (Z * / r) * (k * x)) by (unfold x; field; lra). repeat split; nra. }
  assert (Hrest : 0 <= Z * k * mu * (x ^ 8 / 216)).
  { apply Rmult_le_pos; [apply Rmult_le_pos; [apply Rmult_le_pos; lra|lra]|]. assert (0 < x ^ 8) by (apply pow_lt; exact Hx). lra. }
  unfold V_gauss. cbv zeta. fold k. fold x. destruct (Rleb_spec r (gauss_cut eps mu)) as [Hc|Hc].
  - eexists. split; [reflexivity|]. split; [lra|]. assert (Hx1 : x <= 1) by (apply (cut_small eps mu r H0 Hm); lra).
    pose proof (erf_series erf He x ltac:(lra)) as [S1 S2]. fold k in S1, S2.
    set (T := 1 + (-1 / 3 + (1 / 10 - 1 / 42 * x ^ 2) * x ^ 2) * x ^ 2).
    assert (ES : series x = x * T) by (unfold series, T; field).
    replace (- Z * k * mu * T) with (- (Z * / r) * (k * series x)) by (rewrite ES; unfold x; field; lra).
    replace (- Z * erf x / r) with (- (Z * / r) * erf x) in * by (unfold Rdiv; ring).
    assert (HT : 0 <= T <= 1).
    { unfold T. set (y := x ^ 2). assert (Hy : 0 <= y <= 1) by (unfold y; cbn [pow]; nra). split; nra. }
    assert (V1 : - (Z * / r) * erf x <= - (Z * / r) * (k * series x)) by nra.
    split; [split; [exact V1|]|].
    + replace (Z * k * mu * (x ^ 8 / 216)) with ((Z * / r) * (k * (x * x * x * x * x * x * x * x * x / 216))) by (unfold x; field; lra). nra.
    + split; [split; [lra|]|lra]. assert (0 <= k * series x) by (rewrite ES; apply Rmult_le_pos; [lra|apply Rmult_le_pos; lra]). nra.
  - rewrite fdiv_fin by lra. eexists. split; [reflexivity|]. split; [reflexivity|]. split; [lra|]. tauto.
Qed.
Lemma gauss_origin eps Z mu : 0 < mu -> V_gauss eps erf Z mu 0 = Fin (- Z * (2 / sqrt PI) * mu).
Proof.
  intros Hm. pose proof (cut_pos eps mu Hm). unfold V_gauss. cbv zeta. destruct (Rleb_spec 0 (gauss_cut eps mu)); [|lra]. f_equal. cbn [pow]. ring.
Qed.

(* ---- the charge distribution ---- *)
Lemma lim_erf mu x : derivable_pt_lim (fun s => erf (mu * s)) x (2 / sqrt PI * exp (- (mu * x) ^ 2) * mu).
Proof.
  eapply lim_eq; [|apply (derivable_pt_lim_comp (fun s => mu * s) erf x); [apply lim_scal, lim_id|apply He]]. cbv beta. cbn [pow]. rewrite !Rmult_1_r. reflexivity.
Qed.
Lemma lim_bell mu x : derivable_pt_lim (fun s => exp (- (mu * s) ^ 2)) x (- 2 * mu * mu * x * exp (- (mu * x) ^ 2)).
Proof.
  eapply lim_eq; [|apply (lim_exp (fun s => - (mu * s) ^ 2)); cbn [pow]; apply lim_opp; ders]. cbv beta. cbn [pow]. ring.
Qed.
Lemma bell_cont mu : continuity (fun s => exp (- (mu * s) ^ 2)).
Proof. intros x. apply derivable_continuous_pt. eexists. apply lim_bell. Qed.
(** exp(-(mu x)^2) x^n vanishes at infinity, for n up to 3. *)
Lemma pow_exp n : forall y, 0 <= y -> y ^ n <= INR (fact n) * exp y.
Proof.
  induction n as [|n IH]; intros y Hy.
  - cbn [pow fact INR]. pose proof (exp_le 0 y Hy). rewrite exp_0 in H. lra.
  - assert (M := mono (fun y => INR (fact (S n)) * exp y - y ^ S n) (fun y => INR (fact (S n)) * exp y - INR (S n) * y ^ n) 0 y Hy). cbv beta in M.
    assert (0 <= INR (fact (S n)) * exp y - y ^ S n); [|lra]. eapply Rle_trans; [|apply M].
    + rewrite exp_0. cbn [pow]. rewrite Rmult_0_l. pose proof (pos_INR (fact (S n))). lra.
    + intros x. apply lim_minus; [apply lim_scal, derivable_pt_lim_exp|]. apply (derivable_pt_lim_pow x (S n)).
    + intros x Hx. specialize (IH x ltac:(lra)). replace (fact (S n)) with (S n * fact n)%nat by reflexivity. rewrite mult_INR.
      pose proof (pos_INR (S n)). assert (INR (S n) * x ^ n <= INR (S n) * (INR (fact n) * exp x)) by (apply Rmult_le_compat_l; assumption). lra.
Qed.
Lemma tail mu c e : 0 < mu -> 0 < e -> exists X, 0 < X /\ forall x, X <= x -> c * (1 + x + x * x * x) * exp (- (mu * x) ^ 2) < e /\ Rabs (erf (mu * x) - 1) < e.
Proof.
  intros Hm H. destruct He as (_ & _ & L). destruct (L e H) as (X1 & HX1).
  set (q := Rabs c * 3 * 2 / (mu * mu * mu * mu * e)).
  assert (Hq : 0 <= q). { unfold q. apply Rmult_le_pos; [apply Rmult_le_pos; [apply Rmult_le_pos; [apply Rabs_pos|lra]|lra]|]. left. apply Rinv_0_lt_compat. repeat apply Rmult_lt_0_compat; assumption. }
  exists (1 + q + Rabs (X1 / mu)). split; [pose proof (Rabs_pos (X1 / mu)); lra|]. intros x Hx. pose proof (Rabs_pos (X1 / mu)) as A. pose proof (Rle_abs (X1 / mu)) as A1.
  split.
  - (* y = (mu x)^2, y^2 <= 2 exp y *)
    pose proof (pow_exp 2 ((mu * x) ^ 2) ltac:(apply pow2_ge_0)) as P. replace (INR (fact 2)) with 2 in P by (cbn; lra).
    set (y := (mu * x) ^ 2) in *. rewrite exp_Ropp. pose proof (exp_pos y) as Py.
    assert (B : c * (1 + x + x * x * x) <= Rabs c * (3 * (x * x * x))).
    { apply Rle_trans with (Rabs c * (1 + x + x * x * x)); [apply Rmult_le_compat_r; [|apply Rle_abs]|apply Rmult_le_compat_l; [apply Rabs_pos|]].
      - assert (0 <= x * x * x) by (repeat apply Rmult_le_pos; lra). lra.
      - assert (1 <= x * x) by nra. assert (x <= x * x * x) by nra. lra. }
    assert (Hi : 0 < / exp y) by (apply Rinv_0_lt_compat; exact Py).
    apply Rle_lt_trans with (Rabs c * (3 * (x * x * x)) * / exp y); [apply Rmult_le_compat_r; lra|].
    apply Rmult_lt_reg_r with (exp y); [exact Py|]. rewrite Rmult_assoc, Rinv_l, Rmult_1_r by lra.
    apply Rlt_le_trans with (e * (y ^ 2 / 2)); [|apply Rmult_le_compat_l; lra].
    replace (e * (y ^ 2 / 2)) with (e * (mu * mu * mu * mu) / 2 * x * (x * x * x)) by (unfold y; field).
    rewrite <- Rmult_assoc. apply Rmult_lt_compat_r; [repeat apply Rmult_lt_0_compat; lra|].
    assert (W : 0 < e * (mu * mu * mu * mu) / 2) by (apply Rdiv_lt_0_compat; [repeat apply Rmult_lt_0_compat; assumption|lra]).
    replace (Rabs c * 3) with (e * (mu * mu * mu * mu) / 2 * q) by (unfold q; field; split; lra).
    apply Rmult_lt_compat_l; [exact W|]. lra.
  - apply HX1. apply Rle_trans with (mu * (X1 / mu)); [right; field; lra|]. apply Rmult_le_compat_l; lra.
Qed.

(** With the density of width mu: unit charge, mean square radius 3/(2 mu^2), and the
    enclosed and outer charges. *)
Lemma gauss_int0 mu X : 0 < mu -> 0 <= X -> is_int (fun s => 4 * PI * (s * s) * gauss_density mu s) 0 X
  (erf (mu * X) - 2 / sqrt PI * mu * (X * exp (- (mu * X) ^ 2))).
Proof.
  intros Hm HX. pose proof sqrtpi as HP. pose proof sqrtpi2 as HP2.
  replace (erf (mu * X) - 2 / sqrt PI * mu * (X * exp (- (mu * X) ^ 2)))
    with ((erf (mu * X) - 2 / sqrt PI * mu * (X * exp (- (mu * X) ^ 2))) - (erf (mu * 0) - 2 / sqrt PI * mu * (0 * exp (- (mu * 0) ^ 2)))).
  2: { rewrite Rmult_0_r, (proj1 He). ring. }
  apply (ftc (fun s => erf (mu * s) - 2 / sqrt PI * mu * (s * exp (- (mu * s) ^ 2)))); [| |exact HX].
  - intros x. eapply lim_eq; [|apply lim_minus; [apply lim_erf|apply lim_scal, lim_mul; [apply lim_id|apply lim_bell]]]. cbv beta.
    unfold gauss_density. set (p := sqrt PI) in *; clearbody p. rewrite <- HP2. field. lra.
  - intros x. apply (continuity_pt_mult (fun s => 4 * PI * (s * s)) (gauss_density mu)); [reg|].
    unfold gauss_density. apply (continuity_pt_mult (fun _ => (mu / sqrt PI) ^ 3)); [apply const_cont|apply bell_cont].
Qed.
Lemma gauss_int1 mu r X : 0 < mu -> r <= X -> is_int (fun s => 4 * PI * s * gauss_density mu s) r X
  (2 / sqrt PI * mu * (exp (- (mu * r) ^ 2) - exp (- (mu * X) ^ 2))).
Proof.
  intros Hm HX. pose proof sqrtpi as HP. pose proof sqrtpi2 as HP2.
  replace (2 / sqrt PI * mu * (exp (- (mu * r) ^ 2) - exp (- (mu * X) ^ 2)))
    with (- (2 / sqrt PI * mu) * exp (- (mu * X) ^ 2) - (- (2 / sqrt PI * mu) * exp (- (mu * r) ^ 2))) by ring.
  apply (ftc (fun s => - (2 / sqrt PI * mu) * exp (- (mu * s) ^ 2))); [| |exact HX].
  - intros x. eapply lim_eq; [|apply lim_scal, lim_bell]. cbv beta. unfold gauss_density. set (p := sqrt PI) in *; clearbody p. rewrite <- HP2. field. lra.
  - intros x. apply (continuity_pt_mult (fun s => 4 * PI * s) (gauss_density mu)); [reg|].
    unfold gauss_density. apply (continuity_pt_mult (fun _ => (mu / sqrt PI) ^ 3)); [apply const_cont|apply bell_cont].
Qed.
Lemma gauss_int2 mu X : 0 < mu -> 0 <= X -> is_int (fun s => 4 * PI * (s * s) * (s * s) * gauss_density mu s) 0 X
  (3 / (2 * (mu * mu)) * (erf (mu * X) - 2 / sqrt PI * mu * (X * exp (- (mu * X) ^ 2))) - 2 / sqrt PI * mu * (X * X * X * exp (- (mu * X) ^ 2))).
Proof.
  intros Hm HX. pose proof sqrtpi as HP. pose proof sqrtpi2 as HP2.
  set (F := fun s => 3 / (2 * (mu * mu)) * (erf (mu * s) - 2 / sqrt PI * mu * (s * exp (- (mu * s) ^ 2))) - 2 / sqrt PI * mu * (s * s * s * exp (- (mu * s) ^ 2))).
  change (is_int (fun s => 4 * PI * (s * s) * (s * s) * gauss_density mu s) 0 X (F X)).
  replace (F X) with (F X - F 0). 2: { unfold F at 2. rewrite Rmult_0_r, (proj1 He). ring. }
  apply (ftc F); [| |exact HX].
  - intros x. unfold F. eapply lim_eq; [|apply lim_minus; [apply lim_scal, lim_minus; [apply lim_erf|apply lim_scal, lim_mul; [apply lim_id|apply lim_bell]]|apply lim_scal, lim_mul; [ders|apply lim_bell]]]. cbv beta.
    unfold gauss_density. set (p := sqrt PI) in *; clearbody p. rewrite <- HP2. field. lra.
  - intros x. apply (continuity_pt_mult (fun s => 4 * PI * (s * s) * (s * s)) (gauss_density mu)); [reg|].
    unfold gauss_density. apply (continuity_pt_mult (fun _ => (mu / sqrt PI) ^ 3)); [apply const_cont|apply bell_cont].
Qed.
Lemma gauss_total mu : 0 < mu ->
  is_improper (fun s => 4 * PI * (s * s) * gauss_density mu s) 0 1 /\
  is_improper (fun s => 4 * PI * (s * s) * (s * s) * gauss_density mu s) 0 (3 / (2 * (mu * mu))) /\
  forall r, 0 < r -> is_improper (fun s => 4 * PI * s * gauss_density mu s) r (2 / sqrt PI * mu * exp (- (mu * r) ^ 2)).
Proof.
  intros Hm. pose proof k_pos as Hk. set (k := 2 / sqrt PI) in *.
  split; [|split].
  - intros e H. destruct (tail mu (k * mu) (e / 2) Hm ltac:(lra)) as (X0 & HX0 & B). exists X0. intros X HX. eexists. split; [apply gauss_int0; lra|]. fold k.
    destruct (B X HX) as [B1 B2]. pose proof (exp_pos (- (mu * X) ^ 2)) as Ep. set (E := exp (- (mu * X) ^ 2)) in *.
    assert (0 <= X * E) by (apply Rmult_le_pos; lra). assert (0 <= X * X * X * E) by (repeat apply Rmult_le_pos; lra).
    assert (Hkm : 0 < k * mu) by (apply Rmult_lt_0_compat; assumption).
    assert (k * mu * (X * E) <= k * mu * (1 + X + X * X * X) * E) by nra.
    assert (0 <= k * mu * (X * E)) by (apply Rmult_le_pos; lra).
    apply Rabs_def1; apply Rabs_def2 in B2; lra.
  - intros e H. set (h := 3 / (2 * (mu * mu))). assert (Hh : 0 < h) by (unfold h; apply Rdiv_lt_0_compat; [lra|nra]).
    set (d := e / (2 * (1 + h))). assert (Hd : 0 < d) by (unfold d; apply Rdiv_lt_0_compat; lra).
    destruct (tail mu (k * mu * (1 + h)) (Rmin d (e / 4)) Hm ltac:(apply Rmin_glb_lt; lra)) as (X0 & HX0 & B). exists X0. intros X HX. eexists. split; [apply gauss_int2; lra|]. fold k. fold h.
    destruct (B X HX) as [B1 B2]. pose proof (Rmin_l d (e / 4)) as M1. pose proof (Rmin_r d (e / 4)) as M2.
    pose proof (exp_pos (- (mu * X) ^ 2)) as Ep. set (E := exp (- (mu * X) ^ 2)) in *.
    assert (H1 : 0 <= X * E) by (apply Rmult_le_pos; lra). assert (H2 : 0 <= X * X * X * E) by (repeat apply Rmult_le_pos; lra).
    assert (Hkm : 0 < k * mu) by (apply Rmult_lt_0_compat; assumption).
    assert (H3 : h * (k * mu * (X * E)) + k * mu * (X * X * X * E) <= k * mu * (1 + h) * (1 + X + X * X * X) * E).
    { assert (Hc : 0 <= 1 + h) by lra. assert (Hw : h * (X * E) + X * X * X * E <= (1 + h) * ((1 + X + X * X * X) * E)).
      { assert (0 <= h * E) by (apply Rmult_le_pos; lra). assert (0 <= h * (X * X * X * E)) by (apply Rmult_le_pos; lra). nra. }
      assert (Hk0 : 0 <= k * mu) by lra. pose proof (Rmult_le_compat_l _ _ _ Hk0 Hw). clear - H0. nra. }
    assert (H4 : 0 <= h * (k * mu * (X * E)) + k * mu * (X * X * X * E)).
    { apply Rplus_le_le_0_compat; [apply Rmult_le_pos; [lra|apply Rmult_le_pos; lra]|apply Rmult_le_pos; lra]. }
    assert (H5 : h * Rabs (erf (mu * X) - 1) <= e / 2).
    { apply Rle_trans with (h * d); [apply Rmult_le_compat_l; lra|]. unfold d. apply Rmult_le_reg_r with (2 * (1 + h)); [lra|].
      replace (h * (e / (2 * (1 + h))) * (2 * (1 + h))) with (h * e) by (field; lra). nra. }
    assert (H6 : h * (erf (mu * X) - 1) <= h * Rabs (erf (mu * X) - 1)) by (apply Rmult_le_compat_l; [lra|apply Rle_abs]).
    assert (H7 : h * (1 - erf (mu * X)) <= h * Rabs (erf (mu * X) - 1)) by (apply Rmult_le_compat_l; [lra|rewrite Rabs_minus_sym; apply Rle_abs]).
    apply Rabs_def1; nra.
  - intros r Hr e H. destruct (tail mu (k * mu) e Hm H) as (X0 & HX0 & B). exists (Rmax X0 r). intros X HX.
    pose proof (Rmax_l X0 r). pose proof (Rmax_r X0 r). eexists. split; [apply gauss_int1; lra|]. fold k.
    destruct (B X ltac:(lra)) as [B1 _]. pose proof (exp_pos (- (mu * X) ^ 2)) as Ep. set (E := exp (- (mu * X) ^ 2)) in *.
    assert (Hkm : 0 < k * mu) by (apply Rmult_lt_0_compat; assumption).
    assert (k * mu * E <= k * mu * (1 + X + X * X * X) * E). { assert (0 <= X * E) by (apply Rmult_le_pos; lra). assert (0 <= X * X * X * E) by (repeat apply Rmult_le_pos; lra). nra. }
    replace (k * mu * (exp (- (mu * r) ^ 2) - E) - k * mu * exp (- (mu * r) ^ 2)) with (- (k * mu * E)) by ring. rewrite Rabs_Ropp, Rabs_pos_eq; [lra|]. apply Rmult_le_pos; lra.
Qed.
Lemma gauss_electrostatic eps Z Rrms : 0 < eps <= / 42 -> 0 <= Z -> 0 < Rrms -> let mu := gauss_mu Rrms in
  0 < mu /\
  is_improper (fun s => 4 * PI * (s * s) * gauss_density mu s) 0 1 /\
  is_improper (fun s => 4 * PI * (s * s) * (s * s) * gauss_density mu s) 0 (Rrms ^ 2) /\
  forall r, 0 < r -> exists q w v,
    is_int (fun s => 4 * PI * (s * s) * gauss_density mu s) 0 r q /\
    is_improper (fun s => 4 * PI * s * gauss_density mu s) r w /\
    V_gauss eps erf Z mu r = Fin v /\
    (gauss_cut eps mu < r -> v = - Z * (q / r + w)) /\
    - Z * (q / r + w) <= v <= - Z * (q / r + w) + Z * (2 / sqrt PI) * mu * ((mu * r) ^ 8 / 216).
Proof.
  intros H0 HZ Hr mu. assert (Hm : 0 < mu). { unfold mu, gauss_mu. apply Rdiv_lt_0_compat; [apply sqrt_lt_R0; lra|exact Hr]. }
  destruct (gauss_total mu Hm) as (I1 & I2 & I3). split; [exact Hm|]. split; [exact I1|]. split.
  - replace (Rrms ^ 2) with (3 / (2 * (mu * mu))); [exact I2|]. unfold mu, gauss_mu. pose proof (sqrt_sqrt (3 / 2) ltac:(lra)) as E.
    replace (sqrt (3 / 2) / Rrms * (sqrt (3 / 2) / Rrms)) with (sqrt (3 / 2) * sqrt (3 / 2) / (Rrms * Rrms)) by (field; lra). rewrite E. field. lra.
  - intros r Hrr. destruct (gauss_values eps Z mu r H0 HZ Hm Hrr) as (v & Ev & V1 & V2 & _).
    eexists. eexists. exists v. split; [apply gauss_int0; [exact Hm|lra]|]. split; [apply I3; exact Hrr|]. split; [exact Ev|].
    assert (E : - Z * ((erf (mu * r) - 2 / sqrt PI * mu * (r * exp (- (mu * r) ^ 2))) / r + 2 / sqrt PI * mu * exp (- (mu * r) ^ 2)) = - Z * erf (mu * r) / r).
    { field. split; [lra|]. pose proof sqrtpi. lra. }
    rewrite E. split; assumption.
Qed.
End Gauss.
