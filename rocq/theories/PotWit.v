(** Collected statements and concrete cases for the model potentials. *)
Require Import Reals Lra Lia List Arith Bool ZArith.
Require Import Verif.Prelude Verif.SadSpec Verif.LegMath Verif.TabModel Verif.TabSpec Verif.TabProofs Verif.TabPoly Verif.TabGsz Verif.PotModel Verif.PotSpec Verif.PotNuc Verif.PotGauss Verif.PotReg Verif.PotFind Verif.PotOrb.
Require Verif.PotErf.
Import ListNotations.
Open Scope R_scope.

Lemma hollow_all Z R0 : 0 < R0 -> 0 <= Z -> exists f,
  (forall r, 0 <= r -> V_hollow Z R0 r = Fin (f r)) /\ continuity f /\
  (forall r, 0 < r -> R0 <= r -> V_hollow Z R0 r = V_point Z r) /\
  forall r, 0 < r -> f 0 <= f r <= 0 /\ - Z / r <= f r.
Proof.
  intros H0 HZ. exists (fun r => - Z / Rmax r R0). split; [apply hollow_values; exact H0|]. split; [intros x; apply hollow_cont; exact H0|].
  split; [intros r H1 H2; apply (outside Z R0 r H1 H2)|]. intros r Hr. pose proof (hollow_bounds Z R0 r H0 HZ Hr). rewrite (Rmax_right 0 R0) by lra. exact H.
Qed.
Lemma sphere_all Z R0 : 0 < R0 -> 0 <= Z -> exists f,
  (forall r, 0 <= r -> V_sphere Z R0 r = Fin (f r)) /\ continuity f /\
  (forall r, 0 < r -> R0 <= r -> V_sphere Z R0 r = V_point Z r) /\
  forall r, 0 < r -> f 0 <= f r <= 0 /\ - Z / r <= f r.
Proof.
  intros H0 HZ. exists (ball Z R0). split; [apply ball_values; exact H0|]. split; [intros x; apply ball_cont; exact H0|].
  split; [intros r H1 H2; apply (outside Z R0 r H1 H2)|]. intros r Hr. pose proof (ball_bounds Z R0 r H0 HZ Hr) as B.
  replace (ball Z R0 0) with (- (3 * Z) / (2 * R0)); [exact B|]. unfold ball. cbv zeta. rewrite Rmax_right, Rmin_left by lra. field. lra.
Qed.
Lemma factory eps norm fuel Z Rrms :
  get_nuclear_model eps norm fuel POINT_NUCLEUS Z Rrms = Ok (Point (IZR Z)) /\
  get_nuclear_model eps norm fuel GAUSSIAN_NUCLEUS Z Rrms = Ok (Gaussian (IZR Z) (gauss_mu Rrms)) /\
  get_nuclear_model eps norm fuel SPHERICAL_NUCLEUS Z Rrms = Ok (Spherical (IZR Z) (sphere_radius Rrms)) /\
  get_nuclear_model eps norm fuel HOLLOW_NUCLEUS Z Rrms = Ok (Hollow (IZR Z) Rrms) /\
  (forall n, get_nuclear_model eps norm fuel REGULARIZED_NUCLEUS Z Rrms = Ok n <-> exists b, find_b eps (norm Rrms) fuel = Ok b /\ n = Regularized (IZR Z) Rrms b) /\
  get_nuclear_model eps norm fuel NOSUCH_NUCLEUS Z Rrms = Throw LogicError /\
  forall i, get_nuclear_model eps norm fuel (Other i) Z Rrms = Throw LogicError.
Proof.
  split; [reflexivity|]. split; [reflexivity|]. split; [reflexivity|]. split; [reflexivity|]. split; [|split; reflexivity].
  intros n. cbn [get_nuclear_model]. generalize (find_b eps (norm Rrms) fuel). intros f. destruct f as [b| | |]; cbn [bind]; split; intros H.
  - injection H as <-. exists b. split; reflexivity.
  - destruct H as (b' & E & ->). injection E as ->. reflexivity.
  - discriminate.
  - destruct H as (b' & E & _). discriminate.
  - discriminate.
  - destruct H as (b' & E & _). discriminate.
  - discriminate.
  - destruct H as (b' & E & _). discriminate.
Qed.
Lemma erf_exists : is_erf PotErf.erf.
Proof.
  split; [exact PotErf.erf_0|]. split; [exact PotErf.erf_derive|]. intros e He. destruct (PotErf.erf_limit e He) as (X & HX). exists X. intros x Hx.
  specialize (HX x Hx). pose proof (PotErf.erf_lt_1 x). apply Rabs_def1; lra.
Qed.
Lemma gauss_all erf eps Z mu : is_erf erf -> 0 < eps <= / 42 -> 0 <= Z -> 0 < mu ->
  (gauss_cut eps mu * mu) ^ 6 = 42 * eps /\ V_gauss eps erf Z mu 0 = Fin (- Z * (2 / sqrt PI) * mu) /\
  forall r, 0 < r -> exists v, V_gauss eps erf Z mu r = Fin v /\
    (gauss_cut eps mu < r -> v = - Z * erf (mu * r) / r) /\
    - Z * erf (mu * r) / r <= v <= - Z * erf (mu * r) / r + Z * (2 / sqrt PI) * mu * ((mu * r) ^ 8 / 216) /\
    - Z / r <= v <= 0 /\ - Z * (2 / sqrt PI) * mu <= v.
Proof.
  intros He H0 HZ Hm. split; [rewrite Rmult_comm; pose proof (cut_six eps mu ltac:(lra) Hm) as E; lra|]. split; [apply gauss_origin; exact Hm|]. intros r Hr. apply gauss_values; assumption.
Qed.

(* ---- the search ---- *)
Lemma norm_search erf N rad wgt a eps fuel b : 0 < eps -> find_b eps (phi_normalization erf N rad wgt a) fuel = Ok b ->
  exists b0, phi_normalization erf N rad wgt a b0 = 1 /\ Rabs (b0 - b) <= 5 * eps * b.
Proof. intros He E. apply (find_crossing eps _ fuel b He); [apply norm_cont|exact E]. Qed.
Lemma norm_found erf N rad wgt a eps : 0 < eps -> (0 < N)%nat -> (forall i, (i < N)%nat -> 0 < rad i /\ 0 < wgt i) ->
  (exists i, (0 < i < npts - 1)%nat /\ forall j, (j < npts)%nat -> j <> i ->
     Rabs (phi_normalization erf N rad wgt a (b_grid i) - 1) < Rabs (phi_normalization erf N rad wgt a (b_grid j) - 1)) ->
  exists n0, forall fuel, (n0 <= fuel)%nat -> exists b, find_b eps (phi_normalization erf N rad wgt a) fuel = Ok b.
Proof.
  intros He HN Hp (i & Hi & Hmin). apply find_total; [exact He|intros x y Hxy; apply norm_decreasing; [exact HN|exact Hp|lra]|].
  set (nrm := phi_normalization erf N rad wgt a) in *. destruct (Nat.eq_dec (argmin (fun ip => Rabs (nrm (b_grid ip) - 1)) npts) i) as [->|Hn]; [exact Hi|].
  exfalso. pose proof (near1_min nrm i ltac:(lia)) as M. pose proof (Hmin _ (near1_lt nrm) Hn). lra.
Qed.
Lemma norm_ends erf N rad wgt a eps fuel : (0 < N)%nat -> (forall i, (i < N)%nat -> 0 < rad i /\ 0 < wgt i) ->
  phi_normalization erf N rad wgt a (b_grid 0) <= 1 \/ 1 <= phi_normalization erf N rad wgt a (b_grid (npts - 1)) ->
  find_b eps (phi_normalization erf N rad wgt a) fuel = UB.
Proof.
  intros HN Hp H. assert (Hd : forall x y, 0 < x < y -> phi_normalization erf N rad wgt a y < phi_normalization erf N rad wgt a x) by (intros x y Hxy; apply norm_decreasing; [exact HN|exact Hp|lra]).
  destruct H as [H|H]; [apply find_low; assumption|apply find_high; assumption].
Qed.
Lemma grid_ends : b_grid 0 = / 1000 /\ b_grid (npts - 1) = 10.
Proof.
  assert (E10 : exp (ln 10) = 10) by (apply exp_ln; lra). split; unfold b_grid.
  - cbn [INR]. replace ((-3 + 0 * (4 / INR (npts - 1))) * ln 10) with (- (ln 10 + ln 10 + ln 10)) by ring. rewrite exp_Ropp, !exp_plus, E10. f_equal. ring.
  - replace ((-3 + INR (npts - 1) * (4 / INR (npts - 1))) * ln 10) with (ln 10); [exact E10|]. field. apply not_0_INR. intros Q. apply (f_equal (fun n => (n =? 0)%nat)) in Q. discriminate Q.
Qed.
Lemma grid_500 : / 10 <= b_grid 500 <= 1.
Proof.
  unfold b_grid. assert (En : INR (npts - 1) = 999) by (rewrite INR_IZR_INZ; f_equal). assert (E5 : INR 500 = 500) by (rewrite INR_IZR_INZ; f_equal). rewrite En, E5. pose proof ln10. split.
  - replace (/ 10) with (exp (- ln 10)) by (rewrite exp_Ropp, exp_ln by lra; reflexivity). apply exp_le. nra.
  - rewrite <- exp_0. apply exp_le. nra.
Qed.
Lemma search_case : exists n0, forall fuel, (n0 <= fuel)%nat -> exists b, find_b (/ 1000) (fun b => 2 - b) fuel = Ok b.
Proof.
  apply find_total; [lra|intros; lra|]. destruct grid_ends as [G0 G1]. pose proof grid_500 as G5.
  pose proof (near1_lt (fun b => 2 - b)) as L. pose proof (near1_min (fun b => 2 - b) 500 ltac:(apply Nat.ltb_lt; reflexivity)) as M.
  cbv beta in L, M. cbv beta. revert L M. generalize (argmin (fun ip => Rabs (2 - b_grid ip - 1)) npts). intros i L M. rewrite (Rabs_pos_eq (2 - b_grid 500 - 1)) in M by lra.
  destruct (Nat.eq_dec i 0) as [->|H0]; [rewrite G0, Rabs_pos_eq in M by lra; lra|].
  destruct (Nat.eq_dec i (npts - 1)) as [->|H1]; [rewrite G1, Rabs_left in M by lra; lra|lia].
Qed.
Lemma search_throws : forall fuel, find_b (/ 1000) (fun _ => 2) fuel = Throw LogicError.
Proof.
  intros fuel. rewrite find_cases. pose proof (near1_lt (fun _ => 2)) as L.
  assert (A : argmin (fun _ => Rabs (2 - 1)) npts = 0%nat).
  { assert (G : forall n, argmin (fun _ => Rabs (2 - 1)) n = 0%nat); [|apply G]. induction n as [|n IH]; [reflexivity|]. destruct n; [reflexivity|]. rewrite argmin_S, IH. destruct (Rltb_spec (Rabs (2 - 1)) (Rabs (2 - 1))); [lra|reflexivity]. }
  cbv beta. rewrite A. replace (1 <? npts)%nat with true by reflexivity. destruct (Rltb_spec 1 2); [reflexivity|lra].
Qed.
(** One radius, one weight: the norm is small at the first grid point. *)
Lemma ends_case : exists rad wgt : vec, (forall i, (i < 1)%nat -> 0 < rad i /\ 0 < wgt i) /\ forall fuel, find_b (/ 1000) (phi_normalization PotErf.erf 1 rad wgt 1) fuel = UB.
Proof.
  set (w := / (4 * PI * (phi PotErf.erf 1 (b_grid 0) 1 * phi PotErf.erf 1 (b_grid 0) 1))).
  assert (Hp : 0 < phi PotErf.erf 1 (b_grid 0) 1) by apply phi_pos. pose proof PI_RGT_0 as HP.
  assert (Hw : 0 < w). { unfold w. apply Rinv_0_lt_compat. apply Rmult_lt_0_compat; [lra|apply Rmult_lt_0_compat; exact Hp]. }
  exists (fun _ => 1), (fun _ => w). split; [intros; split; lra|]. intros fuel. apply norm_ends; [lia|intros; split; lra|]. left. unfold phi_normalization. cbn [sum]. right. unfold w. field. split; lra.
Qed.

(* ---- atoms ---- *)
Lemma neg_div c z r : 0 < r -> c <= z -> - z / r <= - c / r.
Proof. intros Hr H. unfold Rdiv. apply Rmult_le_compat_r; [left; apply Rinv_0_lt_compat; exact Hr|lra]. Qed.
Lemma neg_div0 c r : 0 < r -> 0 <= c -> - c / r <= 0.
Proof. intros Hr H. unfold Rdiv. pose proof (Rinv_0_lt_compat r Hr). nra. Qed.
Lemma tf_atom Z r : (1 <= Z)%Z -> 0 < r -> exists v, V_TFAtom Z r = Fin v /\ - IZR Z / r <= v < 0.
Proof.
  intros HZ Hr. destruct (tf_between r Z ltac:(lia) ltac:(lra)) as (c & E & B & P). specialize (P HZ). unfold V_TFAtom, fpdiv. rewrite E, fdiv_fin by lra. eexists. split; [reflexivity|].
  split; [apply neg_div; lra|]. pose proof (Rinv_0_lt_compat r Hr). unfold Rdiv. nra.
Qed.
Lemma gsz_atom Z r : (1 <= Z <= 102)%Z -> 0 < r -> exists v, V_GSZAtom Z r = Ok (Fin v) /\ - IZR Z / r <= v <= - 1 / r.
Proof.
  intros HZ Hr. destruct (gsz_element Z HZ) as (_ & G & _). destruct (G r ltac:(lra)) as (c & E & B). unfold V_GSZAtom. rewrite E. cbn [bind fpdiv]. rewrite fdiv_fin by lra. eexists. split; [reflexivity|].
  split; [apply neg_div; lra|]. replace (- 1 / r) with (- (1) / r) by (unfold Rdiv; ring). apply (neg_div 1 c r); lra.
Qed.
Lemma sap_atom nelem nrad tab Z fuel lo hi : rising nrad (tab 0%nat) -> (2 <= nrad)%nat -> (1 <= Z < Z.of_nat nelem)%Z -> (nrad <= fuel)%nat ->
  (forall i, (i < nrad)%nat -> lo <= tab (Z.to_nat Z) i <= hi) ->
  forall r, 0 < r -> exists v, V_SAPAtom nelem nrad LIP_ORDER tab fuel Z r = Ok (Fin v) /\ - hi / r <= v <= - lo / r.
Proof.
  intros H1 H2 H3 H4 H5 r Hr. destruct (sap_bounds nelem nrad tab Z fuel lo hi H1 H2 H3 H4 H5 r) as (c & E & B). unfold V_SAPAtom. change LIP_ORDER with 2%nat in *. rewrite E. cbn [bind]. rewrite fdiv_fin by lra. eexists. split; [reflexivity|].
  split; apply neg_div; lra.
Qed.
Lemma sapfe_atom charge bval r : 0 < r -> V_SAPFEAtom (Some (charge, bval)) r = Fin (- charge r / r) /\ V_SAPFEAtom None r = Fin 0.
Proof. intros Hr. split; [apply fdiv_fin; lra|reflexivity]. Qed.
(** At the origin the potentials of a positive charge are minus infinity. *)
Lemma at_origin : (forall Z, 0 < Z -> V_point Z 0 = NInf) /\ (forall Z, (1 <= Z)%Z -> V_TFAtom Z 0 = NInf) /\ forall Z, (1 <= Z <= 102)%Z -> V_GSZAtom Z 0 = Ok NInf.
Proof.
  assert (G : forall z, 0 < z -> fdiv (- z) 0 = NInf). { intros z Hz. unfold fdiv. destruct (Reqb_spec 0 0); [|lra]. destruct (Rltb_spec (- z) 0); [reflexivity|lra]. }
  split; [exact G|]. split.
  - intros Z HZ. unfold V_TFAtom. rewrite tf_origin by lia. apply G. apply IZR_lt. lia.
  - intros Z HZ. unfold V_GSZAtom. destruct (gsz_element Z HZ) as (E & _). rewrite E. cbn [bind fpdiv]. rewrite G; [reflexivity|]. apply IZR_lt. lia.
Qed.

(* ---- concrete cases ---- *)
Lemma nuclei_case : V_hollow 2 1 (/ 2) = Fin (- 2) /\ V_sphere 2 1 (/ 2) = Fin (- 11 / 4) /\ V_point 2 (/ 2) = Fin (- 4) /\
  V_hollow 2 1 2 = Fin (- 1) /\ V_sphere 2 1 2 = Fin (- 1) /\ breakpoints (Spherical 2 1) 0 3 = [1] /\ breakpoints (Hollow 2 1) 1 3 = [].
Proof.
  unfold V_hollow, V_sphere, V_point, breakpoints, break_at.
  repeat match goal with |- context [Rleb ?a ?b] => destruct (Rleb_spec a b); try (exfalso; lra) end.
  repeat match goal with |- context [Rltb ?a ?b] => destruct (Rltb_spec a b); try (exfalso; lra) end. rewrite !fdiv_fin by lra.
  repeat split; try reflexivity; f_equal; field.
Qed.
Lemma gauss_case : exists erf, is_erf erf /\ 0 < / 1000 <= / 42 /\ 0 < gauss_mu 2 /\ exists r, 0 < r /\ gauss_cut (/ 1000) (gauss_mu 2) < r.
Proof.
  exists PotErf.erf. split; [exact erf_exists|]. split; [lra|]. assert (H : 0 < gauss_mu 2) by (unfold gauss_mu; apply Rdiv_lt_0_compat; [apply sqrt_lt_R0; lra|lra]). split; [exact H|].
  exists (gauss_cut (/ 1000) (gauss_mu 2) + 1). pose proof (cut_pos (/ 1000) (gauss_mu 2) H). lra.
Qed.
Lemma reg_case : cbrt (/ 1000) = / 10 /\ cbrt (/ 1000) < 2 * 1.
Proof.
  assert (E : cbrt (/ 1000) = / 10); [|rewrite E; split; lra]. unfold cbrt. destruct (Rltb_spec 0 (/ 1000)); [|lra].
  replace (/ 1000) with (Rpower (/ 10) (INR 3)) by (rewrite Rpower_pow by lra; cbn [pow]; field). rewrite Rpower_mult. replace (INR 3 * (1 / 3)) with 1 by (cbn; field). apply Rpower_1. lra.
Qed.
Lemma orb_case : radial_STO 1 0 1 = 2 * exp (- 1) /\ double_factorial 5 = 15 /\ factorial 4 = 24.
Proof.
  split; [|split; [cbn; lra|cbn; lra]]. unfold radial_STO. rewrite fact_fold. replace (INR (fact (2 * 0 + 2))) with 2 by (cbn; lra). replace (INR 0) with 0 by reflexivity.
  replace (0 + 3 / 2) with (1 + / 2) by field. replace (2 * 1) with 2 by ring. rewrite Rpower_plus, Rpower_1, Rpower_sqrt by lra. replace (Ropp 1 * 1) with (-1) by ring. cbn [pow]. field. apply Rgt_not_eq, sqrt_lt_R0. lra.
Qed.
Lemma atom_case : exists v, V_GSZAtom 10 1 = Ok (Fin v) /\ - 10 / 1 <= v <= - 1 / 1.
Proof. apply gsz_atom; [lia|lra]. Qed.
