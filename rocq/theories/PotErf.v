(** The error function exists: the integral of exp(-t^2), scaled to tend to one. *)
Require Import Reals Lra Lia.
From Coquelicot Require Import Coquelicot.
Open Scope R_scope.

Definition bell (t : R) : R := exp (- (t * t)).
Definition gint (x : R) : R := RInt bell 0 x.
Lemma bell_cont x : continuous bell x.
Proof. apply (ex_derive_continuous (V := R_NormedModule)). unfold bell. auto_derive. exact I. Qed.
Lemma gint_derive x : is_derive gint x (bell x).
Proof.
  unfold gint. apply (is_derive_RInt bell _ 0); [|apply bell_cont].
  exists (mkposreal 1 Rlt_0_1). intros y _. apply (RInt_correct (V := R_CompleteNormedModule)), (ex_RInt_continuous (V := R_CompleteNormedModule)). intros z _. apply bell_cont.
Qed.
Lemma gint_0 : gint 0 = 0.
Proof. unfold gint. rewrite RInt_point. reflexivity. Qed.

Definition inner (x t : R) : R := exp (- (x * x) * (1 + t * t)) / (1 + t * t).
Lemma den_pos t : 0 < 1 + t * t.
Proof. pose proof (Rle_0_sqr t). unfold Rsqr in H. lra. Qed.
Definition side (x : R) : R := RInt (inner x) 0 1.
Lemma inner_cont x t : continuous (inner x) t.
Proof. apply (ex_derive_continuous (V := R_NormedModule)). unfold inner. auto_derive. pose proof (den_pos t). lra. Qed.
Lemma inner_derive x t : is_derive (fun u => inner u t) x (- 2 * x * exp (- (x * x) * (1 + t * t))).
Proof. unfold inner. auto_derive; [pose proof (den_pos t); lra|]. field. pose proof (den_pos t). lra. Qed.
Lemma inner_ex x : ex_RInt (inner x) 0 1.
Proof. apply (ex_RInt_continuous (V := R_CompleteNormedModule)). intros z _. apply inner_cont. Qed.
Lemma slope_cont x t : continuity_2d_pt (fun u v => - 2 * u * exp (- (u * u) * (1 + v * v))) x t.
Proof.
  apply continuity_2d_pt_mult.
  - apply continuity_2d_pt_mult; [apply continuity_2d_pt_const|apply continuity_2d_pt_id1].
  - apply (continuity_1d_2d_pt_comp exp (fun u v => - (u * u) * (1 + v * v))).
    + apply derivable_continuous_pt. apply derivable_pt_exp.
    + apply continuity_2d_pt_mult.
      * apply continuity_2d_pt_opp. apply continuity_2d_pt_mult; apply continuity_2d_pt_id1.
      * apply continuity_2d_pt_plus; [apply continuity_2d_pt_const|]. apply continuity_2d_pt_mult; apply continuity_2d_pt_id2.
Qed.
Lemma side_derive0 x : is_derive side x (RInt (fun t => - 2 * x * exp (- (x * x) * (1 + t * t))) 0 1).
Proof.
  rewrite <- (RInt_ext (fun t => Derive (fun u => inner u t) x)).
  2: { intros t _. apply is_derive_unique, inner_derive. }
  apply (is_derive_RInt_param inner 0 1 x).
  - exists (mkposreal 1 Rlt_0_1). intros y _ t _. eexists. apply inner_derive.
  - intros t _. apply (continuity_2d_pt_ext (fun u v => - 2 * u * exp (- (u * u) * (1 + v * v)))); [|apply slope_cont].
    intros u v. symmetry. apply is_derive_unique, inner_derive.
  - exists (mkposreal 1 Rlt_0_1). intros y _. apply inner_ex.
Qed.
Lemma side_derive x : is_derive side x (- 2 * bell x * gint x).
Proof.
  replace (- 2 * bell x * gint x) with (RInt (fun t => - 2 * x * exp (- (x * x) * (1 + t * t))) 0 1); [apply side_derive0|].
  transitivity (RInt (fun t => scal (- 2 * bell x) (scal x (bell (x * t + 0)))) 0 1).
  - apply RInt_ext. intros t _. unfold scal. cbn. unfold mult. cbn. unfold bell.
    replace (- (x * x) * (1 + t * t)) with (- (x * x) + - ((x * t + 0) * (x * t + 0))) by ring. rewrite exp_plus. ring.
  - assert (Ex : ex_RInt (fun t => scal x (bell (x * t + 0))) 0 1).
    { apply (ex_RInt_continuous (V := R_CompleteNormedModule)). intros z _. apply (ex_derive_continuous (V := R_NormedModule)). unfold scal. cbn. unfold mult. cbn. unfold bell. auto_derive. exact I. }
    rewrite (RInt_scal (V := R_CompleteNormedModule)) by exact Ex.
    assert (C : RInt (fun t => scal x (bell (x * t + 0))) 0 1 = gint x).
    { unfold gint. transitivity (RInt bell (x * 0 + 0) (x * 1 + 0)).
      2: { f_equal; ring. }
      apply (RInt_comp_lin (V := R_CompleteNormedModule) bell x 0 0 1).
      apply (ex_RInt_continuous (V := R_CompleteNormedModule)). intros z _. apply bell_cont. }
    apply (f_equal (fun v => - 2 * bell x * v)) in C. exact C.
Qed.

(** gint^2 + side does not change. *)
Lemma total_derive x : is_derive (fun x => gint x * gint x + side x) x 0.
Proof.
  replace 0 with (plus (plus (mult (bell x) (gint x)) (mult (gint x) (bell x))) (- 2 * bell x * gint x)).
  - apply (is_derive_plus (fun x => gint x * gint x) side); [|apply side_derive].
    apply (is_derive_mult gint gint); [apply gint_derive|apply gint_derive|]. intros; apply Rmult_comm.
  - unfold plus, mult. cbn. ring.
Qed.
Lemma side_0 : side 0 = PI / 4.
Proof.
  unfold side. rewrite <- atan_1. apply is_RInt_unique.
  replace (atan 1) with (minus (atan 1) (atan 0)) by (rewrite atan_0; unfold minus, plus, opp; cbn; ring).
  apply (is_RInt_derive (V := R_CompleteNormedModule) atan (inner 0)).
  - intros x _. unfold inner. replace (exp (- (0 * 0) * (1 + x * x))) with 1 by (rewrite Rmult_0_l, Ropp_0, Rmult_0_l, exp_0; reflexivity).
    apply is_derive_Reals. replace (1 / (1 + x * x)) with (/ (1 + x ^ 2)); [apply derivable_pt_lim_atan|]. cbn [pow]. field. pose proof (den_pos x). lra.
  - intros x _. apply inner_cont.
Qed.
Lemma total x : gint x * gint x + side x = PI / 4.
Proof.
  rewrite <- side_0. replace (side 0) with (gint 0 * gint 0 + side 0) by (rewrite gint_0; ring).
  destruct (MVT_gen (fun x => gint x * gint x + side x) 0 x (fun _ => 0)) as (c & _ & E).
  - intros y _. apply total_derive.
  - intros y _. apply derivable_continuous_pt. exists 0. apply is_derive_Reals. apply total_derive.
  - cbv beta in E. lra.
Qed.
Lemma side_bounds x : 0 < side x <= bell x.
Proof.
  assert (B : forall t, 0 < inner x t <= bell x).
  { intros t. unfold inner, bell. pose proof (den_pos t). pose proof (exp_pos (- (x * x) * (1 + t * t))). pose proof (Rle_0_sqr x) as Hx. pose proof (Rle_0_sqr t) as Ht. unfold Rsqr in *.
    split; [apply Rdiv_lt_0_compat; assumption|].
    apply Rle_trans with (exp (- (x * x) * (1 + t * t))).
    - apply Rmult_le_reg_r with (1 + t * t); [assumption|]. unfold Rdiv. rewrite Rmult_assoc, Rinv_l by lra. nra.
    - assert (- (x * x) * (1 + t * t) <= - (x * x)) as [H1|H1] by nra; [left; apply exp_increasing; exact H1|rewrite H1; lra]. }
  split.
  - unfold side. apply RInt_gt_0; [lra| |].
    + intros t _. apply B.
    + intros t _. apply inner_cont.
  - unfold side. replace (bell x) with (RInt (fun _ => bell x) 0 1) by (rewrite RInt_const; unfold scal; cbn; unfold mult; cbn; ring).
    apply RInt_le; [lra|apply inner_ex|apply ex_RInt_const|]. intros t _. apply B.
Qed.

Definition erf (x : R) : R := 2 / sqrt PI * gint x.
Lemma sqrtpi_pos : 0 < sqrt PI.
Proof. apply sqrt_lt_R0, PI_RGT_0. Qed.
Lemma sqrtpi_sqr : sqrt PI * sqrt PI = PI.
Proof. apply sqrt_sqrt. left. apply PI_RGT_0. Qed.
Lemma erf_derive x : derivable_pt_lim erf x (2 / sqrt PI * exp (- (x * x))).
Proof.
  apply is_derive_Reals. unfold erf. apply (is_derive_scal gint x (2 / sqrt PI)). apply gint_derive.
Qed.
Lemma erf_0 : erf 0 = 0.
Proof. unfold erf. rewrite gint_0. ring. Qed.
Lemma erf_square x : 1 - 4 / PI * bell x <= erf x * erf x < 1.
Proof.
  pose proof (total x) as T. pose proof (side_bounds x) as S. pose proof PI_RGT_0.
  assert (E : erf x * erf x = 4 / PI * (gint x * gint x)).
  { unfold erf. pose proof sqrtpi_pos. rewrite <- sqrtpi_sqr at 3. field. lra. }
  rewrite E. replace (gint x * gint x) with (PI / 4 - side x) by lra.
  replace (4 / PI * (PI / 4 - side x)) with (1 - 4 / PI * side x) by (field; lra).
  assert (0 < 4 / PI) by (apply Rdiv_lt_0_compat; lra). split; nra.
Qed.
Lemma erf_lt_1 x : erf x < 1.
Proof. pose proof (erf_square x). nra. Qed.
Lemma gint_pos x : 0 < x -> 0 < gint x.
Proof. intros H. unfold gint. apply RInt_gt_0; [exact H| |]; intros t _; [apply exp_pos|apply bell_cont]. Qed.
Lemma erf_limit e : 0 < e -> exists X, forall x, X <= x -> 1 - e < erf x.
Proof.
  intros He. pose proof PI_RGT_0 as HP. set (k := 4 / PI). assert (Hk : 0 < k) by (apply Rdiv_lt_0_compat; lra).
  exists (1 + k / e). intros x Hx. assert (He' : 0 < k / e) by (apply Rdiv_lt_0_compat; assumption).
  assert (Hb : bell x < e / k).
  { unfold bell. rewrite exp_Ropp. assert (k / e < exp (x * x)). { apply Rlt_le_trans with (1 + x * x); [nra|apply exp_ineq1_le]. }
    replace (e / k) with (/ (k / e)) by (field; split; lra). apply Rinv_lt_contravar; [apply Rmult_lt_0_compat; [exact He'|apply exp_pos]|exact H]. }
  pose proof (erf_square x) as [S _]. fold k in S.
  assert (Hp : 0 < erf x). { unfold erf. apply Rmult_lt_0_compat; [apply Rdiv_lt_0_compat; [lra|apply sqrtpi_pos]|apply gint_pos; lra]. }
  assert (k * bell x < e). { replace e with (k * (e / k)) by (field; lra). apply Rmult_lt_compat_l; assumption. }
  pose proof (erf_lt_1 x). nra.
Qed.
