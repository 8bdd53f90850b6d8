(** Point, hollow, spherical and Gaussian nuclei. *)
Require Import Reals Lra Lia List Arith Bool ZArith.
Require Import Verif.Prelude Verif.SadSpec Verif.SadAtom Verif.SadWit Verif.LegMath Verif.TabModel Verif.PotModel Verif.PotSpec.
Import ListNotations.
Open Scope R_scope.

Lemma fdiv_fin z r : r <> 0 -> fdiv z r = Fin (z / r).
Proof. intros H. unfold fdiv. destruct (Reqb_spec r 0); [congruence|reflexivity]. Qed.
Lemma point_values Z : values (V_point Z) (fun r => - Z / r).
Proof. intros r Hr. apply fdiv_fin. lra. Qed.

(* ---- hollow ---- *)
Lemma hollow_values Z R0 : 0 < R0 -> forall r, 0 <= r -> V_hollow Z R0 r = Fin (- Z / Rmax r R0).
Proof.
  intros H0 r Hr. unfold V_hollow. destruct (Rleb_spec R0 r).
  - rewrite fdiv_fin by lra. rewrite Rmax_left by lra. reflexivity.
  - rewrite fdiv_fin by lra. rewrite Rmax_right by lra. reflexivity.
Qed.
Lemma max_lip x y c : Rabs (Rmax x c - Rmax y c) <= Rabs (x - y).
Proof. unfold Rmax. destruct (Rle_dec x c), (Rle_dec y c); repeat (unfold Rabs; destruct Rcase_abs); lra. Qed.
Lemma max_cont c x : continuity_pt (fun y => Rmax y c) x.
Proof.
  intros e He. exists e. split; [exact He|]. intros y [_ Hy]. cbn in *. unfold R_dist in *. eapply Rle_lt_trans; [apply max_lip|exact Hy].
Qed.
Lemma hollow_cont Z R0 : 0 < R0 -> forall x, continuity_pt (fun r => - Z / Rmax r R0) x.
Proof.
  intros H0 x. apply (continuity_pt_div (fun _ => - Z) (fun r => Rmax r R0)); [apply continuity_pt_const; intros a b; reflexivity|apply max_cont|].
  pose proof (Rmax_r x R0). lra.
Qed.

(* ---- ball ---- *)
Definition ball (Z R0 r : R) : R := - Z * (let m := Rmin r R0 in let M := Rmax r R0 in (3 - (m / R0) ^ 2) / 2 * (1 / R0) + (1 / M - 1 / R0)).
Lemma ball_values Z R0 : 0 < R0 -> forall r, 0 <= r -> V_sphere Z R0 r = Fin (ball Z R0 r).
Proof.
  intros H0 r Hr. unfold V_sphere, ball. cbv zeta. destruct (Rleb_spec R0 r).
  - rewrite fdiv_fin by lra. rewrite Rmax_left, Rmin_right by lra. f_equal. field. lra.
  - rewrite Rmax_right, Rmin_left by lra. f_equal. field. lra.
Qed.
Lemma min_lip x y c : Rabs (Rmin x c - Rmin y c) <= Rabs (x - y).
Proof. unfold Rmin. destruct (Rle_dec x c), (Rle_dec y c); repeat (unfold Rabs; destruct Rcase_abs); lra. Qed.
Lemma min_cont c x : continuity_pt (fun y => Rmin y c) x.
Proof.
  intros e He. exists e. split; [exact He|]. intros y [_ Hy]. cbn in *. unfold R_dist in *. eapply Rle_lt_trans; [apply min_lip|exact Hy].
Qed.
Lemma const_cont c x : continuity_pt (fun _ => c) x.
Proof. apply continuity_pt_const. intros a b. reflexivity. Qed.
Lemma ball_cont Z R0 : 0 < R0 -> forall x, continuity_pt (ball Z R0) x.
Proof.
  intros H0 x. unfold ball. cbv zeta. apply (continuity_pt_mult (fun _ => - Z)); [apply const_cont|].
  apply (continuity_pt_plus (fun r => (3 - (Rmin r R0 / R0) ^ 2) / 2 * (1 / R0)) (fun r => 1 / Rmax r R0 - 1 / R0)).
  - apply (continuity_pt_mult (fun r => (3 - (Rmin r R0 / R0) ^ 2) / 2) (fun _ => 1 / R0)); [|apply const_cont].
    apply (continuity_pt_mult (fun r => 3 - (Rmin r R0 / R0) ^ 2) (fun _ => / 2)); [|apply const_cont].
    apply (continuity_pt_minus (fun _ => 3) (fun r => (Rmin r R0 / R0) ^ 2)); [apply const_cont|]. cbn [pow].
    assert (M : continuity_pt (fun r => Rmin r R0 / R0) x) by (apply (continuity_pt_mult (fun r => Rmin r R0) (fun _ => / R0)); [apply min_cont|apply const_cont]).
    apply (continuity_pt_mult (fun r => Rmin r R0 / R0) (fun r => Rmin r R0 / R0 * 1)); [exact M|].
    apply (continuity_pt_mult (fun r => Rmin r R0 / R0) (fun _ => 1)); [exact M|apply const_cont].
  - apply (continuity_pt_minus (fun r => 1 / Rmax r R0) (fun _ => 1 / R0)); [|apply const_cont].
    apply (continuity_pt_div (fun _ => 1) (fun r => Rmax r R0)); [apply const_cont|apply max_cont|]. pose proof (Rmax_r x R0). lra.
Qed.
Lemma inv_order a b : 0 < a -> a <= b -> / b <= / a.
Proof. intros. apply Rinv_le_contravar; assumption. Qed.
(** Between the value at the origin, or of the point charge, and zero. *)
Lemma hollow_bounds Z R0 r : 0 < R0 -> 0 <= Z -> 0 < r -> - Z / R0 <= - Z / Rmax r R0 <= 0 /\ - Z / r <= - Z / Rmax r R0.
Proof.
  intros H0 HZ Hr. pose proof (Rmax_l r R0). pose proof (Rmax_r r R0).
  pose proof (inv_order R0 (Rmax r R0) H0 H1). pose proof (inv_order r (Rmax r R0) Hr H).
  assert (0 < / Rmax r R0) by (apply Rinv_0_lt_compat; lra). unfold Rdiv. split; [split|]; nra.
Qed.
Lemma ball_bounds Z R0 r : 0 < R0 -> 0 <= Z -> 0 < r -> - (3 * Z) / (2 * R0) <= ball Z R0 r <= 0 /\ - Z / r <= ball Z R0 r.
Proof.
  intros H0 HZ Hr. unfold ball. cbv zeta. destruct (Rle_lt_dec R0 r) as [H|H].
  - rewrite Rmax_left, Rmin_right by lra.
    replace (- Z * ((3 - (R0 / R0) ^ 2) / 2 * (1 / R0) + (1 / r - 1 / R0))) with (- Z / r) by (field; lra).
    pose proof (inv_order R0 r H0 H) as I. assert (0 < / r) by (apply Rinv_0_lt_compat; lra).
    replace (- (3 * Z) / (2 * R0)) with (- (3 / 2 * Z) * / R0) by (field; lra). unfold Rdiv. repeat split; nra.
  - rewrite Rmax_right, Rmin_left by lra. set (q := r / R0). assert (Hq : 0 < q < 1).
    { unfold q. split; [apply Rdiv_lt_0_compat; assumption|]. apply Rmult_lt_reg_r with R0; [exact H0|]. unfold Rdiv. rewrite Rmult_assoc, Rinv_l by lra. lra. }
    replace (- Z * ((3 - q ^ 2) / 2 * (1 / R0) + (1 / R0 - 1 / R0))) with (- (Z * / R0) * ((3 - q ^ 2) / 2)) by (field; lra).
    replace (- (3 * Z) / (2 * R0)) with (- (Z * / R0) * (3 / 2)) by (field; lra).
    replace (- Z / r) with (- (Z * / R0) * (/ q)) by (unfold q; field; lra).
    assert (HW : 0 <= Z * / R0) by (apply Rmult_le_pos; [exact HZ|left; apply Rinv_0_lt_compat; exact H0]). set (W := Z * / R0) in *.
    assert (Q1 : 0 <= (3 - q ^ 2) / 2 <= 3 / 2) by (cbn [pow]; nra).
    assert (Q2 : (3 - q ^ 2) / 2 <= / q).
    { apply Rmult_le_reg_r with q; [lra|]. rewrite Rinv_l by lra. cbn [pow]. pose proof (Rmult_le_pos ((1 - q) * (1 - q)) (q + 2) ltac:(nra) ltac:(lra)). nra. }
    split; [split|]; nra.
Qed.
Lemma origin_values Z R0 : 0 < R0 -> V_hollow Z R0 0 = Fin (- Z / R0) /\ V_sphere Z R0 0 = Fin (- (3 * Z) / (2 * R0)).
Proof.
  intros H0. split.
  - rewrite hollow_values by lra. rewrite Rmax_right by lra. reflexivity.
  - rewrite ball_values by lra. unfold ball. rewrite Rmax_right, Rmin_left by lra. f_equal. field. lra.
Qed.
Lemma outside Z R0 r : 0 < r -> R0 <= r -> V_hollow Z R0 r = V_point Z r /\ V_sphere Z R0 r = V_point Z r.
Proof. intros Hr H. unfold V_hollow, V_sphere, V_point. destruct (Rleb_spec R0 r); [split; reflexivity|lra]. Qed.

(** The break points are those at which the ball and the shell are not smooth. *)
Lemma breaks_ok n a b x : In x (breakpoints n a b) <->
  a < x < b /\ match n with Spherical _ R0 => x = R0 | Hollow _ R0 => x = R0 | _ => False end.
Proof.
  assert (G : forall R0, In x (break_at R0 a b) <-> a < x < b /\ x = R0).
  { intros R0. unfold break_at. destruct (Rltb_spec a R0), (Rltb_spec R0 b); cbn [andb In]; split; intros H; try tauto.
    - destruct H as [<-|[]]. split; [lra|reflexivity].
    - left. symmetry. tauto.
    - destruct H as [H ->]. lra.
    - destruct H as [H ->]. lra.
    - destruct H as [H ->]. lra. }
  destruct n; cbn [breakpoints In]; try tauto; apply G.
Qed.
Lemma sapfe_breaks charge bval a b x : In x (breaks_SAPFEAtom (Some (charge, bval)) a b) <-> In x bval /\ a < x < b.
Proof.
  cbn [breaks_SAPFEAtom]. rewrite filter_In. destruct (Rltb_spec a x), (Rltb_spec x b); cbn [andb]; split; intros [H1 H2]; try discriminate; try (split; [exact H1|]); try lra; reflexivity.
Qed.

(* ---- the charge distributions ---- *)
Ltac ders := repeat first [exact (lim_const _ _) | apply lim_id | apply lim_scal | apply lim_minus | apply lim_plus | apply lim_mul].

(** Ball: unit charge, mean square radius, and the potential of the enclosed and the outer
    charge. *)
Lemma ball_integrals R0 : 0 < R0 ->
  is_int (fun s => 4 * PI * (s * s) * ball_density R0) 0 R0 1 /\
  is_int (fun s => 4 * PI * (s * s) * (s * s) * ball_density R0) 0 R0 (3 / 5 * (R0 * R0)) /\
  forall r, 0 < r <= R0 ->
    is_int (fun s => 4 * PI * (s * s) * ball_density R0) 0 r ((r / R0) ^ 3) /\
    is_int (fun s => 4 * PI * s * ball_density R0) r R0 (3 / (2 * R0) * (1 - (r / R0) ^ 2)).
Proof.
  intros H0. pose proof PI_RGT_0 as HP. set (k := 4 * PI * ball_density R0).
  assert (Ek : k = 3 / (R0 * R0 * R0)) by (unfold k, ball_density; field; split; lra).
  assert (Q : forall a b, a <= b -> is_int (fun s => 4 * PI * (s * s) * ball_density R0) a b (k / 3 * (b * b * b) - k / 3 * (a * a * a))).
  { intros a b Hab. apply (ftc (fun s => k / 3 * (s * s * s))); [|reg|exact Hab]. intros x. eapply lim_eq; [|ders]. cbv beta. unfold k. field. }
  assert (M : forall a b, a <= b -> is_int (fun s => 4 * PI * s * ball_density R0) a b (k / 2 * (b * b) - k / 2 * (a * a))).
  { intros a b Hab. apply (ftc (fun s => k / 2 * (s * s))); [|reg|exact Hab]. intros x. eapply lim_eq; [|ders]. cbv beta. unfold k. field. }
  split; [|split].
  - replace 1 with (k / 3 * (R0 * R0 * R0) - k / 3 * (0 * 0 * 0)) by (rewrite Ek; field; lra). apply Q. lra.
  - replace (3 / 5 * (R0 * R0)) with (k / 5 * (R0 * R0 * R0 * R0 * R0) - k / 5 * (0 * 0 * 0 * 0 * 0)) by (rewrite Ek; field; lra).
    apply (ftc (fun s => k / 5 * (s * s * s * s * s))); [|reg|lra]. intros x. eapply lim_eq; [|ders]. cbv beta. unfold k. field.
  - intros r Hr. split.
    + replace ((r / R0) ^ 3) with (k / 3 * (r * r * r) - k / 3 * (0 * 0 * 0)) by (rewrite Ek; field; lra). apply Q. lra.
    + replace (3 / (2 * R0) * (1 - (r / R0) ^ 2)) with (k / 2 * (R0 * R0) - k / 2 * (r * r)) by (rewrite Ek; field; lra). apply M. lra.
Qed.
Lemma sphere_electrostatic Z Rrms : 0 < Rrms -> let R0 := sphere_radius Rrms in
  0 < R0 /\
  is_int (fun s => 4 * PI * (s * s) * ball_density R0) 0 R0 1 /\
  is_int (fun s => 4 * PI * (s * s) * (s * s) * ball_density R0) 0 R0 (Rrms ^ 2) /\
  forall r, 0 < r <= R0 -> exists q w,
    is_int (fun s => 4 * PI * (s * s) * ball_density R0) 0 r q /\
    is_int (fun s => 4 * PI * s * ball_density R0) r R0 w /\
    V_sphere Z R0 r = Fin (- Z * (q / r + w)).
Proof.
  intros Hr R0. assert (H0 : 0 < R0). { unfold R0, sphere_radius. apply Rmult_lt_0_compat; [apply sqrt_lt_R0; lra|exact Hr]. }
  destruct (ball_integrals R0 H0) as (I1 & I2 & I3). split; [exact H0|]. split; [exact I1|]. split.
  - replace (Rrms ^ 2) with (3 / 5 * (R0 * R0)); [exact I2|]. unfold R0, sphere_radius. pose proof (sqrt_sqrt (5 / 3) ltac:(lra)) as E.
    replace (3 / 5 * (sqrt (5 / 3) * Rrms * (sqrt (5 / 3) * Rrms))) with (3 / 5 * (sqrt (5 / 3) * sqrt (5 / 3)) * (Rrms * Rrms)) by ring. rewrite E. field.
  - intros r Hrr. destruct (I3 r Hrr) as [J1 J2]. exists ((r / R0) ^ 3), (3 / (2 * R0) * (1 - (r / R0) ^ 2)). split; [exact J1|]. split; [exact J2|].
    rewrite ball_values by lra. f_equal. unfold ball. cbv zeta. rewrite Rmax_right, Rmin_left by lra. field. lra.
Qed.

(* ---- the error function ---- *)
Section Erf.
Variables (erf : R -> R) (He : is_erf erf).
Lemma exp_le x y : x <= y -> exp x <= exp y.
Proof. intros [H| ->]; [left; apply exp_increasing; exact H|lra]. Qed.
Lemma mono f f' a b : a <= b -> (forall x, derivable_pt_lim f x (f' x)) -> (forall x, a <= x <= b -> 0 <= f' x) -> f a <= f b.
Proof.
  intros [Hab| ->] Hf Hp; [|lra]. destruct (MVT_cor2 f f' a b Hab) as (c & Ec & Hc); [intros; apply Hf|].
  assert (0 <= f' c * (b - a)) by (apply Rmult_le_pos; [apply Hp; lra|lra]). lra.
Qed.
Lemma sqrtpi : 0 < sqrt PI.
Proof. apply sqrt_lt_R0, PI_RGT_0. Qed.
Lemma sqrtpi2 : sqrt PI * sqrt PI = PI.
Proof. apply sqrt_sqrt. left. apply PI_RGT_0. Qed.
Lemma erf_mono x y : x <= y -> erf x <= erf y.
Proof.
  intros H. apply (mono erf (fun x => 2 / sqrt PI * exp (- (x * x)))); [exact H|apply He|].
  intros z _. apply Rmult_le_pos; [left; apply Rdiv_lt_0_compat; [lra|apply sqrtpi]|left; apply exp_pos].
Qed.
Lemma erf_le_1 x : erf x <= 1.
Proof.
  destruct (Rle_lt_dec (erf x) 1) as [H|H]; [exact H|]. exfalso. destruct He as (_ & _ & L). destruct (L (erf x - 1) ltac:(lra)) as (X & HX).
  specialize (HX (Rmax X x) (Rmax_l _ _)). pose proof (erf_mono x (Rmax X x) (Rmax_r _ _)). apply Rabs_def2 in HX. lra.
Qed.
Lemma erf_nonneg x : 0 <= x -> 0 <= erf x.
Proof. intros H. rewrite <- (proj1 He). apply erf_mono. exact H. Qed.

(** Alternating bounds of exp(-y) and erf. *)
Lemma lim_exp f x a : derivable_pt_lim f x a -> derivable_pt_lim (fun y => exp (f y)) x (exp (f x) * a).
Proof. intros H. apply (derivable_pt_lim_comp f exp x); [exact H|apply derivable_pt_lim_exp]. Qed.
Lemma lim_opp f x a : derivable_pt_lim f x a -> derivable_pt_lim (fun y => - f y) x (- a).
Proof. intros H. apply (derivable_pt_lim_opp f x a H). Qed.
Ltac mono_tac f f' y := let M := fresh in pose proof (mono f f' 0 y ltac:(lra)) as M; cbv beta in M; rewrite ?Rmult_0_r, ?Ropp_0, ?exp_0 in M.
Lemma exp_neg0 y : 0 <= y -> exp (- y) <= 1.
Proof. intros H. rewrite <- exp_0. apply exp_le. lra. Qed.
Lemma exp_neg1 y : 0 <= y -> 1 - y <= exp (- y).
Proof. intros H. pose proof (exp_ineq1_le (- y)). lra. Qed.
Lemma exp_neg2 y : 0 <= y -> exp (- y) <= 1 - y + y * y / 2.
Proof.
  intros H. pose proof (mono (fun y => 1 - y + / 2 * (y * y) - exp (- y)) (fun y => y - 1 + exp (- y)) 0 y H) as M. cbv beta in M.
  assert (0 <= 1 - y + / 2 * (y * y) - exp (- y)); [|lra].
  eapply Rle_trans; [|apply M].
  - rewrite Ropp_0, exp_0. lra.
  - intros x. eapply lim_eq; [|apply lim_minus; [ders|apply lim_exp, lim_opp, lim_id]]. cbv beta. field.
  - intros x Hx. pose proof (exp_neg1 x ltac:(lra)). lra.
Qed.
Lemma exp_neg3 y : 0 <= y -> 1 - y + y * y / 2 - y * y * y / 6 <= exp (- y).
Proof.
  intros H. pose proof (mono (fun y => exp (- y) - (1 - y + / 2 * (y * y) - / 6 * (y * y * y))) (fun y => 1 - y + y * y / 2 - exp (- y)) 0 y H) as M. cbv beta in M.
  assert (0 <= exp (- y) - (1 - y + / 2 * (y * y) - / 6 * (y * y * y))); [|lra].
  eapply Rle_trans; [|apply M].
  - rewrite Ropp_0, exp_0. lra.
  - intros x. eapply lim_eq; [|apply lim_minus; [apply lim_exp, lim_opp, lim_id|ders]]. cbv beta. field.
  - intros x Hx. pose proof (exp_neg2 x ltac:(lra)). lra.
Qed.
Lemma exp_neg4 y : 0 <= y -> exp (- y) <= 1 - y + y * y / 2 - y * y * y / 6 + y * y * y * y / 24.
Proof.
  intros H. pose proof (mono (fun y => (1 - y + / 2 * (y * y) - / 6 * (y * y * y) + / 24 * (y * y * y * y)) - exp (- y)) (fun y => exp (- y) - (1 - y + y * y / 2 - y * y * y / 6)) 0 y H) as M. cbv beta in M.
  assert (0 <= (1 - y + / 2 * (y * y) - / 6 * (y * y * y) + / 24 * (y * y * y * y)) - exp (- y)); [|lra].
  eapply Rle_trans; [|apply M].
  - rewrite Ropp_0, exp_0. lra.
  - intros x. eapply lim_eq; [|apply lim_minus; [ders|apply lim_exp, lim_opp, lim_id]]. cbv beta. field.
  - intros x Hx. pose proof (exp_neg3 x ltac:(lra)). lra.
Qed.
(** x - x^3/3 + x^5/10 - x^7/42 <= sqrt(pi)/2 erf x <= the same + x^9/216. *)
Definition series (x : R) : R := x - x * x * x / 3 + x * x * x * x * x / 10 - x * x * x * x * x * x * x / 42.
Lemma erf_series x : 0 <= x -> 2 / sqrt PI * series x <= erf x <= 2 / sqrt PI * (series x + x * x * x * x * x * x * x * x * x / 216).
Proof.
  intros H. pose proof sqrtpi as HP. destruct He as (E0 & ED & _). set (k := 2 / sqrt PI) in *. assert (Hk : 0 < k) by (apply Rdiv_lt_0_compat; lra).
  assert (Y : forall z, 0 <= z * z) by (intros; nra).
  split.
  - pose proof (mono (fun x => erf x - k * (x - / 3 * (x * x * x) + / 10 * (x * x * x * x * x) - / 42 * (x * x * x * x * x * x * x)))
        (fun x => k * exp (- (x * x)) - k * (1 - x * x + (x * x) * (x * x) / 2 - (x * x) * (x * x) * (x * x) / 6)) 0 x H) as M. cbv beta in M.
    assert (0 <= erf x - k * (x - / 3 * (x * x * x) + / 10 * (x * x * x * x * x) - / 42 * (x * x * x * x * x * x * x))); [|unfold series; lra].
    eapply Rle_trans; [|apply M].
    + rewrite E0. lra.
    + intros y. eapply lim_eq; [|apply lim_minus; [apply ED|ders]]. cbv beta. field.
    + intros y _. pose proof (exp_neg3 (y * y) (Y y)). assert (k * (1 - y * y + y * y * (y * y) / 2 - y * y * (y * y) * (y * y) / 6) <= k * exp (- (y * y))) by (apply Rmult_le_compat_l; lra). lra.
  - pose proof (mono (fun x => k * (x - / 3 * (x * x * x) + / 10 * (x * x * x * x * x) - / 42 * (x * x * x * x * x * x * x) + / 216 * (x * x * x * x * x * x * x * x * x)) - erf x)
        (fun x => k * (1 - x * x + (x * x) * (x * x) / 2 - (x * x) * (x * x) * (x * x) / 6 + (x * x) * (x * x) * (x * x) * (x * x) / 24) - k * exp (- (x * x))) 0 x H) as M. cbv beta in M.
    assert (0 <= k * (x - / 3 * (x * x * x) + / 10 * (x * x * x * x * x) - / 42 * (x * x * x * x * x * x * x) + / 216 * (x * x * x * x * x * x * x * x * x)) - erf x); [|unfold series; lra].
    eapply Rle_trans; [|apply M].
    + rewrite E0. lra.
    + intros y. eapply lim_eq; [|apply lim_minus; [ders|apply ED]]. cbv beta. field.
    + intros y _. pose proof (exp_neg4 (y * y) (Y y)).
      assert (k * exp (- (y * y)) <= k * (1 - y * y + y * y * (y * y) / 2 - y * y * (y * y) * (y * y) / 6 + y * y * (y * y) * (y * y) * (y * y) / 24)) by (apply Rmult_le_compat_l; lra). lra.
Qed.
Lemma erf_slope x : 0 <= x -> erf x <= 2 / sqrt PI * x.
Proof.
  intros H. pose proof sqrtpi as HP. destruct He as (E0 & ED & _). set (k := 2 / sqrt PI) in *. assert (Hk : 0 < k) by (apply Rdiv_lt_0_compat; lra).
  pose proof (mono (fun x => k * x - erf x) (fun x => k * 1 - k * exp (- (x * x))) 0 x H) as M. cbv beta in M.
  assert (0 <= k * x - erf x); [|lra]. eapply Rle_trans; [|apply M].
  - rewrite E0. lra.
  - intros y. apply lim_minus; [apply lim_scal, lim_id|apply ED].
  - intros y _. pose proof (exp_neg0 (y * y) ltac:(nra)). nra.
Qed.
End Erf.
