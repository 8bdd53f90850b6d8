(** The sum over points around the axis. *)
Require Import Reals ZArith List Bool Arith Lia Lra FunctionalExtensionality.
Require Import Verif.Prelude Verif.FEModel Verif.FESpec Verif.FEProofs Verif.AngModel Verif.AngSpec Verif.AngProofs Verif.JKModel Verif.JKProofs Verif.TwoDProofs Verif.QuadModel Verif.QuadCross Verif.QuadWit Verif.DftModel Verif.DftSpec Verif.DftProofs Verif.DftXc Verif.DftFock Verif.DftFockR Verif.DftAtom Verif.DftGrad Verif.DftMore Verif.DftGen Verif.DftWit Verif.DdfModel Verif.DdfSpec Verif.DdfProofs Verif.DdfDrv Verif.DdfMore Verif.PmModel Verif.PmSpec Verif.PmDens Verif.PmBf Verif.PmDrv Verif.PmMore.
Import ListNotations.
Local Open Scope R_scope.

(** * Points that differ by a rotation *)
Definition rot (t : R) (x : R * R) : R * R := cmul (cos t, sin t) x.
Definition cross (x y : R * R) : R := snd x * fst y - fst x * snd y.
Lemma rot_reprod s t x y : reprod (rot s x) (rot t y) = cos (t - s) * reprod x y + sin (t - s) * cross x y.
Proof. unfold rot, cmul, reprod, cross. cbn [fst snd]. rewrite cos_minus, sin_minus. ring. Qed.

Section Turn.
Variables (n : nat) (m : nat -> Z) (phi : R) (q q' : gpoint).
Record turned : Prop := {
  t_f : forall i, (i < n)%nat -> p_f q' i = rot (IZR (m i) * phi) (p_f q i);
  t_g : forall c i, (c < 3)%nat -> (i < n)%nat -> p_g q' c i = rot (IZR (m i) * phi) (p_g q c i);
  t_l : forall i, (i < n)%nat -> p_l q' i = rot (IZR (m i) * phi) (p_l q i) }.
Hypothesis T : turned.
Notation C i j := (cos (IZR (m j) * phi - IZR (m i) * phi)).
Notation S i j := (sin (IZR (m j) * phi - IZR (m i) * phi)).
Definition x_n i j := cross (p_f q i) (p_f q j).
Definition x_g c i j := cross (p_f q i) (p_g q c j) + cross (p_g q c i) (p_f q j).
Definition x_gg i j := sum 3 (fun c => cross (p_g q c i) (p_g q c j)).
Definition x_t i j := / 2 * x_gg i j.
Definition x_l i j := cross (p_f q i) (p_l q j) + cross (p_l q i) (p_f q j) + 2 * x_gg i j.
Lemma turn_n i j : (i < n)%nat -> (j < n)%nat -> pair_n q' i j = C i j * pair_n q i j + S i j * x_n i j.
Proof. intros Hi Hj. unfold pair_n. rewrite !(t_f T) by auto. apply rot_reprod. Qed.
Lemma turn_g c i j : (c < 3)%nat -> (i < n)%nat -> (j < n)%nat -> pair_g q' c i j = C i j * pair_g q c i j + S i j * x_g c i j.
Proof. intros Hc Hi Hj. unfold pair_g, x_g. rewrite !(t_f T), !(t_g T) by auto. rewrite !rot_reprod. ring. Qed.
Lemma turn_gg i j : (i < n)%nat -> (j < n)%nat -> pair_gg q' i j = C i j * pair_gg q i j + S i j * x_gg i j.
Proof.
  intros Hi Hj. unfold pair_gg, x_gg. rewrite <- !sum_scal, <- sum_plus. apply sum_ext. intros c Hc. rewrite !(t_g T) by auto. apply rot_reprod.
Qed.
Lemma turn_t i j : (i < n)%nat -> (j < n)%nat -> pair_t q' i j = C i j * pair_t q i j + S i j * x_t i j.
Proof. intros Hi Hj. unfold pair_t, x_t. rewrite turn_gg by auto. ring. Qed.
Lemma turn_l i j : (i < n)%nat -> (j < n)%nat -> pair_l q' i j = C i j * pair_l q i j + S i j * x_l i j.
Proof. intros Hi Hj. unfold pair_l, x_l. rewrite turn_gg, !(t_f T), !(t_l T) by auto. rewrite !rot_reprod. ring. Qed.

(** For a density that does not mix m nothing changes. *)
Definition mdg (P : mat) : Prop := forall i j, (i < n)%nat -> (j < n)%nat -> m i <> m j -> P i j = 0.
Lemma turn_contract P x x' X : mdg P -> (forall i j, (i < n)%nat -> (j < n)%nat -> x' i j = C i j * x i j + S i j * X i j) -> contract n P x' = contract n P x.
Proof.
  intros HP E. apply sum_ext. intros i Hi. apply sum_ext. intros j Hj. rewrite E by auto. destruct (Z.eq_dec (m i) (m j)) as [e|e].
  - rewrite e, Rminus_diag_eq by reflexivity. rewrite cos_0, sin_0. ring.
  - rewrite (HP i j Hi Hj e). ring.
Qed.
Lemma turn_dens P : mdg P -> dens n P q' = dens n P q.
Proof. intros HP. eapply turn_contract; [exact HP|exact turn_n]. Qed.
Lemma turn_grad P c : mdg P -> (c < 3)%nat -> grad n P q' c = grad n P q c.
Proof. intros HP Hc. eapply turn_contract; [exact HP|]. intros i j Hi Hj. apply (turn_g c i j Hc Hi Hj). Qed.
Lemma turn_tau P : mdg P -> tau n P q' = tau n P q.
Proof. intros HP. eapply turn_contract; [exact HP|exact turn_t]. Qed.
Lemma turn_lapl P : mdg P -> lapl n P q' = lapl n P q.
Proof. intros HP. eapply turn_contract; [exact HP|exact turn_l]. Qed.
Lemma turn_dot P Q : mdg P -> mdg Q -> dot3 (grad n P q') (grad n Q q') = dot3 (grad n P q) (grad n Q q).
Proof. intros HP HQ. apply sum_ext. intros c Hc. rewrite !turn_grad by auto. reflexivity. Qed.
Lemma turn_args1 P : mdg P -> args1 n P q' = args1 n P q.
Proof. intros HP. unfold args1. rewrite turn_dens, turn_dot, turn_lapl, turn_tau by auto. reflexivity. Qed.
Lemma turn_args2 Pa Pb : mdg Pa -> mdg Pb -> args2 n Pa Pb q' = args2 n Pa Pb q.
Proof. intros HP HQ. unfold args2. rewrite !turn_dens, !turn_dot, !turn_lapl, !turn_tau by auto. reflexivity. Qed.
Lemma turn_dotg P i j : mdg P -> (i < n)%nat -> (j < n)%nat ->
  dot3 (grad n P q') (fun c => pair_g q' c i j) = C i j * dot3 (grad n P q) (fun c => pair_g q c i j) + S i j * dot3 (grad n P q) (fun c => x_g c i j).
Proof.
  intros HP Hi Hj. unfold dot3. rewrite <- !sum_scal, <- sum_plus. apply sum_ext. intros c Hc. rewrite turn_grad, turn_g by auto. ring.
Qed.
Definition x_fock1 lib fn P i j :=
  let a := args1 n P q in
  e_vrho lib false fn a 0 * x_n i j + e_vsigma lib false fn a 0 * (2 * dot3 (grad n P q) (fun c => x_g c i j))
  + e_vtau lib false fn a 0 * x_t i j + e_vlapl lib false fn a 0 * x_l i j.
Lemma turn_fock1 lib fn P i j : mdg P -> (i < n)%nat -> (j < n)%nat ->
  fock1 lib fn n P q' i j = C i j * fock1 lib fn n P q i j + S i j * x_fock1 lib fn P i j.
Proof.
  intros HP Hi Hj. unfold fock1, x_fock1. rewrite turn_args1, turn_n, turn_dotg, turn_t, turn_l by auto. ring.
Qed.
Definition x_fock2 lib fn Pa Pb s i j :=
  let a := args2 n Pa Pb q in
  let own := if Nat.eqb s 0 then Pa else Pb in let other := if Nat.eqb s 0 then Pb else Pa in
  e_vrho lib true fn a s * x_n i j + e_vsigma lib true fn a (2 * s) * (2 * dot3 (grad n own q) (fun c => x_g c i j))
  + e_vsigma lib true fn a 1 * dot3 (grad n other q) (fun c => x_g c i j)
  + e_vtau lib true fn a s * x_t i j + e_vlapl lib true fn a s * x_l i j.
Lemma turn_fock2 lib fn Pa Pb s i j : mdg Pa -> mdg Pb -> (i < n)%nat -> (j < n)%nat ->
  fock2 lib fn n Pa Pb s q' i j = C i j * fock2 lib fn n Pa Pb s q i j + S i j * x_fock2 lib fn Pa Pb s i j.
Proof.
  intros HP HQ Hi Hj. unfold fock2, x_fock2. rewrite turn_args2, turn_n, turn_t, turn_l, !turn_dotg by (auto; destruct (Nat.eqb s 0); auto). ring.
Qed.
End Turn.

(** * Sums around the axis *)
Lemma phi_int nphi (D : Z) F X : (Z.abs D < Z.of_nat nphi)%Z ->
  sum nphi (fun j => / INR nphi * (cos (IZR D * (INR j * (2 * PI / INR nphi))) * F + sin (IZR D * (INR j * (2 * PI / INR nphi))) * X))
  = if (D =? 0)%Z then F else 0.
Proof.
  intros HD. assert (Hn : 0 < INR nphi) by (apply lt_0_INR; lia). assert (Hpi := PI_RGT_0).
  destruct (phi_exact nphi (Z.abs_nat D) ltac:(lia)) as [E1 E2].
  assert (EI : IZR D = INR (Z.abs_nat D) \/ IZR D = - INR (Z.abs_nat D)).
  { rewrite INR_IZR_INZ. destruct (Z_le_gt_dec 0 D); [left; f_equal; lia|right; rewrite <- opp_IZR; f_equal; lia]. }
  set (c := fun j => cos (INR (Z.abs_nat D) * (INR j * (2 * PI / INR nphi)))) in *.
  set (s := fun j => sin (INR (Z.abs_nat D) * (INR j * (2 * PI / INR nphi)))) in *.
  assert (Ec : sum nphi c = if (D =? 0)%Z then INR nphi else 0).
  { apply (Rmult_eq_reg_l (2 * PI / INR nphi)).
    - rewrite E1. replace (Z.abs_nat D =? 0)%nat with (D =? 0)%Z by (destruct (Z.eqb_spec D 0), (Nat.eqb_spec (Z.abs_nat D) 0); lia || reflexivity).
      destruct (D =? 0)%Z; [field; lra|ring].
    - apply Rgt_not_eq. apply Rdiv_lt_0_compat; lra. }
  assert (Es : sum nphi s = 0).
  { apply (Rmult_eq_reg_l (2 * PI / INR nphi)); [rewrite E2; ring|]. apply Rgt_not_eq. apply Rdiv_lt_0_compat; lra. }
  assert (G : exists e, forall j, / INR nphi * (cos (IZR D * (INR j * (2 * PI / INR nphi))) * F + sin (IZR D * (INR j * (2 * PI / INR nphi))) * X)
    = (/ INR nphi * F) * c j + (e * X / INR nphi) * s j).
  { destruct EI as [-> | ->]; [exists 1|exists (-1)]; intros j; unfold c, s; [unfold Rdiv; ring|].
    rewrite <- Ropp_mult_distr_l, cos_neg, sin_neg. unfold Rdiv. ring. }
  destruct G as (e & G). rewrite (sum_ext nphi _ (fun j => (/ INR nphi * F) * c j + (e * X / INR nphi) * s j)) by (intros; apply G).
  rewrite sum_plus, !sum_scal, Ec, Es. destruct (D =? 0)%Z; [field; lra|ring].
Qed.

Section Around.
Variables (b : abasis) (Rh : R) (ru : list (R * R)) (nphi : nat).
Hypothesis HB : pm_grid_ok b Rh ru.
Hypothesis HT : turning b.
Hypothesis HN : enough_points b nphi.
Let n := di_nbf b.
Notation dphi := (2 * PI / INR nphi).
Let Hn0 : 0 < INR nphi. Proof. apply lt_0_INR. apply HN. Qed.

Definition at_angle (a : R * R * R) (iel ir : nat) : gpoint := di_raw_point b Rh [a] iel ir 0.
Lemma row_points_map r iel ir : di_row_points b Rh r iel ir = map (fun a => at_angle a iel ir) r.
Proof.
  unfold di_row_points. rewrite <- (map_nth_seq (0, 0, 0) r) at 2. rewrite map_map. reflexivity.
Qed.
Lemma lsum_points r F : lsum (di_points b Rh r) F =
  lsum (seq 0 (get_nelem (ab_fe b))) (fun iel => lsum (seq 0 (length (ab_r b iel))) (fun ir => lsum r (fun a => F (pull (di_fn b) (at_angle a iel ir))))).
Proof.
  unfold di_points, di_raw_points. rewrite lsum_map, lsum_flat_map. apply lsum_ext. intros iel _. rewrite lsum_flat_map. apply lsum_ext. intros ir _.
  rewrite row_points_map, lsum_map. reflexivity.
Qed.
Lemma lsum_around F : lsum (around ru nphi) F = lsum ru (fun q => sum nphi (fun j => F (fst q, INR j * dphi, snd q * dphi))).
Proof. unfold around. rewrite lsum_flat_map. apply lsum_ext. intros q _. rewrite lsum_map, lsum_seq0. reflexivity. Qed.
Lemma lsum_plane F : lsum (plane ru) F = lsum ru (fun q => F (fst q, 0, 2 * PI * snd q)).
Proof. unfold plane. rewrite lsum_map. reflexivity. Qed.
Lemma around_points F : (forall q iel ir, sum nphi (fun j => F (pull (di_fn b) (at_angle (fst q, INR j * dphi, snd q * dphi) iel ir)))
    = F (pull (di_fn b) (at_angle (fst q, 0, 2 * PI * snd q) iel ir))) ->
  lsum (di_points b Rh (around ru nphi)) F = lsum (di_points b Rh (plane ru)) F.
Proof.
  intros E. rewrite !lsum_points. apply lsum_ext. intros iel _. apply lsum_ext. intros ir _. rewrite lsum_around, lsum_plane. apply lsum_ext. intros q _. apply E.
Qed.

Lemma fn_lm i : (i < n)%nat -> (- raw_l b (di_fn b i) <= raw_m b (di_fn b i) <= raw_l b (di_fn b i))%Z.
Proof.
  intros Hi. destruct HB as (HD & [HS _] & _). assert (HR := di_fn_lt b i Hi).
  unfold raw_l, raw_m. apply HS. unfold shell. rewrite <- surjective_pairing. apply nth_In.
  unfold at_nbf in HR. apply Nat.div_lt_upper_bound; [intros E; rewrite E in HR; lia|]. rewrite Nat.mul_comm. exact HR.
Qed.
Lemma turn_dtheta l m c phi : (- l <= m <= l)%Z -> dtheta (ab_Y b) l m c phi = rot (IZR m * phi) (dtheta (ab_Y b) l m c 0).
Proof.
  intros Hm. unfold dtheta. rewrite (HT l m c phi Hm). destruct (Z.eq_dec m l) as [->|Ne].
  - replace ((l - l) * (l + l + 1))%Z with 0%Z by ring. rewrite sqrt_0. unfold rot, cadd, cscal, cmul. cbn [fst snd]. f_equal; ring.
  - rewrite (HT l (m + 1)%Z c phi) by lia. rewrite cos_0, sin_0.
    replace (IZR (m + 1) * phi) with (IZR m * phi + phi) by (rewrite plus_IZR; ring). rewrite cos_plus, sin_plus.
    unfold rot, cadd, cscal, cmul. cbn [fst snd]. assert (E := sin2_cos2 phi). unfold Rsqr in E.
    assert (E' : cos phi * cos phi = 1 - sin phi * sin phi) by lra.
    f_equal; ring_simplify; rewrite <- !Rsqr_pow2; unfold Rsqr; rewrite ?E'; ring.
Qed.
Lemma rot_scal t a x : cscal a (rot t x) = rot t (cscal a x).
Proof. unfold rot, cscal, cmul. cbn [fst snd]. f_equal; ring. Qed.
Lemma rot_mul t k x : cmul k (rot t x) = rot t (cmul k x).
Proof. unfold rot, cmul. cbn [fst snd]. f_equal; ring. Qed.
Lemma turned_points c w w' phi iel ir :
  turned n (fn_m b) phi (pull (di_fn b) (at_angle (c, 0, w) iel ir)) (pull (di_fn b) (at_angle (c, phi, w') iel ir)).
Proof.
  assert (EY : forall i, (i < n)%nat -> ab_Y b (raw_l b (di_fn b i)) (raw_m b (di_fn b i)) c phi = rot (IZR (fn_m b i) * phi) (ab_Y b (raw_l b (di_fn b i)) (raw_m b (di_fn b i)) c 0))
    by (intros i Hi; apply (HT _ _ c phi (fn_lm i Hi))).
  assert (ED : forall i, (i < n)%nat -> dtheta (ab_Y b) (raw_l b (di_fn b i)) (raw_m b (di_fn b i)) c phi = rot (IZR (fn_m b i) * phi) (dtheta (ab_Y b) (raw_l b (di_fn b i)) (raw_m b (di_fn b i)) c 0))
    by (intros i Hi; apply (turn_dtheta _ _ c phi (fn_lm i Hi))).
  unfold raw_l, raw_m in EY, ED.
  split; [intros i Hi|intros k i Hk Hi|intros i Hi]; unfold at_angle, di_raw_point, pull; cbn [p_f p_g p_l ang nth a_cth a_phi a_w fst snd].
  - rewrite (EY i Hi). apply rot_scal.
  - destruct k as [|[|k]].
    + rewrite (EY i Hi). apply rot_scal.
    + rewrite (ED i Hi). apply rot_scal.
    + rewrite (EY i Hi), rot_mul. apply rot_scal.
  - rewrite (EY i Hi). apply rot_scal.
Qed.
Lemma weight_points c w phi iel ir : p_w (pull (di_fn b) (at_angle (c, phi, w * dphi) iel ir)) = / INR nphi * p_w (pull (di_fn b) (at_angle (c, 0, 2 * PI * w) iel ir)).
Proof. unfold at_angle, di_raw_point, pull. cbn [p_w ang nth a_cth a_phi a_w fst snd]. unfold Rdiv. ring. Qed.

Lemma around_const (G : gpoint -> R) :
  (forall q iel ir j, G (pull (di_fn b) (at_angle (fst q, INR j * dphi, snd q * dphi) iel ir)) = G (pull (di_fn b) (at_angle (fst q, 0, 2 * PI * snd q) iel ir))) ->
  lsum (di_points b Rh (around ru nphi)) (fun q => p_w q * G q) = lsum (di_points b Rh (plane ru)) (fun q => p_w q * G q).
Proof.
  intros E. apply around_points. intros q iel ir. rewrite (sum_ext nphi _ (fun j => / INR nphi * (p_w (pull (di_fn b) (at_angle (fst q, 0, 2 * PI * snd q) iel ir)) * G (pull (di_fn b) (at_angle (fst q, 0, 2 * PI * snd q) iel ir)))))
    by (intros j _; rewrite E, weight_points; ring).
  rewrite TwoDProofs.sum_const. field. lra.
Qed.
Lemma around_fock (G : gpoint -> mat) (X : gpoint -> mat) i j : (i < n)%nat -> (j < n)%nat ->
  (forall q q' phi, turned n (fn_m b) phi q q' -> G q' i j = cos (IZR (fn_m b j) * phi - IZR (fn_m b i) * phi) * G q i j + sin (IZR (fn_m b j) * phi - IZR (fn_m b i) * phi) * X q i j) ->
  lsum (di_points b Rh (around ru nphi)) (fun q => p_w q * G q i j) = mdiag b (fun i j => lsum (di_points b Rh (plane ru)) (fun q => p_w q * G q i j)) i j.
Proof.
  intros Hi Hj E. transitivity (lsum (di_points b Rh (plane ru)) (fun q => p_w q * (if (fn_m b j - fn_m b i =? 0)%Z then G q i j else 0))).
  - rewrite !lsum_points. apply lsum_ext. intros iel _. apply lsum_ext. intros ir _. rewrite lsum_around, lsum_plane. apply lsum_ext. intros q _.
    set (p := pull (di_fn b) (at_angle (fst q, 0, 2 * PI * snd q) iel ir)).
    rewrite <- (phi_int nphi (fn_m b j - fn_m b i) (G p i j) (X p i j)) by (destruct HN as [_ HN']; assert (Y := HN' j i Hj Hi); exact Y).
    rewrite <- sum_scal. apply sum_ext. intros k _. rewrite weight_points. fold p.
    rewrite (E p _ _ (turned_points (fst q) (2 * PI * snd q) (snd q * dphi) (INR k * dphi) iel ir)).
    rewrite minus_IZR. replace (IZR (fn_m b j) * (INR k * dphi) - IZR (fn_m b i) * (INR k * dphi)) with ((IZR (fn_m b j) - IZR (fn_m b i)) * (INR k * dphi)) by ring. ring.
  - unfold mdiag. replace (fn_m b j - fn_m b i =? 0)%Z with (fn_m b i =? fn_m b j)%Z by (destruct (Z.eqb_spec (fn_m b i) (fn_m b j)), (Z.eqb_spec (fn_m b j - fn_m b i) 0); lia || reflexivity).
    destruct (fn_m b i =? fn_m b j)%Z; [reflexivity|]. apply lsum_zero. intros; ring.
Qed.

(** The three-dimensional grid meets its conditions. *)
Lemma around_ok : di_grid_ok b Rh (around ru nphi).
Proof.
  destruct HB as ((HR & (A1 & A2 & A3 & A4)) & _). split; [exact HR|]. split; [exact A1|split; [exact A2|split; [|exact A4]]].
  intros ia Hia. assert (X : In (ang (around ru nphi) ia) (around ru nphi)) by (apply nth_In; exact Hia).
  apply in_flat_map in X. destruct X as (q & Hq & X). apply in_map_iff in X. destruct X as (j & <- & _). unfold a_cth. cbn [fst].
  assert (Hp : In (fst q, 0, 2 * PI * snd q) (plane ru)) by (unfold plane; apply (in_map (fun q => (fst q, 0, 2 * PI * snd q))); exact Hq).
  destruct (In_nth _ _ (0, 0, 0) Hp) as (k & Hk & Ek). assert (Y := A3 k Hk). unfold ang in Y. rewrite Ek in Y. exact Y.
Qed.

Lemma mdiag_id P : m_diagonal b P -> forall i j, (i < n)%nat -> (j < n)%nat -> mdiag b P i j = P i j.
Proof. intros HP i j Hi Hj. unfold mdiag. destruct (Z.eqb_spec (fn_m b i) (fn_m b j)); [reflexivity|]. symmetry. apply HP; auto. Qed.

Lemma mdiag_mdg P : mdg n (fn_m b) (mdiag b P).
Proof. intros i j _ _ Ne. unfold mdiag. destruct (Z.eqb_spec (fn_m b i) (fn_m b j)); [contradiction|reflexivity]. Qed.

(** Only the entries of the density matrix matter. *)
Definition same (P P' : mat) : Prop := forall i j, (i < n)%nat -> (j < n)%nat -> P i j = P' i j.
Lemma dens_ext P P' q : same P P' -> dens n P q = dens n P' q. Proof. apply contract_ext_l. Qed.
Lemma tau_ext P P' q : same P P' -> tau n P q = tau n P' q. Proof. apply contract_ext_l. Qed.
Lemma lapl_ext P P' q : same P P' -> lapl n P q = lapl n P' q. Proof. apply contract_ext_l. Qed.
Lemma grad_ext P P' q : same P P' -> grad n P q = grad n P' q.
Proof. intros E. extensionality c. apply contract_ext_l. exact E. Qed.
Lemma args1_ext P P' q : same P P' -> args1 n P q = args1 n P' q.
Proof. intros E. unfold args1. rewrite (dens_ext P P'), (grad_ext P P'), (tau_ext P P'), (lapl_ext P P') by exact E. reflexivity. Qed.
Lemma args2_ext P P' Q Q' q : same P P' -> same Q Q' -> args2 n P Q q = args2 n P' Q' q.
Proof.
  intros E F. unfold args2. rewrite (dens_ext P P'), (grad_ext P P'), (tau_ext P P'), (lapl_ext P P') by exact E.
  rewrite (dens_ext Q Q'), (grad_ext Q Q'), (tau_ext Q Q'), (lapl_ext Q Q') by exact F. reflexivity.
Qed.
Lemma mdiag_same P : m_diagonal b P -> same P (mdiag b P).
Proof. intros HP i j Hi Hj. symmetry. apply mdiag_id; auto. Qed.

Section One.
Variables (lib : libxc) (fn : functional) (P : mat).
Hypothesis HP : m_diagonal b P.
Let E := mdiag_same P HP.
Let M : mdg n (fn_m b) (mdiag b P) := mdiag_mdg P.
Let T q iel ir j := turned_points (fst q) (2 * PI * snd q) (snd q * dphi) (INR j * dphi) iel ir.
Lemma around_exc1 : spec_exc1 lib fn n P (di_points b Rh (around ru nphi)) = spec_exc1 lib fn n (mdiag b P) (di_points b Rh (plane ru)).
Proof.
  unfold spec_exc1. rewrite (lsum_ext _ _ (fun q => p_w q * (e_exc lib false fn (args1 n (mdiag b P) q) * dens n (mdiag b P) q)))
    by (intros q _; rewrite (args1_ext P _ q E), (dens_ext P _ q E); ring).
  rewrite around_const; [apply lsum_ext; intros; ring|]. intros q iel ir j. rewrite (turn_args1 _ _ _ _ _ (T q iel ir j) _ M), (turn_dens _ _ _ _ _ (T q iel ir j) _ M). reflexivity.
Qed.
Lemma around_nel : spec_nel n P (di_points b Rh (around ru nphi)) = spec_nel n (mdiag b P) (di_points b Rh (plane ru)).
Proof.
  unfold spec_nel. rewrite (lsum_ext _ _ (fun q => p_w q * dens n (mdiag b P) q)) by (intros q _; rewrite (dens_ext P _ q E); reflexivity).
  apply around_const. intros q iel ir j. apply (turn_dens _ _ _ _ _ (T q iel ir j) _ M).
Qed.
Lemma around_ekin : spec_ekin n P (di_points b Rh (around ru nphi)) = spec_ekin n (mdiag b P) (di_points b Rh (plane ru)).
Proof.
  unfold spec_ekin. rewrite (lsum_ext _ _ (fun q => p_w q * tau n (mdiag b P) q)) by (intros q _; rewrite (tau_ext P _ q E); reflexivity).
  apply around_const. intros q iel ir j. apply (turn_tau _ _ _ _ _ (T q iel ir j) _ M).
Qed.
Lemma around_fock1 i j : (i < n)%nat -> (j < n)%nat ->
  spec_fock1 lib fn n P (di_points b Rh (around ru nphi)) i j = mdiag b (spec_fock1 lib fn n (mdiag b P) (di_points b Rh (plane ru))) i j.
Proof.
  intros Hi Hj. unfold spec_fock1. rewrite (lsum_ext _ _ (fun q => p_w q * fock1 lib fn n (mdiag b P) q i j))
    by (intros q _; unfold fock1; rewrite (args1_ext P _ q E), (grad_ext P _ q E); reflexivity).
  apply (around_fock (fun q => fock1 lib fn n (mdiag b P) q) (fun q => x_fock1 n q lib fn (mdiag b P)) i j Hi Hj).
  intros q q' phi Tq. apply (turn_fock1 n (fn_m b) phi q q' Tq lib fn _ i j M Hi Hj).
Qed.
End One.
Section Two.
Variables (lib : libxc) (fn : functional) (P Q : mat).
Hypothesis HP : m_diagonal b P.
Hypothesis HQ : m_diagonal b Q.
Let E := mdiag_same P HP.
Let F := mdiag_same Q HQ.
Let M : mdg n (fn_m b) (mdiag b P) := mdiag_mdg P.
Let M' : mdg n (fn_m b) (mdiag b Q) := mdiag_mdg Q.
Let T q iel ir j := turned_points (fst q) (2 * PI * snd q) (snd q * dphi) (INR j * dphi) iel ir.
Lemma around_exc2 : spec_exc2 lib fn n P Q (di_points b Rh (around ru nphi)) = spec_exc2 lib fn n (mdiag b P) (mdiag b Q) (di_points b Rh (plane ru)).
Proof.
  unfold spec_exc2. rewrite (lsum_ext _ _ (fun q => p_w q * (e_exc lib true fn (args2 n (mdiag b P) (mdiag b Q) q) * (dens n (mdiag b P) q + dens n (mdiag b Q) q))))
    by (intros q _; rewrite (args2_ext P _ Q _ q E F), (dens_ext P _ q E), (dens_ext Q _ q F); ring).
  rewrite around_const; [apply lsum_ext; intros; ring|]. intros q iel ir j.
  rewrite (turn_args2 _ _ _ _ _ (T q iel ir j) _ _ M M'), (turn_dens _ _ _ _ _ (T q iel ir j) _ M), (turn_dens _ _ _ _ _ (T q iel ir j) _ M'). reflexivity.
Qed.
Lemma around_fock2 s i j : (i < n)%nat -> (j < n)%nat ->
  spec_fock2 lib fn n P Q s (di_points b Rh (around ru nphi)) i j = mdiag b (spec_fock2 lib fn n (mdiag b P) (mdiag b Q) s (di_points b Rh (plane ru))) i j.
Proof.
  intros Hi Hj. unfold spec_fock2. rewrite (lsum_ext _ _ (fun q => p_w q * fock2 lib fn n (mdiag b P) (mdiag b Q) s q i j))
    by (intros q _; unfold fock2; rewrite (args2_ext P _ Q _ q E F); destruct (Nat.eqb s 0); rewrite (grad_ext P _ q E), (grad_ext Q _ q F); reflexivity).
  apply (around_fock (fun q => fock2 lib fn n (mdiag b P) (mdiag b Q) s q) (fun q => x_fock2 n q lib fn (mdiag b P) (mdiag b Q) s) i j Hi Hj).
  intros q q' phi Tq. apply (turn_fock2 n (fn_m b) phi q q' Tq lib fn _ _ s i j M M' Hi Hj).
Qed.
End Two.

(** * Both grids give the same. *)
Hypothesis Hn : (0 < n)%nat.
Lemma grids_agree1 lib fn absm P H s : functional_ok lib fn -> uses fn (is_lapl lib) = false -> is_density n P ->
  m_diagonal b (dent P) -> (absm = true -> absm_symmetric b (dent P)) -> pm_eval_Fxc absm lib b Rh ru fn P = Ok (H, s) ->
  exists H', di_eval_Fxc lib b Rh (around ru nphi) fn P = Ok (H', s) /\ is_mat H' n n (dent H).
Proof.
  intros HF HL HP HM HS E. destruct (pm_eval_Fxc_ok lib b Rh ru fn HB HF Hn absm P HP HS) as (H0 & E0 & M0).
  rewrite E0 in E. injection E as <- <-.
  destruct (di_eval_Fxc_ok lib b Rh (around ru nphi) fn around_ok HF HL (Nat.le_lt_trans _ _ _ (Nat.le_0_l _) (di_fn_lt b 0 Hn)) P HP) as (H1 & E1 & M1).
  exists H1. split.
  - rewrite E1. fold n. rewrite around_exc1, around_nel, around_ekin by exact HM. reflexivity.
  - apply (is_mat_ext _ _ _ _ _ M1). destruct M0 as (_ & _ & M0). intros i j Hi Hj. rewrite M0 by auto. apply (around_fock1 lib fn (dent P) HM i j Hi Hj).
Qed.
Lemma grids_agree2 lib fn absm Pa Pb beta Ha Hb s : functional_ok lib fn -> uses fn (is_lapl lib) = false -> is_density n Pa -> is_density n Pb ->
  m_diagonal b (dent Pa) -> m_diagonal b (dent Pb) -> pm_eval_Fxc_pol absm lib b Rh ru fn Pa Pb beta = Ok (Ha, Hb, s) ->
  exists Ha' Hb', di_eval_Fxc_pol lib b Rh (around ru nphi) fn Pa Pb beta = Ok (Ha', Hb', s) /\ is_mat Ha' n n (dent Ha) /\ is_mat Hb' n n (dent Hb).
Proof.
  intros HF HL HP HQ HM HM' E. destruct (pm_eval_Fxc_pol_ok lib b Rh ru fn HB HF Hn absm Pa Pb beta HP HQ) as (A0 & B0 & E0 & MA & MB).
  rewrite E0 in E. injection E as <- <- <-.
  destruct (di_eval_Fxc_pol_ok lib b Rh (around ru nphi) fn around_ok HF HL (Nat.le_lt_trans _ _ _ (Nat.le_0_l _) (di_fn_lt b 0 Hn)) Pa Pb beta HP HQ) as (A1 & B1 & E1 & MA1 & MB1).
  exists A1, B1. split; [|split].
  - rewrite E1. fold n. rewrite around_exc2, !around_nel, !around_ekin by (exact HM || exact HM'). reflexivity.
  - apply (is_mat_ext _ _ _ _ _ MA1). destruct MA as (_ & _ & MA). intros i j Hi Hj. rewrite MA by auto. apply (around_fock2 lib fn _ _ HM HM' 0 i j Hi Hj).
  - apply (is_mat_ext _ _ _ _ _ MB1). destruct MB as (_ & _ & MB). intros i j Hi Hj. rewrite MB by auto.
    destruct beta; [apply (around_fock2 lib fn _ _ HM HM' 1 i j Hi Hj)|reflexivity].
Qed.
End Around.

Lemma seq_add a p : forall s, map (fun j => a + j)%nat (seq s p) = seq (a + s) p.
Proof. induction p as [|p IH]; intros s; [reflexivity|]. cbn [seq map]. f_equal. rewrite IH. f_equal. lia. Qed.
(** The rule is the one of the three-dimensional grid. *)
Lemma around_rule ru nphi : (0 < nphi)%nat ->
  let '(cth, phi, w) := compound_rule (length ru) (fun i => fst (nth i ru (0, 0))) (fun i => snd (nth i ru (0, 0))) nphi in
  around ru nphi = map (fun k => (cth k, phi k, w k)) (seq 0 (length ru * nphi)).
Proof.
  intros Hn. assert (A := compound_points (length ru) (fun i => fst (nth i ru (0, 0))) (fun i => snd (nth i ru (0, 0))) nphi).
  destruct (compound_rule _ _ _ _) as [[cth phi] w].
  assert (G : forall k, map (fun k => (cth k, phi k, w k)) (seq 0 (k * nphi)) = flat_map (fun i => map (fun j => (cth (i * nphi + j)%nat, phi (i * nphi + j)%nat, w (i * nphi + j)%nat)) (seq 0 nphi)) (seq 0 k)).
  { induction k as [|k IH]; [reflexivity|]. rewrite seq_S, flat_map_app, <- IH. cbn [flat_map]. rewrite app_nil_r, Nat.add_0_l.
    replace (S k * nphi)%nat with (k * nphi + nphi)%nat by lia. rewrite seq_app, map_app. f_equal. rewrite Nat.add_0_l.
    replace (seq (k * nphi) nphi) with (map (fun j => k * nphi + j)%nat (seq 0 nphi)); [rewrite map_map; reflexivity|].
    rewrite seq_add. f_equal. lia. }
  rewrite G. unfold around. rewrite <- (map_nth_seq (0, 0) ru) at 1. rewrite flat_map_concat_map, map_map, <- flat_map_concat_map.
  rewrite !flat_map_concat_map. f_equal. apply map_ext_in. intros i Hi. apply in_seq in Hi. apply map_ext_in. intros j Hj. apply in_seq in Hj.
  destruct (A i j) as (-> & -> & ->); [lia|lia|]. reflexivity.
Qed.
Lemma wpm_turning : turning wpm.
Proof.
  intros l m c phi Hm. cbn [wpm ab_Y]. unfold wY. destruct (Z.eqb_spec l 0) as [->|N0].
  - assert (m = 0%Z) as -> by lia. cbn. rewrite Rmult_0_l, cos_0, sin_0. unfold cmul. cbn. f_equal; ring.
  - destruct (Z.eqb_spec l 1) as [->|N1]; [|unfold cmul; cbn; f_equal; ring].
    assert (Hm' : m = 0%Z \/ m = 1%Z \/ m = (-1)%Z) by lia. destruct Hm' as [->|[->| ->]]; unfold cmul; cbn [Z.eqb Pos.eqb fst snd]; rewrite ?cos_0, ?sin_0.
    + rewrite Rmult_0_l, cos_0, sin_0. f_equal; ring.
    + rewrite Rmult_1_l. f_equal; ring.
    + replace (-1 * phi) with (- phi) by ring. rewrite cos_neg, sin_neg. f_equal; ring.
Qed.
Lemma wpm_enough : enough_points wpm 3.
Proof.
  split; [lia|]. rewrite (proj1 (proj2 wpm_n)). intros i j Hi Hj. assert (E := proj2 (proj2 wpm_n)).
  assert (G : forall k, (k < 10)%nat -> (-1 <= fn_m wpm k <= 1)%Z).
  { intros k Hk. assert (X : In (fn_m wpm k) (map (fn_m wpm) (seq 0 10))) by (apply in_map, in_seq; lia). rewrite E in X. cbn in X. lia. }
  assert (G1 := G i Hi). assert (G2 := G j Hj). lia.
Qed.
Lemma wpmD_ok : is_density 10 wpmD /\ m_diagonal wpm (dent wpmD) /\ absm_symmetric wpm (dent wpmD).
Proof.
  split; [|split].
  - split; [reflexivity|split; [reflexivity|]]. intros i j Hi Hj. cbn [wpmD dent]. unfold mdiag. rewrite (Z.eqb_sym (fn_m wpm j)). destruct (_ =? _)%Z; [|reflexivity].
    apply wpmP_ok; auto.
  - intros i j Hi Hj Ne. cbn [wpmD dent]. apply (mdiag_mdg wpm (dent wpmP) i j Hi Hj Ne).
  - intros i j i' j' Hi Hj Hi' Hj' E M1 M2. cbn [wpmD dent]. unfold mdiag. rewrite <- E.
    replace (fn_m wpm i' =? fn_m wpm j')%Z with true.
    + rewrite Z.eqb_refl. apply (wpmP_symmetric i j i' j'); auto.
    + symmetry. apply Z.eqb_eq. destruct M1 as (_ & M1 & _), M2 as (_ & M2 & _). unfold fn_m in *. lia.
Qed.
