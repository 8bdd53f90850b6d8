(** The integral over the angle. *)
Require Import Reals List Arith Lra Lia.
From Coquelicot Require Import Coquelicot.
Require Import Verif.Prelude Verif.SadSpec Verif.PotSpec Verif.LegMath Verif.ShapeModel Verif.ShapeLeg Verif.ErfcModel Verif.ErfcSpec Verif.ErfcAnti Verif.ErfcProofs.
Open Scope R_scope.

Section Angle.
Variables (erfc : R -> R) (He : forall x, derivable_pt_lim erfc x (- (2 / sqrt PI * exp (- (x * x))))).
Variables (X x : R) (Hx : 0 < x) (HX : x < X).
Notation A := (X * X + x * x).
Notation B := (X * x).

Lemma inside t : -1 <= t <= 1 -> 0 < A - 2 * X * x * t.
Proof. intros H. pose proof (pos_B X x Hx (Rlt_le _ _ HX)). assert (0 < (X - x) * (X - x)) by (apply Rmult_lt_0_compat; lra). nra. Qed.
Lemma dist_der t : -1 <= t <= 1 -> derivable_pt_lim (distance X x) t (- B / distance X x t).
Proof.
  intros H. pose proof (inside t H) as Hp. unfold distance.
  eapply lim_eq; [|apply (derivable_pt_lim_comp (fun t => A - 2 * X * x * t) sqrt t); [apply lim_minus; [apply lim_const|apply lim_scal, lim_id]|apply derivable_pt_lim_sqrt, Hp]].
  pose proof (sqrt_lt_R0 _ Hp). field. lra.
Qed.
Lemma pp_dist t : -1 <= t <= 1 -> pp A B (distance X x t) = t.
Proof. intros H. pose proof (inside t H). pose proof (pos_B X x Hx (Rlt_le _ _ HX)). unfold pp, distance. rewrite sqrt_sqrt by lra. field. lra. Qed.

Lemma angle_int n : is_int (fun t => erfc (distance X x t) / distance X x t * leg n t) (-1) 1 (dA X x erfc n / B).
Proof.
  pose proof (pos_B X x Hx (Rlt_le _ _ HX)) as HB.
  set (h := fun t => erfc (distance X x t) / distance X x t * leg n t).
  assert (Hd : forall t, -1 <= t <= 1 -> derivable_pt_lim (fun t => - / B * An erfc A B n (distance X x t)) t (h t)).
  { intros t Ht. pose proof (sqrt_lt_R0 _ (inside t Ht)) as Hs. fold (distance X x t) in Hs.
    eapply lim_eq; [|apply lim_scal, (derivable_pt_lim_comp (distance X x) (An erfc A B n) t); [apply dist_der, Ht|apply (proj1 (An_der erfc He A B HB n))]].
    rewrite (pp_dist t Ht). unfold h. field. lra. }
  assert (Hi : is_RInt (V := R_NormedModule) h (-1) 1 (dA X x erfc n / B)).
  { replace (dA X x erfc n / B) with (minus (G := R_AbelianGroup) (- / B * An erfc A B n (distance X x 1)) (- / B * An erfc A B n (distance X x (-1)))).
    - apply (is_RInt_derive (V := R_CompleteNormedModule) (fun t => - / B * An erfc A B n (distance X x t)) h).
      + intros t Ht. rewrite Rmin_left, Rmax_right in Ht by lra. apply is_derive_Reals, Hd, Ht.
      + intros t Ht. rewrite Rmin_left, Rmax_right in Ht by lra. apply continuity_pt_filterlim. apply derivable_continuous_pt.
        pose proof (sqrt_lt_R0 _ (inside t Ht)) as Hs. fold (distance X x t) in Hs.
        exists (((- (2 / sqrt PI * exp (- (distance X x t * distance X x t)))) * (- B / distance X x t) * distance X x t - erfc (distance X x t) * (- B / distance X x t)) / Rsqr (distance X x t) * leg n t
          + erfc (distance X x t) / distance X x t * dleg n t).
        unfold h. apply (lim_mul (fun t => erfc (distance X x t) / distance X x t) (leg n)); [|apply leg_der].
        eapply lim_eq; [|apply (derivable_pt_lim_div (fun t => erfc (distance X x t)) (distance X x)); [apply (derivable_pt_lim_comp (distance X x) erfc t); [apply dist_der, Ht|apply He]|apply dist_der, Ht|lra]].
        unfold Rdiv. ring.
    - unfold minus, plus, opp; cbn. unfold dA.
      replace (distance X x 1) with (X - x) by (unfold distance; replace (A - 2 * X * x * 1) with ((X - x) * (X - x)) by ring; rewrite sqrt_square; lra).
      replace (distance X x (-1)) with (X + x) by (unfold distance; replace (A - 2 * X * x * (-1)) with ((X + x) * (X + x)) by ring; rewrite sqrt_square; lra).
      field. lra. }
  assert (pr : Riemann_integrable h (-1) 1) by (apply ex_RInt_Reals_0; exists (dA X x erfc n / B); exact Hi).
  exists pr. rewrite <- (RInt_Reals h (-1) 1 pr). apply is_RInt_unique. exact Hi.
Qed.
End Angle.

Lemma general_angle_ordered erfc P n X x : is_erfc erfc -> legendre P -> 0 < x < X ->
  exists v, Phi_general erfc n X x = Ok v /\ multipole erfc P n X x v.
Proof.
  intros He HP [H1 H2]. exists (G X x erfc n). split; [apply general_value; lra|].
  exists (dA X x erfc n / (X * x)). split.
  - generalize (angle_int erfc (erfc_der erfc He) X x H1 H2 n). apply int_ext. intros t. rewrite (legendre_unique P HP). reflexivity.
  - rewrite (proj1 (G_dA X x H1 (Rlt_le _ _ H2) erfc (erfc_der erfc He) n)). field. lra.
Qed.
Lemma multipole_sym erfc P n X x v : multipole erfc P n X x v -> multipole erfc P n x X v.
Proof.
  intros [w [Hw Hv]]. exists w. split; [|exact Hv]. revert Hw. apply int_ext. intros t.
  replace (distance x X t) with (distance X x t); [reflexivity|]. unfold distance. f_equal. ring.
Qed.
Lemma general_angle erfc P n X x : is_erfc erfc -> legendre P -> 0 < x -> 0 < X -> X <> x ->
  exists v, Phi_general erfc n X x = Ok v /\ multipole erfc P n X x v.
Proof.
  intros He HP H1 H2 Hne. destruct (Rlt_le_dec x X) as [H|H]; [apply general_angle_ordered; try assumption; lra|].
  destruct (general_angle_ordered erfc P n x X He HP ltac:(lra)) as [v [E M]]. exists v. rewrite general_sym. split; [exact E|apply multipole_sym, M].
Qed.
Lemma Phi_angle eps erfc P n X x : is_erfc erfc -> legendre P -> 4 / 10 <= Rmin X x -> 5 / 10 <= Rmax X x -> X <> x ->
  exists v, Phi eps erfc n X x = Ok v /\ multipole erfc P n X x v.
Proof.
  intros He HP H1 H2 Hne. rewrite Phi_branch by assumption. pose proof (Rmin_l X x). pose proof (Rmin_r X x). apply general_angle; try assumption; lra.
Qed.
