(** Orthogonality of the slopes of the Legendre shape functions. *)
Require Import Reals List Arith Bool Lia Lra.
Require Import Verif.Prelude Verif.FEModel Verif.ShapeModel Verif.ShapeSpec Verif.ShapePoly Verif.ShapeLeg.
Import ListNotations.
Open Scope R_scope.

Lemma integral_ext g h a b v : (forall x, g x = h x) -> integral g a b v -> integral h a b v.
Proof. intros E [F [H1 H2]]. exists F. split; [intros x; rewrite <- E; apply H1 | exact H2]. Qed.
Lemma integral_add g h a b v w : integral g a b v -> integral h a b w -> integral (fun x => g x + h x) a b (v + w).
Proof.
  intros [F [H1 H2]] [G [H3 H4]]. exists (fun x => F x + G x). split; [|lra].
  intros x. apply (derivable_pt_lim_plus F G); auto.
Qed.
Lemma integral_scal g a b v c : integral g a b v -> integral (fun x => c * g x) a b (c * v).
Proof.
  intros [F [H1 H2]]. exists (fun x => c * F x). split; [|rewrite <- H2; ring].
  intros x. apply derivable_pt_lim_scal. apply H1.
Qed.
Lemma der_const_zero f : (forall x, derivable_pt_lim f x 0) -> forall a b, f a = f b.
Proof.
  intros H a b.
  assert (pr : derivable f) by (intros x; exists 0; apply H).
  assert (E : forall x, derive_pt f x (pr x) = 0) by (intros x; apply derive_pt_eq_0; apply H).
  destruct (Rtotal_order a b) as [h|[h|h]]; [|congruence|].
  - apply (null_derivative_1 f pr E).
  - apply (null_derivative_1 f pr E).
Qed.
Lemma integral_unique g a b v w : integral g a b v -> integral g a b w -> v = w.
Proof.
  intros [F [H1 H2]] [G [H3 H4]].
  assert (E := der_const_zero (fun x => F x - G x)).
  rewrite <- H2, <- H4. enough (F a - G a = F b - G b) by lra. apply E.
  intros x. replace 0 with (g x - g x) by ring. apply (derivable_pt_lim_minus F G); auto.
Qed.

Lemma leg_C n x : (x * x - 1) * dleg n x = INR n * (x * leg n x - match n with O => 0 | S k => leg k x end).
Proof.
  destruct n as [|n]; [unfold dleg; cbn; ring|]. destruct (leg_AB n x) as [A B].
  replace ((x * x - 1) * dleg (S n) x) with (x * (x * dleg (S n) x - dleg n x) + x * dleg n x - dleg (S n) x) by ring.
  rewrite B, A. ring.
Qed.
Lemma sq_der x : derivable_pt_lim (fun y => y * y - 1) x (2 * x).
Proof.
  replace (2 * x) with (1 * id x + id x * 1 - 0) by (unfold id; ring).
  apply (derivable_pt_lim_minus (fun y => id y * id y) (fun _ => 1)); [|apply derivable_pt_lim_const].
  apply derivable_pt_lim_mult; apply derivable_pt_lim_id.
Qed.
(** Legendre's equation. *)
Lemma leg_ode n x : (x * x - 1) * d2leg n x + 2 * x * dleg n x = INR n * (INR n + 1) * leg n x.
Proof.
  destruct n as [|n]; [unfold d2leg, dleg; cbn; ring|].
  transitivity (INR (S n) * (1 * leg (S n) x + x * dleg (S n) x - dleg n x)).
  - apply (der_ext_eq (fun y => (y * y - 1) * dleg (S n) y) (fun y => INR (S n) * (id y * leg (S n) y - leg n y)) x).
    + intros y. exact (leg_C (S n) y).
    + replace ((x * x - 1) * d2leg (S n) x + 2 * x * dleg (S n) x)
        with (2 * x * dleg (S n) x + (x * x - 1) * d2leg (S n) x) by ring.
      apply (derivable_pt_lim_mult (fun y => y * y - 1) (dleg (S n))); [apply sq_der | apply dleg_der].
    + apply (derivable_pt_lim_scal (fun y => id y * leg (S n) y - leg n y)).
      apply (derivable_pt_lim_minus (fun y => id y * leg (S n) y) (leg n)); [|apply leg_der].
      apply (derivable_pt_lim_mult id (leg (S n))); [apply derivable_pt_lim_id | apply leg_der].
  - destruct (leg_AB n x) as [A B].
    replace (1 * leg (S n) x + x * dleg (S n) x - dleg n x) with (leg (S n) x + (x * dleg (S n) x - dleg n x)) by ring.
    rewrite B. ring.
Qed.

Lemma leg_orth m n : m <> n -> integral (fun x => leg m x * leg n x) (-1) 1 0.
Proof.
  intros Hmn. set (d := INR m * (INR m + 1) - INR n * (INR n + 1)).
  assert (Hd : d <> 0).
  { unfold d. intros E. assert (E' : (INR m - INR n) * (INR m + INR n + 1) = 0) by lra.
    pose proof (pos_INR m). pose proof (pos_INR n).
    apply Rmult_integral in E'. destruct E' as [E'|E']; [|lra].
    apply Hmn. apply INR_eq. lra. }
  exists (fun x => / d * ((x * x - 1) * (dleg m x * leg n x - leg m x * dleg n x))). split; [|ring].
  intros x.
  replace (leg m x * leg n x) with (/ d * (2 * x * (dleg m x * leg n x - leg m x * dleg n x)
    + (x * x - 1) * ((d2leg m x * leg n x + dleg m x * dleg n x) - (dleg m x * dleg n x + leg m x * d2leg n x)))).
  2:{ replace (2 * x * (dleg m x * leg n x - leg m x * dleg n x)
    + (x * x - 1) * ((d2leg m x * leg n x + dleg m x * dleg n x) - (dleg m x * dleg n x + leg m x * d2leg n x)))
      with (((x * x - 1) * d2leg m x + 2 * x * dleg m x) * leg n x - leg m x * ((x * x - 1) * d2leg n x + 2 * x * dleg n x)) by ring.
      rewrite !leg_ode. replace (INR m * (INR m + 1) * leg m x * leg n x - leg m x * (INR n * (INR n + 1) * leg n x))
        with (d * (leg m x * leg n x)) by (unfold d; ring). field. exact Hd. }
  apply (derivable_pt_lim_scal (fun x => (x * x - 1) * (dleg m x * leg n x - leg m x * dleg n x))).
  apply (derivable_pt_lim_mult (fun x => x * x - 1) (fun x => dleg m x * leg n x - leg m x * dleg n x)); [apply sq_der|].
  apply (derivable_pt_lim_minus (fun x => dleg m x * leg n x) (fun x => leg m x * dleg n x)).
  - apply (derivable_pt_lim_mult (dleg m) (leg n)); [apply dleg_der | apply leg_der].
  - apply (derivable_pt_lim_mult (leg m) (dleg n)); [apply leg_der | apply dleg_der].
Qed.
Lemma leg_norm n : integral (fun x => leg n x * leg n x) (-1) 1 (2 / (2 * INR n + 1)).
Proof.
  destruct n as [|n].
  { exists id. split; [|unfold id; cbn; field]. intros x. replace (leg 0 x * leg 0 x) with 1 by (rewrite leg0; ring).
    apply derivable_pt_lim_id. }
  induction n as [|n IH].
  - exists (fun x => / 3 * (x * (x * x))). split; [|cbn; field]. intros x. rewrite !leg1.
    replace (x * x) with (/ 3 * (1 * (id x * id x) + id x * (1 * id x + id x * 1))) by (unfold id; field).
    apply (derivable_pt_lim_scal (fun y => id y * (id y * id y))).
    apply (derivable_pt_lim_mult id (fun y => id y * id y)); [apply derivable_pt_lim_id|].
    apply derivable_pt_lim_mult; apply derivable_pt_lim_id.
  - set (q := INR (S n)) in *. assert (Hq : 0 < q) by (unfold q; apply lt_0_INR; lia).
    assert (E1 : INR (S (S n)) = q + 1) by (unfold q; apply S_INR). rewrite E1.
    apply (integral_ext (fun x =>
      ((2 * q + 1) / (2 * q + 3) * ((q + 2) / (q + 1)) * (leg (S n) x * leg (S (S (S n))) x)
       + (2 * q + 1) / (2 * q + 3) * (leg (S n) x * leg (S n) x)) + - (q / (q + 1)) * (leg n x * leg (S (S n)) x))).
    { intros x. rewrite (leg_rec (S n)), E1.
      set (A := leg (S (S n)) x). set (B := leg (S n) x).
      transitivity (A * (((2 * q + 1) * x * B - q * leg n x) / (q + 1))); [unfold A, B; field; split; lra|].
      unfold A, B. f_equal. rewrite (leg_rec n). reflexivity. }
    replace (2 / (2 * (q + 1) + 1)) with
      (((2 * q + 1) / (2 * q + 3) * ((q + 2) / (q + 1)) * 0 + (2 * q + 1) / (2 * q + 3) * (2 / (2 * q + 1))) + - (q / (q + 1)) * 0)
      by (field; repeat split; lra).
    apply (integral_add (fun x => (2 * q + 1) / (2 * q + 3) * ((q + 2) / (q + 1)) * (leg (S n) x * leg (S (S (S n))) x)
       + (2 * q + 1) / (2 * q + 3) * (leg (S n) x * leg (S n) x)) (fun x => - (q / (q + 1)) * (leg n x * leg (S (S n)) x))).
    + apply (integral_add (fun x => (2 * q + 1) / (2 * q + 3) * ((q + 2) / (q + 1)) * (leg (S n) x * leg (S (S (S n))) x))
        (fun x => (2 * q + 1) / (2 * q + 3) * (leg (S n) x * leg (S n) x))).
      * apply (integral_scal (fun x => leg (S n) x * leg (S (S (S n))) x)). apply leg_orth. lia.
      * apply (integral_scal (fun x => leg (S n) x * leg (S n) x)). exact IH.
    + apply (integral_scal (fun x => leg n x * leg (S (S n)) x)). apply leg_orth. lia.
Qed.

(** Every slope is a multiple of a Legendre polynomial. *)
Lemma slope_form N j : (2 <= N)%nat -> (j < N)%nat -> exists c l, (forall x, leg_dnf N 1 j x = c * leg l x) /\
  (if interior N j then l = j /\ c * c = (2 * INR j + 1) / 2 else l = 0%nat /\ c = if (j =? 0)%nat then - / 2 else / 2).
Proof.
  intros HN Hj. unfold interior. destruct (Nat.eq_dec j 0) as [->|H0]; [|destruct (Nat.eq_dec j (N - 1)) as [->|H1]].
  - exists (- / 2), 0%nat. split; [|bools; split; reflexivity]. intros x. rewrite leg_first by assumption. cbn [tab].
    unfold dleg, leg; cbn. field.
  - exists (/ 2), 0%nat. split; [|bools; split; reflexivity]. intros x. rewrite leg_last by assumption. cbn [tab].
    unfold dleg, leg; cbn. field.
  - exists (sqrt ((2 * INR j + 1) / 2)), j. split; [intros x; apply leg_inner_slope; lia|].
    bools. split; [reflexivity|]. apply sqrt_sqrt. pose proof (pos_INR j). lra.
Qed.
Lemma stiffness N i j : (2 <= N)%nat -> (i < N)%nat -> (j < N)%nat ->
  integral (fun x => leg_dnf N 1 i x * leg_dnf N 1 j x) (-1) 1
    (if (interior N i || interior N j)%bool then (if (i =? j)%nat then 1 else 0)
     else if (i =? j)%nat then 1 / 2 else - (1 / 2)).
Proof.
  intros HN Hi Hj. destruct (slope_form N i HN Hi) as [c [l [Ec Hc]]], (slope_form N j HN Hj) as [d [m [Ed Hd]]].
  apply (integral_ext (fun x => c * d * (leg l x * leg m x))); [intros x; rewrite Ec, Ed; ring|].
  destruct (interior N i) eqn:Ii, (interior N j) eqn:Ij; cbn [orb].
  - destruct Hc as [-> Hc], Hd as [-> Hd]. destruct (Nat.eqb_spec i j) as [<-|Hne].
    + replace 1 with (c * d * (2 / (2 * INR i + 1))) at 2; [apply (integral_scal (fun x => leg i x * leg i x)); apply leg_norm|].
      pose proof (pos_INR i).
      assert (E : c = d).
      { pose proof (Ec 1) as E1. rewrite (Ed 1), leg_at_1 in E1. lra. }
      rewrite <- E, Hc. field. lra.
    + replace 0 with (c * d * 0) by ring. apply (integral_scal (fun x => leg i x * leg j x)). apply leg_orth. exact Hne.
  - destruct Hc as [-> _], Hd as [-> _]. unfold interior in *.
    replace (i =? j)%nat with false by (symmetry; apply Nat.eqb_neq; intros ->; congruence).
    replace 0 with (c * d * 0) by ring. apply (integral_scal (fun x => leg i x * leg 0 x)). apply leg_orth.
    apply andb_prop in Ii. destruct Ii as [Ii _]. apply Nat.leb_le in Ii. lia.
  - destruct Hc as [-> _], Hd as [-> _]. unfold interior in *.
    replace (i =? j)%nat with false by (symmetry; apply Nat.eqb_neq; intros ->; congruence).
    replace 0 with (c * d * 0) by ring. apply (integral_scal (fun x => leg 0 x * leg j x)). apply leg_orth.
    apply andb_prop in Ij. destruct Ij as [Ij _]. apply Nat.leb_le in Ij. lia.
  - destruct Hc as [-> ->], Hd as [-> ->].
    match goal with |- integral _ _ _ ?v => replace v with
      ((if (i =? 0)%nat then - / 2 else / 2) * (if (j =? 0)%nat then - / 2 else / 2) * (2 / (2 * INR 0 + 1))) end.
    + apply (integral_scal (fun x => leg 0 x * leg 0 x)). apply leg_norm.
    + unfold interior in *. apply andb_false_iff in Ii, Ij. rewrite Nat.leb_gt, Nat.ltb_ge in Ii, Ij. cbn [INR].
      destruct (Nat.eqb_spec i 0), (Nat.eqb_spec j 0), (Nat.eqb_spec i j); try lia; field.
Qed.
