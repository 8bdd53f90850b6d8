(** The Legendre shape functions. *)
Require Import Reals List Arith Bool Lia Lra.
Require Import Verif.Prelude Verif.FEModel Verif.ShapeModel Verif.ShapeSpec Verif.ShapePoly.
Import ListNotations.
Open Scope R_scope.

Ltac pairs p := match goal with |- context [p ?k ?x] => destruct (p k x) end; reflexivity.
Lemma leg0 x : leg 0 x = 1. Proof. reflexivity. Qed.
Lemma leg1 x : leg 1 x = x. Proof. reflexivity. Qed.
Lemma leg_snd n x : snd (leg_pair n x) = leg (S n) x.
Proof. unfold leg; cbn [leg_pair]. destruct (leg_pair n x); reflexivity. Qed.
Lemma dleg_snd n x : snd (dleg_pair n x) = dleg (S n) x.
Proof. unfold dleg; cbn [dleg_pair]. destruct (dleg_pair n x); reflexivity. Qed.
Lemma d2leg_snd n x : snd (d2leg_pair n x) = d2leg (S n) x.
Proof. unfold d2leg; cbn [d2leg_pair]. destruct (d2leg_pair n x); reflexivity. Qed.
Lemma legQ_snd n x : snd (legQ_pair n x) = legQ (S n) x.
Proof. unfold legQ; cbn [legQ_pair]. destruct (legQ_pair n x); reflexivity. Qed.
Lemma legQp_snd n x : snd (legQp_pair n x) = legQp (S n) x.
Proof. unfold legQp; cbn [legQp_pair]. destruct (legQp_pair n x); reflexivity. Qed.
Lemma legQpp_snd n x : snd (legQpp_pair n x) = legQpp (S n) x.
Proof. unfold legQpp; cbn [legQpp_pair]. destruct (legQpp_pair n x); reflexivity. Qed.

Lemma leg_rec n x : leg (S (S n)) x =
  ((2 * INR (S n) + 1) * x * leg (S n) x - INR (S n) * leg n x) / (INR (S n) + 1).
Proof.
  rewrite <- leg_snd. cbn [leg_pair]. rewrite <- (leg_snd n). unfold leg at 1.
  destruct (leg_pair n x); reflexivity.
Qed.
Lemma dleg_rec n x : dleg (S (S n)) x =
  ((2 * INR (S n) + 1) * leg (S n) x + (2 * INR (S n) + 1) * x * dleg (S n) x - INR (S n) * dleg n x) / (INR (S n) + 1).
Proof.
  rewrite <- dleg_snd. cbn [dleg_pair]. rewrite <- (dleg_snd n). unfold dleg at 1.
  destruct (dleg_pair n x); reflexivity.
Qed.
Lemma d2leg_rec n x : d2leg (S (S n)) x =
  (2 * (2 * INR (S n) + 1) * dleg (S n) x + (2 * INR (S n) + 1) * x * d2leg (S n) x - INR (S n) * d2leg n x) / (INR (S n) + 1).
Proof.
  rewrite <- d2leg_snd. cbn [d2leg_pair]. rewrite <- (d2leg_snd n). unfold d2leg at 1.
  destruct (d2leg_pair n x); reflexivity.
Qed.
Lemma legQ_rec n x : legQ (S (S n)) x =
  ((2 * INR (S n) + 1) * x * legQ (S n) x - INR (S n) * legQ n x + lsign (S n) * (2 * INR (S n) + 1)) * (1 / (INR (S n) + 1)).
Proof.
  rewrite <- legQ_snd. cbn [legQ_pair]. rewrite <- (legQ_snd n). unfold legQ at 1.
  destruct (legQ_pair n x); reflexivity.
Qed.
Lemma legQp_rec n x : legQp (S (S n)) x =
  ((2 * INR (S n) + 1) * (legQ (S n) x + x * legQp (S n) x) - INR (S n) * legQp n x) * (1 / (INR (S n) + 1)).
Proof.
  rewrite <- legQp_snd. cbn [legQp_pair]. rewrite <- (legQp_snd n). unfold legQp at 1.
  destruct (legQp_pair n x); reflexivity.
Qed.
Lemma legQpp_rec n x : legQpp (S (S n)) x =
  ((2 * INR (S n) + 1) * (2 * legQp (S n) x + x * legQpp (S n) x) - INR (S n) * legQpp n x) * (1 / (INR (S n) + 1)).
Proof.
  rewrite <- legQpp_snd. cbn [legQpp_pair]. rewrite <- (legQpp_snd n). unfold legQpp at 1.
  destruct (legQpp_pair n x); reflexivity.
Qed.

Lemma INRS n : INR (S n) + 1 <> 0.
Proof. pose proof (pos_INR (S n)). lra. Qed.

Lemma two_step (P : nat -> Prop) : P 0%nat -> P 1%nat -> (forall n, P n -> P (S n) -> P (S (S n))) -> forall n, P n.
Proof.
  intros H0 H1 HS n. enough (P n /\ P (S n)) by tauto. induction n; [tauto|].
  split; [tauto | apply HS; tauto].
Qed.

(** The derivative of a three-term recurrence. *)
Lemma rec_der (f g : R -> R) x f' g' a b c d h h' :
  derivable_pt_lim f x f' -> derivable_pt_lim g x g' -> derivable_pt_lim h x h' ->
  derivable_pt_lim (fun y => (a * y * f y - b * g y + d * h y) * c) x
                   ((a * (f x + x * f') - b * g' + d * h') * c).
Proof.
  intros Hf Hg Hh.
  apply (derivable_pt_lim_ext (fun y => c * ((a * (id y * f y) - b * g y) + d * h y))); [intros; unfold id; ring|].
  replace ((a * (f x + x * f') - b * g' + d * h') * c) with (c * ((a * (1 * f x + id x * f') - b * g') + d * h'))
    by (unfold id; ring).
  apply derivable_pt_lim_scal.
  apply (derivable_pt_lim_plus (fun y => a * (id y * f y) - b * g y) (fun y => d * h y));
    [|apply derivable_pt_lim_scal; exact Hh].
  apply (derivable_pt_lim_minus (fun y => a * (id y * f y)) (fun y => b * g y));
    [|apply derivable_pt_lim_scal; exact Hg].
  apply (derivable_pt_lim_scal (fun y => id y * f y)).
  apply derivable_pt_lim_mult; [apply derivable_pt_lim_id | exact Hf].
Qed.

Lemma leg_der n : forall x, derivable_pt_lim (leg n) x (dleg n x).
Proof.
  revert n. apply (two_step (fun n => forall x, derivable_pt_lim (leg n) x (dleg n x))).
  - intros x. apply (derivable_pt_lim_const 1).
  - intros x. apply derivable_pt_lim_id.
  - intros n H0 H1 x. rewrite dleg_rec. pose proof (INRS n).
    apply (derivable_pt_lim_ext (fun y => ((2 * INR (S n) + 1) * y * leg (S n) y - INR (S n) * leg n y + 0 * 0) * / (INR (S n) + 1))).
    { intros y. rewrite leg_rec. field. assumption. }
    replace (((2 * INR (S n) + 1) * leg (S n) x + (2 * INR (S n) + 1) * x * dleg (S n) x - INR (S n) * dleg n x) / (INR (S n) + 1))
      with (((2 * INR (S n) + 1) * (leg (S n) x + x * dleg (S n) x) - INR (S n) * dleg n x + 0 * 0) * / (INR (S n) + 1)) by (field; assumption).
    apply (rec_der (leg (S n)) (leg n) x _ _ _ _ _ 0 (fun _ => 0)); [apply H1 | apply H0 | apply derivable_pt_lim_const].
Qed.
Lemma dleg_der n : forall x, derivable_pt_lim (dleg n) x (d2leg n x).
Proof.
  revert n. apply (two_step (fun n => forall x, derivable_pt_lim (dleg n) x (d2leg n x))).
  - intros x. apply (derivable_pt_lim_const 0).
  - intros x. apply (derivable_pt_lim_const 1).
  - intros n H0 H1 x. rewrite d2leg_rec. pose proof (INRS n).
    apply (derivable_pt_lim_ext (fun y => ((2 * INR (S n) + 1) * y * dleg (S n) y - INR (S n) * dleg n y + (2 * INR (S n) + 1) * leg (S n) y) * / (INR (S n) + 1))).
    { intros y. rewrite dleg_rec. field. assumption. }
    replace ((2 * (2 * INR (S n) + 1) * dleg (S n) x + (2 * INR (S n) + 1) * x * d2leg (S n) x - INR (S n) * d2leg n x) / (INR (S n) + 1))
      with (((2 * INR (S n) + 1) * (dleg (S n) x + x * d2leg (S n) x) - INR (S n) * d2leg n x + (2 * INR (S n) + 1) * dleg (S n) x) * / (INR (S n) + 1)) by (field; assumption).
    apply (rec_der (dleg (S n)) (dleg n) x _ _ _ _ _ _ (leg (S n))); [apply H1 | apply H0 | apply leg_der].
Qed.
Lemma legQ_der n : forall x, derivable_pt_lim (legQ n) x (legQp n x).
Proof.
  revert n. apply (two_step (fun n => forall x, derivable_pt_lim (legQ n) x (legQp n x))).
  - intros x. apply (derivable_pt_lim_const 0).
  - intros x. apply (derivable_pt_lim_const 1).
  - intros n H0 H1 x. rewrite legQp_rec. pose proof (INRS n).
    apply (derivable_pt_lim_ext (fun y => ((2 * INR (S n) + 1) * y * legQ (S n) y - INR (S n) * legQ n y + 1 * (lsign (S n) * (2 * INR (S n) + 1))) * / (INR (S n) + 1))).
    { intros y. rewrite legQ_rec. field. assumption. }
    replace (((2 * INR (S n) + 1) * (legQ (S n) x + x * legQp (S n) x) - INR (S n) * legQp n x) * (1 / (INR (S n) + 1)))
      with (((2 * INR (S n) + 1) * (legQ (S n) x + x * legQp (S n) x) - INR (S n) * legQp n x + 1 * 0) * / (INR (S n) + 1)) by (field; assumption).
    apply (rec_der (legQ (S n)) (legQ n) x _ _ _ _ _ 1 (fun _ => lsign (S n) * (2 * INR (S n) + 1)));
      [apply H1 | apply H0 | apply derivable_pt_lim_const].
Qed.
Lemma legQp_der n : forall x, derivable_pt_lim (legQp n) x (legQpp n x).
Proof.
  revert n. apply (two_step (fun n => forall x, derivable_pt_lim (legQp n) x (legQpp n x))).
  - intros x. apply (derivable_pt_lim_const 0).
  - intros x. apply (derivable_pt_lim_const 0).
  - intros n H0 H1 x. rewrite legQpp_rec. pose proof (INRS n).
    apply (derivable_pt_lim_ext (fun y => ((2 * INR (S n) + 1) * y * legQp (S n) y - INR (S n) * legQp n y + (2 * INR (S n) + 1) * legQ (S n) y) * / (INR (S n) + 1))).
    { intros y. rewrite legQp_rec. field. assumption. }
    replace (((2 * INR (S n) + 1) * (2 * legQp (S n) x + x * legQpp (S n) x) - INR (S n) * legQpp n x) * (1 / (INR (S n) + 1)))
      with (((2 * INR (S n) + 1) * (legQp (S n) x + x * legQpp (S n) x) - INR (S n) * legQpp n x + (2 * INR (S n) + 1) * legQp (S n) x) * / (INR (S n) + 1)) by (field; assumption).
    apply (rec_der (legQp (S n)) (legQp n) x _ _ _ _ _ _ (legQ (S n))); [apply H1 | apply H0 | apply legQ_der].
Qed.

Lemma lsign_S n : lsign (S n) = - lsign n.
Proof. unfold lsign. rewrite Nat.even_succ, <- Nat.negb_even. destruct (Nat.even n); cbn; ring. Qed.

(** Q_n (x+1) = P_n - (-1)^n *)
Lemma legQ_ok n x : (x + 1) * legQ n x = leg n x - lsign n.
Proof.
  revert n. apply (two_step (fun n => (x + 1) * legQ n x = leg n x - lsign n)).
  - unfold legQ, leg, lsign; cbn. ring.
  - unfold legQ, leg, lsign; cbn. ring.
  - intros n H0 H1. rewrite legQ_rec, leg_rec, !lsign_S. pose proof (INRS n).
    rewrite lsign_S in H1.
    transitivity ((((2 * INR (S n) + 1) * x * ((x + 1) * legQ (S n) x) - INR (S n) * ((x + 1) * legQ n x)
      + (x + 1) * (- lsign n * (2 * INR (S n) + 1))) * (1 / (INR (S n) + 1)))); [ring|].
    rewrite H0, H1. field. assumption.
Qed.

Lemma leg_at_1 n : leg n 1 = 1.
Proof.
  revert n. apply (two_step (fun n => leg n 1 = 1)); [reflexivity | reflexivity |].
  intros n H0 H1. rewrite leg_rec, H0, H1. field. apply INRS.
Qed.
Lemma leg_at_m1 n : leg n (-1) = lsign n.
Proof. pose proof (legQ_ok n (-1)). lra. Qed.

(** The derivative identities of Legendre polynomials. *)
Lemma leg_AB n x :
  dleg (S n) x = x * dleg n x + INR (S n) * leg n x /\
  x * dleg (S n) x - dleg n x = INR (S n) * leg (S n) x.
Proof.
  induction n as [|n [A B]].
  - unfold dleg, leg; cbn. split; ring.
  - pose proof (INRS n) as Hn.
    assert (A' : dleg (S (S n)) x = x * dleg (S n) x + INR (S (S n)) * leg (S n) x).
    { rewrite dleg_rec, (S_INR (S n)).
      replace ((2 * INR (S n) + 1) * leg (S n) x + (2 * INR (S n) + 1) * x * dleg (S n) x - INR (S n) * dleg n x)
        with ((2 * INR (S n) + 1) * leg (S n) x + (INR (S n) + 1) * x * dleg (S n) x
              + INR (S n) * (x * dleg (S n) x - dleg n x)) by ring.
      rewrite B. field. assumption. }
    split; [exact A'|].
    assert (C : (x * x - 1) * dleg (S n) x = INR (S n) * x * leg (S n) x - INR (S n) * leg n x).
    { replace ((x * x - 1) * dleg (S n) x)
        with (x * (x * dleg (S n) x - dleg n x) + x * dleg n x - dleg (S n) x) by ring.
      rewrite B, A. ring. }
    rewrite A'. replace (x * (x * dleg (S n) x + INR (S (S n)) * leg (S n) x) - dleg (S n) x)
      with ((x * x - 1) * dleg (S n) x + INR (S (S n)) * x * leg (S n) x) by ring.
    rewrite C, leg_rec, (S_INR (S n)). field. assumption.
Qed.
Lemma leg_diff n x : dleg (S (S n)) x - dleg n x = (2 * INR (S n) + 1) * leg (S n) x.
Proof.
  destruct (leg_AB n x) as [A B], (leg_AB (S n) x) as [A' _].
  rewrite A'. rewrite (S_INR (S n)). replace (dleg n x) with (x * dleg (S n) x - INR (S n) * leg (S n) x) by lra. ring.
Qed.

(** * Shapes *)
Lemma sum_two n i k (g : nat -> R) : (i < n)%nat -> (k < n)%nat -> i <> k ->
  (forall l, (l < n)%nat -> l <> i -> l <> k -> g l = 0) -> sum n g = g i + g k.
Proof.
  intros Hi Hk Hik H.
  rewrite (sum_ext n g (fun l => (if (l =? i)%nat then g l else 0) + (if (l =? k)%nat then g l else 0))).
  2:{ intros l Hl. destruct (Nat.eqb_spec l i), (Nat.eqb_spec l k); subst; try congruence; try ring.
      rewrite H by assumption. ring. }
  rewrite sum_plus. f_equal.
  - rewrite (sum_single n i); [now rewrite Nat.eqb_refl | assumption |].
    intros l _ Hl. apply Nat.eqb_neq in Hl. now rewrite Hl.
  - rewrite (sum_single n k); [now rewrite Nat.eqb_refl | assumption |].
    intros l _ Hl. apply Nat.eqb_neq in Hl. now rewrite Hl.
Qed.
Ltac bools := repeat match goal with
  | |- context [(?a =? ?b)%nat] => destruct (Nat.eqb_spec a b); try lia
  | |- context [(?a <=? ?b)%nat] => destruct (Nat.leb_spec a b); try lia
  | |- context [(?a <? ?b)%nat] => destruct (Nat.ltb_spec a b); try lia
  end; cbn [andb].
Definition tab (n : nat) : nat -> R -> R := match n with O => leg | 1%nat => dleg | _ => d2leg end.
Lemma leg_first N n x : (2 <= N)%nat -> leg_dnf N n 0 x = (tab n 0 x - tab n 1 x) / 2.
Proof.
  intros H. unfold leg_dnf. fold (tab n). rewrite (sum_two N 0 1); try lia.
  - unfold leg_T. bools; field.
  - intros l Hl H0 H1. unfold leg_T. bools; ring.
Qed.
Lemma leg_last N n x : (2 <= N)%nat -> leg_dnf N n (N - 1) x = (tab n 0 x + tab n 1 x) / 2.
Proof.
  intros H. unfold leg_dnf. fold (tab n). rewrite (sum_two N 0 1); try lia.
  - unfold leg_T. bools; field.
  - intros l Hl H0 H1. unfold leg_T. bools; ring.
Qed.
Lemma leg_inner N n j x : (1 <= j < N - 1)%nat ->
  leg_dnf N n j x = (tab n (S j) x - tab n (j - 1) x) / sqrt (4 * INR j + 2).
Proof.
  intros H. unfold leg_dnf. fold (tab n). rewrite (sum_two N (j - 1) (S j)); try lia.
  - unfold leg_T. bools; unfold Rdiv; ring.
  - intros l Hl H0 H1. unfold leg_T. bools; ring.
Qed.
Lemma tab_der n l x : (n < 2)%nat -> derivable_pt_lim (tab n l) x (tab (S n) l x).
Proof. intros H. destruct n as [|[|n]]; [apply leg_der | apply dleg_der | lia]. Qed.
Lemma leg_dnf_der N n j x : (n < 2)%nat -> derivable_pt_lim (leg_dnf N n j) x (leg_dnf N (S n) j x).
Proof.
  intros H. unfold leg_dnf. change (match n with 0%nat => leg | 1%nat => dleg | _ => d2leg end) with (tab n).
  change (match S n with 0%nat => leg | 1%nat => dleg | _ => d2leg end) with (tab (S n)).
  generalize (N - 1)%nat as q. intros q.
  induction N; cbn [sum]; [apply derivable_pt_lim_const|].
  apply (derivable_pt_lim_plus (fun y => sum N (fun l => tab n l y * leg_T q l j)) (fun y => tab n N y * leg_T q N j));
    [exact IHN|].
  apply (derivable_pt_lim_ext (fun y => leg_T q N j * tab n N y)); [intros; ring|].
  rewrite Rmult_comm. apply derivable_pt_lim_scal. apply tab_der. assumption.
Qed.

(** Values at the two ends. *)
Lemma leg_ends N j (left : bool) : (2 <= N)%nat -> (j < N)%nat ->
  leg_dnf N 0 j (if left then -1 else 1) = if (j =? if left then 0 else N - 1)%nat then 1 else 0.
Proof.
  intros HN Hj. set (x := if left then -1 else 1).
  destruct (Nat.eq_dec j 0) as [->|H0]; [|destruct (Nat.eq_dec j (N - 1)) as [->|H1]].
  - rewrite leg_first by assumption. cbn [tab]. rewrite leg0, leg1. unfold x. destruct left; bools; field.
  - rewrite leg_last by assumption. cbn [tab]. rewrite leg0, leg1. unfold x. destruct left; bools; field.
  - rewrite leg_inner by lia. cbn [tab].
    assert (E : leg (S j) x = leg (j - 1) x).
    { unfold x. destruct left; [rewrite !leg_at_m1 | rewrite !leg_at_1; reflexivity].
      destruct j as [|j]; [lia|]. rewrite !lsign_S. replace (S j - 1)%nat with j by lia. ring. }
    rewrite E. destruct left; bools; unfold Rdiv; ring.
Qed.
Lemma sqrt_42 j : sqrt (4 * INR j + 2) <> 0.
Proof. pose proof (pos_INR j). apply Rgt_not_eq. apply sqrt_lt_R0. lra. Qed.
(** The derivative of an interior shape is a multiple of P_j. *)
Lemma leg_inner_slope N j x : (1 <= j < N - 1)%nat ->
  leg_dnf N 1 j x = sqrt ((2 * INR j + 1) / 2) * leg j x.
Proof.
  intros H. rewrite leg_inner by assumption. cbn [tab]. destruct j as [|j]; [lia|].
  replace (S j - 1)%nat with j by lia. rewrite leg_diff. pose proof (sqrt_42 (S j)) as Hs.
  pose proof (pos_INR (S j)) as Hp.
  replace (4 * INR (S j) + 2) with (4 * ((2 * INR (S j) + 1) / 2)) in * by field.
  rewrite sqrt_mult in * by lra. replace (sqrt 4) with 2 in *.
  2:{ symmetry. replace 4 with (2 * 2) by ring. apply sqrt_square. lra. }
  set (s := sqrt ((2 * INR (S j) + 1) / 2)) in *.
  assert (E : 2 * INR (S j) + 1 = 2 * (s * s)).
  { unfold s. rewrite sqrt_sqrt; [field|]. lra. }
  rewrite E. field. intros E0. apply Hs. rewrite E0. ring.
Qed.

(** * Completeness *)
Definition lspan (n : nat) (f : R -> R) : Prop := exists a : vec, forall x, f x = sum n (fun l => a l * leg l x).
Lemma lspan_ext n f g : (forall x, f x = g x) -> lspan n f -> lspan n g.
Proof. intros E [a H]. exists a. intros x. rewrite <- E. apply H. Qed.
Lemma lspan_add n f g : lspan n f -> lspan n g -> lspan n (fun x => f x + g x).
Proof.
  intros [a Ha] [b Hb]. exists (fun l => a l + b l). intros x. rewrite Ha, Hb, <- sum_plus.
  apply sum_ext. intros; ring.
Qed.
Lemma lspan_scal n c f : lspan n f -> lspan n (fun x => c * f x).
Proof.
  intros [a Ha]. exists (fun l => c * a l). intros x. rewrite Ha, <- sum_scal. apply sum_ext. intros; ring.
Qed.
Lemma lspan_leg n l : (l < n)%nat -> lspan n (leg l).
Proof.
  intros H. exists (fun i => if (i =? l)%nat then 1 else 0). intros x.
  rewrite (sum_single n l); [rewrite Nat.eqb_refl; ring | assumption |].
  intros i _ Hi. apply Nat.eqb_neq in Hi. rewrite Hi. ring.
Qed.
Lemma lspan_sum n m (f : nat -> R -> R) : (forall i, (i < m)%nat -> lspan n (f i)) ->
  lspan n (fun x => sum m (fun i => f i x)).
Proof.
  induction m; intros H; cbn [sum].
  - exists (fun _ => 0). intros x. rewrite sum_zero'; [reflexivity | intros; ring].
  - apply (lspan_add n (fun x => sum m (fun i => f i x)) (f m)); [apply IHm; intros; apply H; lia | apply H; lia].
Qed.
Lemma lspan_x n f : lspan n f -> lspan (S n) (fun x => x * f x).
Proof.
  intros [a H]. apply (lspan_ext _ (fun x => sum n (fun l => a l * (x * leg l x)))).
  { intros x. rewrite H, <- sum_scal. apply sum_ext. intros; ring. }
  apply (lspan_sum (S n) n (fun l x => a l * (x * leg l x))). intros l Hl. apply (lspan_scal (S n) (a l) (fun x => x * leg l x)).
  destruct l as [|l].
  - apply (lspan_ext _ (leg 1)); [intros x; rewrite leg0, leg1; ring | apply lspan_leg; lia].
  - assert (Hm : 2 * INR (S l) + 1 <> 0) by (pose proof (pos_INR (S l)); lra).
    apply (lspan_ext _ (fun x => (INR (S l) + 1) / (2 * INR (S l) + 1) * leg (S (S l)) x
                                 + INR (S l) / (2 * INR (S l) + 1) * leg l x)).
    { intros x. rewrite leg_rec. field. split; [exact Hm | apply INRS]. }
    apply (lspan_add (S n) (fun x => (INR (S l) + 1) / (2 * INR (S l) + 1) * leg (S (S l)) x));
      apply lspan_scal; apply lspan_leg; lia.
Qed.
Lemma lspan_le n m f : (n <= m)%nat -> lspan n f -> lspan m f.
Proof.
  intros Hnm [a H]. apply (lspan_ext _ (fun x => sum n (fun l => a l * leg l x))); [intros; symmetry; apply H|].
  apply (lspan_sum m n (fun l x => a l * leg l x)). intros l Hl. apply lspan_scal. apply lspan_leg. lia.
Qed.
Lemma lspan_poly c : lspan (length c) (peval c).
Proof.
  induction c as [|a c IH]; [exists (fun _ => 0); reflexivity|].
  cbn [length peval]. apply (lspan_add (S (length c)) (fun _ => a) (fun x => x * peval c x)).
  - apply (lspan_ext _ (fun x => a * leg 0 x)); [intros; rewrite leg0; ring|]. apply lspan_scal. apply lspan_leg. lia.
  - apply lspan_x. exact IH.
Qed.
(** The shapes span the polynomials of degree below N. *)
Definition bspan (N : nat) (f : R -> R) : Prop := exists a : vec, forall x, f x = sum N (fun j => a j * leg_dnf N 0 j x).
Lemma bspan_ext n f g : (forall x, f x = g x) -> bspan n f -> bspan n g.
Proof. intros E [a H]. exists a. intros x. rewrite <- E. apply H. Qed.
Lemma bspan_add n f g : bspan n f -> bspan n g -> bspan n (fun x => f x + g x).
Proof.
  intros [a Ha] [b Hb]. exists (fun l => a l + b l). intros x. rewrite Ha, Hb, <- sum_plus.
  apply sum_ext. intros; ring.
Qed.
Lemma bspan_scal n c f : bspan n f -> bspan n (fun x => c * f x).
Proof.
  intros [a Ha]. exists (fun l => c * a l). intros x. rewrite Ha, <- sum_scal. apply sum_ext. intros; ring.
Qed.
Lemma bspan_shape n j : (j < n)%nat -> bspan n (leg_dnf n 0 j).
Proof.
  intros H. exists (fun i => if (i =? j)%nat then 1 else 0). intros x.
  rewrite (sum_single n j); [rewrite Nat.eqb_refl; ring | assumption |].
  intros i _ Hi. apply Nat.eqb_neq in Hi. rewrite Hi. ring.
Qed.
Lemma bspan_leg N l : (2 <= N)%nat -> (l < N)%nat -> bspan N (leg l).
Proof.
  intros HN. revert l. apply (two_step (fun l => (l < N)%nat -> bspan N (leg l))).
  - intros _. apply (bspan_ext _ (fun x => leg_dnf N 0 0 x + leg_dnf N 0 (N - 1) x)).
    { intros x. rewrite leg_first, leg_last by assumption. cbn [tab]. field. }
    apply bspan_add; apply bspan_shape; lia.
  - intros _. apply (bspan_ext _ (fun x => leg_dnf N 0 (N - 1) x + -1 * leg_dnf N 0 0 x)).
    { intros x. rewrite leg_first, leg_last by assumption. cbn [tab]. field. }
    apply (bspan_add N (leg_dnf N 0 (N - 1)) (fun x => -1 * leg_dnf N 0 0 x)); [|apply bspan_scal]; apply bspan_shape; lia.
  - intros l H0 _ Hl.
    apply (bspan_ext _ (fun x => sqrt (4 * INR (S l) + 2) * leg_dnf N 0 (S l) x + leg l x)).
    { intros x. rewrite leg_inner by lia. cbn [tab]. replace (S l - 1)%nat with l by lia. field. apply sqrt_42. }
    apply (bspan_add N (fun x => sqrt (4 * INR (S l) + 2) * leg_dnf N 0 (S l) x) (leg l)); [|apply H0; lia].
    apply bspan_scal. apply bspan_shape. lia.
Qed.
Lemma leg_complete N c : (2 <= N)%nat -> (length c <= N)%nat ->
  exists a : vec, forall x, sum N (fun j => a j * leg_dnf N 0 j x) = peval c x.
Proof.
  intros HN Hc. destruct (lspan_le _ N _ Hc (lspan_poly c)) as [b Hb].
  assert (G : forall m, (m <= N)%nat -> bspan N (fun x => sum m (fun l => b l * leg l x))).
  { induction m; intros Hm; cbn [sum].
    - exists (fun _ => 0). intros x. rewrite sum_zero'; [reflexivity | intros; ring].
    - apply (bspan_add N (fun x => sum m (fun l => b l * leg l x)) (fun x => b m * leg m x)); [apply IHm; lia|].
      apply bspan_scal. apply bspan_leg; [assumption | lia]. }
  destruct (G N ltac:(lia)) as [a Ha]. exists a. intros x. rewrite <- Ha, <- Hb. reflexivity.
Qed.

(** * B/r *)
Lemma leg_over_val N j len x : (2 <= N)%nat -> (1 <= j < N)%nat -> len <> 0 ->
  len * (x + 1) * leg_over_r N 0 j len x = leg_dnf N 0 j x.
Proof.
  intros HN Hj Hl. unfold leg_over_r. destruct (Nat.eqb_spec j (N - 1)) as [->|Hne].
  - rewrite leg_last by assumption. cbn [tab Nat.eqb]. rewrite leg0, leg1. field. assumption.
  - rewrite leg_inner by lia. cbn [tab pow]. replace (j + 1)%nat with (S j) by lia.
    transitivity (((x + 1) * legQ (S j) x - (x + 1) * legQ (j - 1) x) / sqrt (4 * INR j + 2)).
    { field. split; first [assumption | apply sqrt_42]. }
    rewrite !legQ_ok. f_equal. destruct j as [|j]; [lia|]. replace (S j - 1)%nat with j by lia.
    rewrite !lsign_S. ring.
Qed.
Definition Qtab (n : nat) : nat -> R -> R := match n with O => legQ | 1%nat => legQp | _ => legQpp end.
Lemma Qtab_der n l x : (n < 2)%nat -> derivable_pt_lim (Qtab n l) x (Qtab (S n) l x).
Proof. intros H. destruct n as [|[|n]]; [apply legQ_der | apply legQp_der | lia]. Qed.
Lemma leg_over_form N n j len x : j <> (N - 1)%nat ->
  leg_over_r N n j len x
  = (1 / len) ^ n * (1 / sqrt (4 * INR j + 2) * (1 / len)) * (Qtab n (j + 1) x - Qtab n (j - 1) x).
Proof.
  intros H. unfold leg_over_r. apply Nat.eqb_neq in H. rewrite H.
  destruct n as [|[|n]]; cbn [Qtab]; ring.
Qed.
Lemma leg_over_der N n j len x : (n < 2)%nat -> len <> 0 ->
  derivable_pt_lim (leg_over_r N n j len) x (len * leg_over_r N (S n) j len x).
Proof.
  intros Hn Hl. destruct (Nat.eq_dec j (N - 1)) as [E|E].
  - unfold leg_over_r. apply Nat.eqb_eq in E. rewrite E. cbn [Nat.eqb]. rewrite Rmult_0_r.
    apply derivable_pt_lim_const.
  - rewrite leg_over_form by assumption.
    apply (derivable_pt_lim_ext (fun y => (1 / len) ^ n * (1 / sqrt (4 * INR j + 2) * (1 / len)) * (Qtab n (j + 1) y - Qtab n (j - 1) y))).
    { intros y. symmetry. apply leg_over_form. assumption. }
    replace (len * ((1 / len) ^ S n * (1 / sqrt (4 * INR j + 2) * (1 / len)) * (Qtab (S n) (j + 1) x - Qtab (S n) (j - 1) x)))
      with ((1 / len) ^ n * (1 / sqrt (4 * INR j + 2) * (1 / len)) * (Qtab (S n) (j + 1) x - Qtab (S n) (j - 1) x))
      by (cbn [pow]; field; split; first [assumption | apply sqrt_42]).
    apply derivable_pt_lim_scal.
    apply (derivable_pt_lim_minus (Qtab n (j + 1)) (Qtab n (j - 1))); apply Qtab_der; assumption.
Qed.
