(** The families exist; concrete inputs meeting the hypotheses of the Legendre theorems. *)
Require Import Reals List Arith Bool ZArith Lia Lra.
Require Import Verif.Prelude Verif.LegModel Verif.LegSpec Verif.LegMath Verif.LegProofs.
Import ListNotations.
Open Scope R_scope.

(** Bonnet's recurrence, differentiated, from the derivatives of the first two members. *)
Fixpoint fam2 (f0 f1 : nat -> R -> R) (l : nat) : (nat -> R -> R) * (nat -> R -> R) :=
  match l with
  | O => (f0, f1)
  | S k => (snd (fam2 f0 f1 k), fun m x => ((2 * INR k + 3) * (x * snd (fam2 f0 f1 k) m x + INR m * snd (fam2 f0 f1 k) (m - 1)%nat x)
                                          - (INR k + 1) * fst (fam2 f0 f1 k) m x) * / (INR k + 2))
  end.
Definition fam (f0 f1 : nat -> R -> R) (m l : nat) : R -> R := fst (fam2 f0 f1 l) m.
Lemma fam_der (dom : R -> Prop) f0 f1 : (forall m x, dom x -> derivable_pt_lim (f0 m) x (f0 (S m) x)) -> (forall m x, dom x -> derivable_pt_lim (f1 m) x (f1 (S m) x)) ->
  derivatives dom (fam f0 f1).
Proof.
  intros H0 H1. assert (G : forall l, (forall m x, dom x -> derivable_pt_lim (fst (fam2 f0 f1 l) m) x (fst (fam2 f0 f1 l) (S m) x)) /\
    (forall m x, dom x -> derivable_pt_lim (snd (fam2 f0 f1 l) m) x (snd (fam2 f0 f1 l) (S m) x))).
  { induction l as [|k (IA & IB)]; [split; assumption|]. cbn [fam2 fst snd]. split; [exact IB|]. intros m x Hx.
    set (u := fst (fam2 f0 f1 k)) in *. set (v := snd (fam2 f0 f1 k)) in *.
    eapply (lim_ext (fun y => / (INR k + 2) * ((2 * INR k + 3) * (y * v m y + INR m * v (m - 1)%nat y) - (INR k + 1) * u m y))); [intros; ring|].
    eapply lim_eq; [|apply lim_scal; apply lim_minus; [apply lim_scal; apply lim_plus; [apply lim_x; apply IB; exact Hx | apply lim_scal; apply IB; exact Hx] | apply lim_scal; apply IA; exact Hx]].
    rewrite S_INR. replace (S m - 1)%nat with m by lia. destruct m as [|j].
    - cbn [INR]. ring.
    - replace (S (S j - 1)) with (S j) by lia. ring. }
  intros m l x Hx. apply G. exact Hx.
Qed.
Lemma fam_bonnet dom f0 f1 : bonnet dom (fam f0 f1).
Proof.
  intros l x _. unfold fam. cbn [fam2 fst snd]. pose proof (pos_INR l). cbn [INR]. field. lra.
Qed.

Definition P0 (m : nat) (x : R) : R := match m with O => 1 | _ => 0 end.
Definition P1 (m : nat) (x : R) : R := match m with O => x | S O => 1 | _ => 0 end.
Definition Pfam := fam P0 P1.
Lemma first_exists : first_kind Pfam.
Proof.
  split; [|split; [apply fam_bonnet | split; reflexivity]]. apply fam_der; intros m x _.
  - destruct m; [exact (lim_const 1 x) | exact (lim_const 0 x)].
  - destruct m as [|[|m]]; [exact (lim_id x) | exact (lim_const 1 x) | exact (lim_const 0 x)].
Qed.

(** Derivatives of Q_0. *)
Definition Q0 (m : nat) (x : R) : R :=
  match m with
  | O => 1 / 2 * ln (Rabs ((x + 1) / (x - 1)))
  | S k => 1 / 2 * ((-1) ^ k * INR (fact k) * (/ (x + 1) ^ (S k) - / (x - 1) ^ (S k)))
  end.
Definition Q1 (m : nat) (x : R) : R := x * Q0 m x + INR m * Q0 (m - 1)%nat x - match m with O => 1 | _ => 0 end.
Lemma inv_pow_lim c k x : x + c <> 0 -> derivable_pt_lim (fun y => / (y + c) ^ (S k)) x (- (INR (S k) * / (x + c) ^ (S (S k)))).
Proof.
  intros H. eapply lim_eq; [|apply (derivable_pt_lim_comp (fun y => y + c) (fun z => / z ^ (S k)) x 1)].
  2:{ eapply lim_eq; [|apply lim_plus; [apply lim_id | apply lim_const]]. ring. }
  2:{ eapply lim_ext; [|apply (derivable_pt_lim_div (fct_cte 1) (fun z => z ^ (S k)) (x + c) 0 (INR (S k) * (x + c) ^ (Nat.pred (S k))))].
      - intros y. unfold div_fct, fct_cte. unfold Rdiv. ring.
      - exact (lim_const 1 _).
      - apply derivable_pt_lim_pow.
      - apply pow_nonzero. exact H. }
  unfold fct_cte. cbn [Nat.pred]. unfold Rsqr. cbn [pow]. field. split; [apply pow_nonzero|]; exact H.
Qed.
Lemma Q0_der m x : off_unit x -> derivable_pt_lim (Q0 m) x (Q0 (S m) x).
Proof.
  intros H. destruct (off_nz x H) as (A & B). destruct m as [|k].
  - apply (local_lim q00).
    + destruct (open_off x H) as (d & Hd & Hi). exists d. split; [exact Hd|]. intros y Hy. apply q00_ln. apply Hi. exact Hy.
    + eapply lim_eq; [|apply q00_lim; exact H]. unfold Q0. cbn. field. split; [exact B|split; [exact A | apply off_u; exact H]].
  - unfold Q0 at 1. eapply lim_eq; [|apply lim_scal; apply lim_scal; apply lim_minus; [apply (inv_pow_lim 1); exact A | apply (inv_pow_lim (-1)); exact B]].
    unfold Q0. rewrite fact_simpl, mult_INR. replace (x + -1) with (x - 1) by ring. cbn [pow]. ring.
Qed.
Lemma Q1_der m x : off_unit x -> derivable_pt_lim (Q1 m) x (Q1 (S m) x).
Proof.
  intros H. unfold Q1 at 1. eapply lim_eq; [|apply lim_minus; [apply lim_plus; [apply lim_x; apply Q0_der; exact H | apply lim_scal; apply Q0_der; exact H] | apply lim_const]].
  unfold Q1. rewrite S_INR. replace (S m - 1)%nat with m by lia. destruct m as [|k].
  - cbn [INR]. ring.
  - replace (S (S k - 1)) with (S k) by lia. ring.
Qed.
Definition Qfam := fam Q0 Q1.
Lemma second_exists : second_kind Qfam.
Proof.
  split; [|split; [apply fam_bonnet | split; [reflexivity|]]].
  - apply fam_der; intros m x H; [apply Q0_der | apply Q1_der]; exact H.
  - intros x _. unfold Qfam, fam. cbn [fam2 fst snd]. unfold Q1. cbn [INR]. ring.
Qed.
