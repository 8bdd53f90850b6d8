(** Derivatives of the density and the kinetic energy density. *)
Require Import Reals Lra Lia List Arith Bool ZArith.
Require Import Verif.Prelude Verif.FEModel Verif.LegMath Verif.SadModel Verif.SadSpec Verif.SadProofs.
Import ListNotations.
Open Scope R_scope.

Lemma lim_sum n (f : nat -> R -> R) (l : nat -> R) x : (forall k, (k < n)%nat -> derivable_pt_lim (f k) x (l k)) ->
  derivable_pt_lim (fun y => sum n (fun k => f k y)) x (sum n l).
Proof.
  induction n as [|n IH]; intros H; cbn [sum]; [exact (lim_const 0 x)|].
  apply (lim_plus (fun y => sum n (fun k => f k y)) (f n)); [apply IH; intros; apply H; lia | apply H; lia].
Qed.

Lemma pairing_sym f n P u v : symmetric_block f n P -> pairing f n P u v = pairing f n P v u.
Proof.
  intros H. unfold pairing. rewrite (sum_swap n n (fun a b => u a * P (f + a)%nat (f + b)%nat * v b)).
  apply sum_ext. intros b Hb. apply sum_ext. intros a Ha. rewrite (H a b Ha Hb). ring.
Qed.
(** Product rule. *)
Lemma pairing_der f n P (u v u' v' : R -> vec) x :
  (forall a, (a < n)%nat -> derivable_pt_lim (fun s => u s a) x (u' x a)) ->
  (forall a, (a < n)%nat -> derivable_pt_lim (fun s => v s a) x (v' x a)) ->
  derivable_pt_lim (fun s => pairing f n P (u s) (v s)) x (pairing f n P (u' x) (v x) + pairing f n P (u x) (v' x)).
Proof.
  intros Hu Hv. unfold pairing. rewrite <- sum_plus.
  apply (lim_sum n (fun a s => sum n (fun b => u s a * P (f + a)%nat (f + b)%nat * v s b))). intros a Ha. rewrite <- sum_plus.
  apply (lim_sum n (fun b s => u s a * P (f + a)%nat (f + b)%nat * v s b)). intros b Hb.
  apply (lim_ext (fun s => P (f + a)%nat (f + b)%nat * (u s a * v s b))); [intros y; ring|].
  eapply lim_eq; [|apply lim_scal; apply (lim_mul (fun s => u s a) (fun s => v s b)); [apply Hu|apply Hv]; assumption]. ring.
Qed.

Section Field.
Variables (rad : nat -> R -> R) (first len : nat -> nat) (bf df lf : nat -> R -> vec) (P : mat) (e : nat) (X : R -> R).
Hypothesis Hsym : symmetric_block (first e) (len e) P.

Lemma density_der r : (forall a, (a < len e)%nat -> derivable_pt_lim (fun s => bf e (X s) a) r (df e (X r) a)) ->
  derivable_pt_lim (fun s => pairing (first e) (len e) P (bf e (X s)) (bf e (X s))) r (2 * pairing (first e) (len e) P (bf e (X r)) (df e (X r))).
Proof.
  intros Hb. eapply lim_eq; [|apply (pairing_der (first e) (len e) P (fun s => bf e (X s)) (fun s => bf e (X s)) (fun s => df e (X s)) (fun s => df e (X s))); exact Hb].
  cbv beta. rewrite (pairing_sym _ _ _ (df e (X r))) by exact Hsym. ring.
Qed.
Lemma gradient_der r : (forall a, (a < len e)%nat -> derivable_pt_lim (fun s => bf e (X s) a) r (df e (X r) a)) ->
  (forall a, (a < len e)%nat -> derivable_pt_lim (fun s => df e (X s) a) r (lf e (X r) a)) ->
  derivable_pt_lim (fun s => 2 * pairing (first e) (len e) P (bf e (X s)) (df e (X s))) r
    (2 * (pairing (first e) (len e) P (df e (X r)) (df e (X r)) + pairing (first e) (len e) P (bf e (X r)) (lf e (X r)))).
Proof.
  intros Hb Hd. apply lim_scal.
  apply (pairing_der (first e) (len e) P (fun s => bf e (X s)) (fun s => df e (X s)) (fun s => df e (X s)) (fun s => lf e (X s))); assumption.
Qed.
(** r^2 times the derivative of the density has derivative r^2 times the Laplacian. *)
Lemma laplacian_der r (g : R -> R) d2 : r <> 0 -> derivable_pt_lim g r d2 ->
  derivable_pt_lim (fun s => s * s * g s) r (r * r * (d2 + 2 * g r / r)).
Proof.
  intros Hr Hg. apply (lim_ext (fun s => s * (s * g s))); [intros y; ring|].
  eapply lim_eq; [|apply (lim_x (fun s => s * g s)); apply (lim_x g); exact Hg]. cbv beta. field. exact Hr.
Qed.
End Field.

(* ------------------------------------------------------------------ *)
(** * Orbitals *)
Lemma orb_square f n v c : orbital_at f n v c ^ 2 = sum n (fun a => sum n (fun b => v a * (c (f + a)%nat * c (f + b)%nat) * v b)).
Proof.
  unfold orbital_at. replace (sum n (fun a => v a * c (f + a)%nat) ^ 2)
    with (sum n (fun a => v a * c (f + a)%nat) * sum n (fun b => v b * c (f + b)%nat)) by ring.
  rewrite <- sum_scal_r. apply sum_ext. intros a _. rewrite <- sum_scal. apply sum_ext. intros b _. ring.
Qed.
(** The form of a density made of orbitals. *)
Lemma pairing_orbitals f n k w (c : nat -> vec) v :
  pairing f n (fun i j => sum k (fun o => w o * (c o i * c o j))) v v = sum k (fun o => w o * orbital_at f n v (c o) ^ 2).
Proof.
  induction k as [|k IH].
  - unfold pairing. cbn [sum]. apply sum_zero'. intros a _. apply sum_zero'. intros b _. ring.
  - cbn [sum]. rewrite <- IH, orb_square. unfold pairing. rewrite <- sum_scal, <- sum_plus.
    apply sum_ext. intros a _. rewrite <- sum_scal, <- sum_plus. apply sum_ext. intros b _. ring.
Qed.
Lemma pairing_ext f n P Q u v : (forall i j, P i j = Q i j) -> pairing f n P u v = pairing f n Q u v.
Proof. intros H. unfold pairing. apply sum_ext. intros a _. apply sum_ext. intros b _. rewrite H. reflexivity. Qed.
(** Sums over l. *)
Lemma pairing_channels f n nl (P : nat -> mat) u v :
  pairing f n (fun i j => sum nl (fun l => P l i j)) u v = sum nl (fun l => pairing f n (P l) u v).
Proof.
  induction nl as [|nl IH].
  - unfold pairing. cbn [sum]. apply sum_zero'. intros a _. apply sum_zero'. intros b _. ring.
  - cbn [sum]. rewrite <- IH. unfold pairing. rewrite <- sum_plus. apply sum_ext. intros a _.
    rewrite <- sum_plus. apply sum_ext. intros b _. ring.
Qed.

Lemma pairing_scal f n c (P : mat) u v : pairing f n (fun i j => c * P i j) u v = c * pairing f n P u v.
Proof.
  unfold pairing. rewrite <- sum_scal. apply sum_ext. intros a _. rewrite <- sum_scal. apply sum_ext. intros b _. ring.
Qed.

Lemma kinetic_orbitals rad first len bf df nl (norb : nat -> nat) (occ : nat -> vec) (C : nat -> nat -> vec) e x :
  rad e x <> 0 -> (forall l o, (l < nl)%nat -> (o < norb l)%nat -> 0 <= occ l o) ->
  kinetic_density rad first len bf df nl (fun l i j => sum (norb l) (fun o => occ l o * (C l o i * C l o j))) e x
  = 1 / 2 * sum nl (fun l => sum (norb l) (fun o => occ l o *
      (orbital_at (first e) (len e) (df e x) (C l o) ^ 2 + INR (l * (l + 1)) * orbital_at (first e) (len e) (bf e x) (C l o) ^ 2 / rad e x ^ 2))).
Proof.
  intros Hr Ho. unfold kinetic_density. cbv zeta.
  change (form first len ?P e ?u ?v) with (pairing (first e) (len e) P u v).
  rewrite (pairing_channels (first e) (len e) nl (fun l i j => sum (norb l) (fun o => occ l o * (C l o i * C l o j)))).
  rewrite (pairing_channels (first e) (len e) nl (fun l i j => INR (l * (l + 1)) * sum (norb l) (fun o => occ l o * (C l o i * C l o j)))).
  assert (Hr2 : 0 < rad e x ^ 2) by nra.
  assert (E2 : sum nl (fun l => pairing (first e) (len e) (fun i j => INR (l * (l + 1)) * sum (norb l) (fun o => occ l o * (C l o i * C l o j))) (bf e x) (bf e x))
             = sum nl (fun l => sum (norb l) (fun o => occ l o * (INR (l * (l + 1)) * orbital_at (first e) (len e) (bf e x) (C l o) ^ 2)))).
  { apply sum_ext. intros l _. rewrite pairing_scal, pairing_orbitals, <- sum_scal. apply sum_ext. intros o _. ring. }
  rewrite E2. rewrite Rmax_left.
  - f_equal. unfold Rdiv. rewrite <- sum_scal_r, <- sum_plus. apply sum_ext. intros l _.
    rewrite pairing_orbitals, <- sum_scal_r, <- sum_plus. apply sum_ext. intros o _. ring.
  - apply Rmult_le_pos; [|apply Rlt_le, Rinv_0_lt_compat; exact Hr2]. apply sum_nonneg. intros l Hl. apply sum_nonneg. intros o Hlo.
    apply Rmult_le_pos; [apply Ho; assumption|]. apply Rmult_le_pos; [apply pos_INR|]. nra.
Qed.
(** Whatever the density, the second term counts only if positive. *)
Lemma kinetic_lower rad first len bf df nl Pl e x :
  1 / 2 * sum nl (fun l => pairing (first e) (len e) (Pl l) (df e x) (df e x)) <= kinetic_density rad first len bf df nl Pl e x.
Proof.
  unfold kinetic_density. cbv zeta. change (form first len ?P e ?u ?v) with (pairing (first e) (len e) P u v).
  rewrite (pairing_channels (first e) (len e) nl Pl).
  match goal with |- context [Rmax ?t 0] => pose proof (Rmax_r t 0) end. lra.
Qed.
