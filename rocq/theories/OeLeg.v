(** Integrals of Legendre polynomials over [-1, 1]. *)
Require Import Reals ZArith List Bool Arith Lia Lra.
From Coquelicot Require Import Coquelicot.
Require Import Verif.Prelude Verif.OeSpec Verif.OeAng.
Import ListNotations.
Local Open Scope R_scope.

Fixpoint dleg2 (n : nat) (x : R) : R * R :=
  match n with
  | O => (0, 1)
  | S k => let '(p, q) := leg2 k x in let '(p', q') := dleg2 k x in
           (q', ((2 * INR k + 3) * (q + x * q') - (INR k + 1) * p') / (INR k + 2))
  end.

Lemma fst_leg2 n x : fst (leg2 (S n) x) = snd (leg2 n x).
Proof. cbn [leg2]. now destruct (leg2 n x). Qed.
Lemma snd_leg2 n x : snd (leg2 (S n) x) = ((2 * INR n + 3) * x * snd (leg2 n x) - (INR n + 1) * fst (leg2 n x)) / (INR n + 2).
Proof. cbn [leg2]. now destruct (leg2 n x). Qed.
Lemma fst_dleg2 n x : fst (dleg2 (S n) x) = snd (dleg2 n x).
Proof. cbn [dleg2]. destruct (leg2 n x), (dleg2 n x). reflexivity. Qed.
Lemma snd_dleg2 n x : snd (dleg2 (S n) x) =
  ((2 * INR n + 3) * (snd (leg2 n x) + x * snd (dleg2 n x)) - (INR n + 1) * fst (dleg2 n x)) / (INR n + 2).
Proof. cbn [dleg2]. destruct (leg2 n x), (dleg2 n x). reflexivity. Qed.

Lemma leg2_derive n x : is_derive (fun x => fst (leg2 n x)) x (fst (dleg2 n x)) /\ is_derive (fun x => snd (leg2 n x)) x (snd (dleg2 n x)).
Proof.
  induction n as [|n [IH1 IH2]].
  - split; cbn [leg2 dleg2 fst snd]; [apply is_derive_Reals, derivable_pt_lim_const|apply is_derive_Reals, derivable_pt_lim_id].
  - split.
    + rewrite fst_dleg2. apply (is_derive_ext (fun x => snd (leg2 n x))); [intros; now rewrite fst_leg2|exact IH2].
    + rewrite snd_dleg2.
      apply (is_derive_ext (fun x => ((2 * INR n + 3) * x * snd (leg2 n x) - (INR n + 1) * fst (leg2 n x)) / (INR n + 2))); [intros; now rewrite snd_leg2|].
      apply is_derive_Reals in IH1, IH2. apply is_derive_Reals.
      assert (D : derivable_pt_lim (fun x => / (INR n + 2) * ((2 * INR n + 3) * (x * snd (leg2 n x)) - (INR n + 1) * fst (leg2 n x))) x
        (/ (INR n + 2) * ((2 * INR n + 3) * (1 * snd (leg2 n x) + x * snd (dleg2 n x)) - (INR n + 1) * fst (dleg2 n x)))).
      { apply (derivable_pt_lim_scal (fun x => (2 * INR n + 3) * (x * snd (leg2 n x)) - (INR n + 1) * fst (leg2 n x))).
        apply (derivable_pt_lim_minus (fun x => (2 * INR n + 3) * (x * snd (leg2 n x))) (fun x => (INR n + 1) * fst (leg2 n x))).
        - apply (derivable_pt_lim_scal (fun x => x * snd (leg2 n x))).
          apply (derivable_pt_lim_mult (fun x => x) (fun x => snd (leg2 n x))); [apply derivable_pt_lim_id|exact IH2].
        - now apply (derivable_pt_lim_scal (fun x => fst (leg2 n x))). }
      replace (((2 * INR n + 3) * (snd (leg2 n x) + x * snd (dleg2 n x)) - (INR n + 1) * fst (dleg2 n x)) / (INR n + 2))
        with (/ (INR n + 2) * ((2 * INR n + 3) * (1 * snd (leg2 n x) + x * snd (dleg2 n x)) - (INR n + 1) * fst (dleg2 n x))) by (unfold Rdiv; ring).
      apply is_derive_Reals. apply is_derive_Reals in D. refine (is_derive_ext _ _ _ _ _ D). intros t. match goal with |- @eq _ ?u ?v => change (@eq R u v) end. cbv beta. unfold Rdiv. ring.
Qed.

Lemma leg2_identities n x :
  snd (dleg2 n x) = x * fst (dleg2 n x) + (INR n + 1) * fst (leg2 n x) /\
  x * snd (dleg2 n x) - fst (dleg2 n x) = (INR n + 1) * snd (leg2 n x).
Proof.
  induction n as [|n [IA IB]]; [simpl; split; ring|]. rewrite fst_dleg2, snd_dleg2, fst_leg2, snd_leg2, S_INR.
  pose proof (pos_INR n). set (p := fst (leg2 n x)) in *. set (q := snd (leg2 n x)) in *. set (p' := fst (dleg2 n x)) in *. set (q' := snd (dleg2 n x)) in *.
  assert (Ep : p' = x * q' - (INR n + 1) * q) by lra.
  assert (Eq : x * (x * q') - q' = (INR n + 1) * (x * q - p)).
  { rewrite Ep in IA. replace (x * (x * q' - (INR n + 1) * q)) with (x * (x * q') - (INR n + 1) * (x * q)) in IA by ring. lra. }
  split.
  - rewrite Ep. field. lra.
  - replace (x * (((2 * INR n + 3) * (q + x * q') - (INR n + 1) * p') / (INR n + 2)) - q')
      with ((x * (x * q') - q') + (INR n + 2) * (x * q)) by (rewrite Ep; field; lra).
    rewrite Eq. field. lra.
Qed.

Lemma P_rec n x : (2 * INR n + 3) * (x * P_ (S n) x) = (INR n + 2) * P_ (S (S n)) x + (INR n + 1) * P_ n x.
Proof.
  unfold P_. rewrite (fst_leg2 (S n)), snd_leg2, fst_leg2. pose proof (pos_INR n). field. lra.
Qed.

Lemma P_one n : P_ n 1 = 1 /\ P_ (S n) 1 = 1.
Proof.
  induction n as [|n [H1 H2]]; [split; reflexivity|]. split; [exact H2|]. pose proof (P_rec n 1) as E. rewrite H1, H2 in E.
  pose proof (pos_INR n). apply (Rmult_eq_reg_l (INR n + 2)); lra.
Qed.

Lemma P_diff n x : is_derive (fun x => / (2 * INR n + 3) * (P_ (S (S n)) x - P_ n x)) x (P_ (S n) x).
Proof.
  destruct (leg2_derive n x) as [D1 _]. destruct (leg2_derive (S n) x) as [_ D2].
  destruct (leg2_identities n x) as [_ I1]. destruct (leg2_identities (S n) x) as [I2 _].
  apply is_derive_Reals in D1, D2. apply is_derive_Reals.
  assert (D : derivable_pt_lim (fun x => / (2 * INR n + 3) * (snd (leg2 (S n) x) - fst (leg2 n x))) x
    (/ (2 * INR n + 3) * (snd (dleg2 (S n) x) - fst (dleg2 n x)))).
  { apply (derivable_pt_lim_scal (fun x => snd (leg2 (S n) x) - fst (leg2 n x))).
    now apply (derivable_pt_lim_minus (fun x => snd (leg2 (S n) x)) (fun x => fst (leg2 n x))). }
  replace (P_ (S n) x) with (/ (2 * INR n + 3) * (snd (dleg2 (S n) x) - fst (dleg2 n x))).
  - apply is_derive_Reals. apply is_derive_Reals in D. refine (is_derive_ext _ _ _ _ _ D). intros t. unfold P_. now rewrite (fst_leg2 (S n)).
  - unfold P_. rewrite I2, fst_dleg2, fst_leg2, S_INR. replace (fst (dleg2 n x)) with (x * snd (dleg2 n x) - (INR n + 1) * snd (leg2 n x)) by lra.
    pose proof (pos_INR n). field. lra.
Qed.

(* ---------- integrals of polynomials ---------- *)

Definition I11 (f : R -> R) : R := RInt f (-1) 1.

Lemma poly_continuous f x : polynomial f -> continuous f x.
Proof.
  intros [c H]. apply continuity_pt_filterlim.
  apply (continuity_pt_ext (fun x => fold_right (fun a s => a + x * s) 0 c)); [intros; now rewrite H|].
  clear H f. induction c as [|a c IH]; cbn [fold_right]; [apply continuity_pt_const; intros ? ?; reflexivity|].
  apply (continuity_pt_plus (fun _ => a) (fun x => x * fold_right (fun a s => a + x * s) 0 c)); [apply continuity_pt_const; intros ? ?; reflexivity|].
  apply (continuity_pt_mult (fun x => x) (fun x => fold_right (fun a s => a + x * s) 0 c)); [apply derivable_continuous_pt, derivable_pt_id|exact IH].
Qed.
Lemma poly_integrable f : polynomial f -> ex_RInt f (-1) 1.
Proof. intros H. apply (ex_RInt_continuous (V := R_CompleteNormedModule)). intros. now apply poly_continuous. Qed.

Lemma I11_ext f g : (forall x, -1 <= x <= 1 -> f x = g x) -> I11 f = I11 g.
Proof. intros H. apply RInt_ext. intros x. rewrite Rmin_left, Rmax_right by lra. intros. apply H. lra. Qed.
Lemma I11_scal k f : polynomial f -> I11 (fun x => k * f x) = k * I11 f.
Proof. intros H. apply (RInt_scal f). now apply poly_integrable. Qed.
Lemma I11_plus f g : polynomial f -> polynomial g -> I11 (fun x => f x + g x) = I11 f + I11 g.
Proof. intros Hf Hg. apply (RInt_plus f g); now apply poly_integrable. Qed.

Lemma I11_zero : I11 (fun _ => 0) = 0.
Proof. unfold I11. rewrite RInt_const. unfold scal. simpl. unfold mult. simpl. ring. Qed.

Lemma poly_mul f g : polynomial f -> polynomial g -> polynomial (fun x => f x * g x).
Proof.
  intros [c H] Hg. apply (poly_ext (fun x => fold_right (fun a s => a + x * s) 0 c * g x)); [intros; now rewrite H|]. clear H.
  induction c as [|a c IH]; cbn [fold_right].
  - apply (poly_ext (fun x => 0 * g x)); [reflexivity|]. now apply poly_scal.
  - apply (poly_ext (fun x => a * g x + x * (fold_right (fun a s => a + x * s) 0 c * g x))); [intros; ring|].
    apply (poly_add (fun x => a * g x)); [now apply poly_scal|]. now apply (poly_mulx (fun x => fold_right (fun a s => a + x * s) 0 c * g x)).
Qed.

(** An integral with a polynomial weight is linear. *)
Lemma weighted_linear w terms f : polynomial w -> (forall c h, In (c, h) terms -> polynomial h) ->
  (forall x, -1 <= x <= 1 -> f x = lsum terms (fun t => fst t * snd t x)) ->
  I11 (fun x => w x * f x) = lsum terms (fun t => fst t * I11 (fun x => w x * snd t x)).
Proof.
  intros Hw Hp Hf. rewrite (I11_ext _ (fun x => w x * lsum terms (fun t => fst t * snd t x))) by (intros; now rewrite Hf).
  clear Hf f. revert Hp. induction terms as [|[c h] terms IH]; intros Hp; cbn [lsum fst snd].
  - rewrite (I11_ext _ (fun _ => 0)) by (intros; ring). apply I11_zero.
  - assert (Hh : polynomial h) by (apply (Hp c); now left).
    assert (Hs : forall l, (forall c h, In (c, h) l -> polynomial h) -> polynomial (fun x => lsum l (fun t => fst t * snd t x))).
    { clear. induction l as [|[c h] l IH]; intros H; cbn [lsum fst snd]; [apply (poly_const 0)|].
      apply (poly_add (fun x => c * h x)); [apply poly_scal; apply (H c); now left|]. apply IH. intros c' h' Hin. apply (H c'). now right. }
    rewrite (I11_ext _ (fun x => c * (w x * h x) + w x * lsum terms (fun t => fst t * snd t x))) by (intros; ring).
    rewrite (I11_plus (fun x => c * (w x * h x))).
    + rewrite (I11_scal c (fun x => w x * h x)) by (now apply poly_mul). f_equal. apply IH. intros c' h' Hin. apply (Hp c'). now right.
    + apply poly_scal. now apply poly_mul.
    + apply poly_mul; [exact Hw|]. apply Hs. intros c' h' Hin. apply (Hp c'). now right.
Qed.

(* ---------- moments ---------- *)

Definition mom (k n : nat) : R := I11 (fun x => x ^ k * P_ n x).

Lemma mom_poly k n : polynomial (fun x => x ^ k * P_ n x).
Proof. apply poly_mul; [apply poly_pow|apply P_poly]. Qed.

Lemma mom_rec k n : (2 * INR n + 3) * mom (S k) (S n) = (INR n + 2) * mom k (S (S n)) + (INR n + 1) * mom k n.
Proof.
  unfold mom. rewrite <- (I11_scal (2 * INR n + 3)) by apply mom_poly. rewrite <- (I11_scal (INR n + 2)) by apply mom_poly. rewrite <- (I11_scal (INR n + 1)) by apply mom_poly.
  rewrite <- I11_plus.
  - apply I11_ext. intros x _. pose proof (P_rec n x) as E. simpl pow.
    replace ((2 * INR n + 3) * (x * x ^ k * P_ (S n) x)) with (x ^ k * ((2 * INR n + 3) * (x * P_ (S n) x))) by ring. rewrite E. ring.
  - apply (poly_scal _ (fun x => x ^ k * P_ (S (S n)) x)), mom_poly.
  - apply (poly_scal _ (fun x => x ^ k * P_ n x)), mom_poly.
Qed.

Lemma mom_step k : mom (S k) 0 = mom k 1.
Proof. unfold mom. apply I11_ext. intros x _. simpl. unfold P_. simpl. ring. Qed.

Lemma mom00 : mom 0 0 = 2.
Proof.
  unfold mom. rewrite (I11_ext _ (fun _ => 1)) by (intros; unfold P_; simpl; ring). unfold I11. rewrite RInt_const. unfold scal. simpl. unfold mult. simpl. ring.
Qed.
Lemma mom0S n : mom 0 (S n) = 0.
Proof.
  unfold mom. rewrite (I11_ext _ (P_ (S n))) by (intros; simpl; ring). unfold I11. apply is_RInt_unique.
  set (F := fun x => / (2 * INR n + 3) * (P_ (S (S n)) x - P_ n x)).
  replace 0 with (minus (F 1) (F (-1))).
  - apply (is_RInt_derive F (P_ (S n))); intros x _; [apply P_diff|]. apply poly_continuous, P_poly.
  - unfold F, minus, plus, opp. simpl. replace (-1) with (Ropp 1) by ring. rewrite !P_neg. rewrite (proj1 (P_one n)), (proj2 (P_one (S n))). simpl. ring.
Qed.
Lemma mom10 : mom 1 0 = 0.
Proof. rewrite mom_step. apply mom0S. Qed.
Lemma mom1 n : mom 1 (S n) = match n with O => 2 / 3 | _ => 0 end.
Proof.
  pose proof (mom_rec 0 n) as E. rewrite mom0S in E. pose proof (pos_INR n). destruct n as [|n].
  - rewrite mom00 in E. simpl INR in E. lra.
  - rewrite mom0S in E. apply (Rmult_eq_reg_l (2 * INR (S n) + 3)); lra.
Qed.
Lemma mom2 n : mom 2 n = match n with O => 2 / 3 | 2%nat => 4 / 15 | _ => 0 end.
Proof.
  destruct n as [|n]; [rewrite mom_step, mom1; reflexivity|].
  pose proof (mom_rec 1 n) as E. rewrite mom1 in E. pose proof (pos_INR n). destruct n as [|[|n]].
  - rewrite mom10 in E. simpl INR in E. lra.
  - rewrite mom1 in E. simpl INR in E. lra.
  - rewrite mom1 in E. apply (Rmult_eq_reg_l (2 * INR (S (S n)) + 3)); lra.
Qed.
