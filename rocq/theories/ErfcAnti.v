(** Antiderivatives of erfc times a Legendre polynomial of a quadratic argument. *)
Require Import Reals List Arith Lra Lia.
Require Import Verif.Prelude Verif.SadSpec Verif.SadWit Verif.PotSpec Verif.PotNuc Verif.LegMath Verif.ShapeModel Verif.ShapeLeg Verif.ErfcSpec.
Open Scope R_scope.

Lemma erfc_der erfc : is_erfc erfc -> forall x, derivable_pt_lim erfc x (- (2 / sqrt PI * exp (- (x * x)))).
Proof.
  intros [erf [[_ [D _]] E]] x. apply (lim_ext (fun y => 1 - erf y)); [intros; symmetry; apply E|].
  eapply lim_eq; [|apply lim_minus; [apply lim_const|apply D]]. ring.
Qed.

Section Anti.
Variables (erfc : R -> R) (He : forall x, derivable_pt_lim erfc x (- (2 / sqrt PI * exp (- (x * x))))).
Variables (A B : R) (HB : 0 < B).
Definition pp (u : R) : R := (A - u * u) / (2 * B).
Definition bell (u : R) : R := exp (- (u * u)).

Lemma lim_pp u : derivable_pt_lim pp u (- u / B).
Proof.
  apply (lim_ext (fun y => / (2 * B) * (A - y * y))); [intros; unfold pp; field; lra|].
  eapply lim_eq; [|apply lim_scal, lim_minus; [apply lim_const|apply lim_mul; apply lim_id]]. cbv beta; field. lra.
Qed.
Lemma lim_bell u : derivable_pt_lim bell u (- 2 * u * bell u).
Proof. unfold bell. eapply lim_eq; [|apply (lim_exp (fun y => - (y * y))), lim_opp, lim_mul; apply lim_id]. cbv beta. ring. Qed.
Lemma lim_leg n u : derivable_pt_lim (fun y => leg n (pp y)) u (dleg n (pp u) * (- u / B)).
Proof. apply (derivable_pt_lim_comp pp (leg n) u); [apply lim_pp|apply leg_der]. Qed.
Lemma lim_Q n u : derivable_pt_lim (fun y => leg (S (S n)) (pp y) - leg n (pp y)) u ((2 * INR (S n) + 1) * leg (S n) (pp u) * (- u / B)).
Proof. eapply lim_eq; [|apply lim_minus; apply lim_leg]. rewrite <- leg_diff. ring. Qed.

Fixpoint Kpair (n : nat) (u : R) : R * R :=
  match n with
  | O => (- / 2 * bell u, / (2 * B) * ((u * u + 1 - A) * / 2 * bell u))
  | S k => let '(a, b) := Kpair k u in
           (b, a - / 2 * (bell u * (leg (S (S k)) (pp u) - leg k (pp u))) - (2 * INR (S k) + 1) / (2 * B) * b)
  end.
Definition K n u := fst (Kpair n u).
Lemma K_snd n u : snd (Kpair n u) = K (S n) u.
Proof. unfold K. cbn [Kpair]. destruct (Kpair n u); reflexivity. Qed.
Lemma K_rec n u : K (S (S n)) u = K n u - / 2 * (bell u * (leg (S (S n)) (pp u) - leg n (pp u))) - (2 * INR (S n) + 1) / (2 * B) * K (S n) u.
Proof.
  rewrite <- (K_snd (S n)). cbn [Kpair]. rewrite <- (K_snd n). unfold K. destruct (Kpair n u); reflexivity.
Qed.
Lemma leg0 x : leg 0 x = 1. Proof. reflexivity. Qed.
Lemma leg1 x : leg 1 x = x. Proof. reflexivity. Qed.

Lemma K_der n : (forall u, derivable_pt_lim (K n) u (u * bell u * leg n (pp u))) /\
                (forall u, derivable_pt_lim (K (S n)) u (u * bell u * leg (S n) (pp u))).
Proof.
  induction n as [|n [I0 I1]].
  - split; intros u.
    + apply (lim_ext (fun y => - / 2 * bell y)); [reflexivity|]. eapply lim_eq; [|apply lim_scal, lim_bell]. rewrite leg0. cbv beta; field.
    + apply (lim_ext (fun y => / (2 * B) * ((y * y + 1 - A) * / 2 * bell y))); [reflexivity|].
      eapply lim_eq; [|apply lim_scal, lim_mul; [apply lim_mul; [apply lim_minus; [apply lim_plus; [apply lim_mul; apply lim_id|apply lim_const]|apply lim_const]|apply lim_const]|apply lim_bell]].
      rewrite (leg1 (pp u)). unfold pp. cbv beta; field. lra.
  - split; [exact I1|]. intros u.
    apply (lim_ext (fun y => K n y - / 2 * (bell y * (leg (S (S n)) (pp y) - leg n (pp y))) - (2 * INR (S n) + 1) / (2 * B) * K (S n) y));
      [intros; symmetry; apply K_rec|].
    eapply lim_eq; [|apply lim_minus; [apply lim_minus; [apply I0|apply lim_scal, lim_mul; [apply lim_bell|apply lim_Q]]|apply lim_scal, I1]].
    cbv beta; field. lra.
Qed.

Fixpoint Apair (n : nat) (u : R) : R * R :=
  match n with
  | O => (u * erfc u - / sqrt PI * bell u,
          / (2 * B) * (A * (u * erfc u - / sqrt PI * bell u) - (/ 3 * (u * u * u * erfc u) - / (3 * sqrt PI) * ((1 + u * u) * bell u))))
  | S k => let '(a, b) := Apair k u in
           (b, / (2 * INR (S k) + 3) * (u * erfc u * (leg (S (S k)) (pp u) - leg k (pp u)) - (2 * INR (S k) - 1) * a
               + (2 * INR (S k) + 1) * (A / B) * b + 2 / sqrt PI * (K (S (S k)) u - K k u)))
  end.
Definition An n u := fst (Apair n u).
Lemma An_snd n u : snd (Apair n u) = An (S n) u.
Proof. unfold An. cbn [Apair]. destruct (Apair n u); reflexivity. Qed.
Lemma An_rec n u : An (S (S n)) u = / (2 * INR (S n) + 3) * (u * erfc u * (leg (S (S n)) (pp u) - leg n (pp u)) - (2 * INR (S n) - 1) * An n u
               + (2 * INR (S n) + 1) * (A / B) * An (S n) u + 2 / sqrt PI * (K (S (S n)) u - K n u)).
Proof.
  rewrite <- (An_snd (S n)). cbn [Apair]. rewrite <- (An_snd n). unfold An. destruct (Apair n u); reflexivity.
Qed.

Lemma sp : 0 < sqrt PI. Proof. apply sqrt_lt_R0, PI_RGT_0. Qed.
Lemma An_der n : (forall u, derivable_pt_lim (An n) u (erfc u * leg n (pp u))) /\
                 (forall u, derivable_pt_lim (An (S n)) u (erfc u * leg (S n) (pp u))).
Proof.
  pose proof sp as Hp.
  induction n as [|n [I0 I1]].
  - assert (D0 : forall u, derivable_pt_lim (fun y => y * erfc y - / sqrt PI * bell y) u (erfc u)).
    { intros u. eapply lim_eq; [|apply lim_minus; [apply lim_mul; [apply lim_id|apply He]|apply lim_scal, lim_bell]]. unfold bell. cbv beta; field. lra. }
    split; intros u.
    + apply (lim_ext (fun y => y * erfc y - / sqrt PI * bell y)); [reflexivity|]. eapply lim_eq; [|apply D0]. rewrite leg0. ring.
    + apply (lim_ext (fun u => / (2 * B) * (A * (u * erfc u - / sqrt PI * bell u) - (/ 3 * (u * u * u * erfc u) - / (3 * sqrt PI) * ((1 + u * u) * bell u))))); [reflexivity|].
      eapply lim_eq; [|apply lim_scal, lim_minus; [apply lim_scal, D0|apply lim_minus; [apply lim_scal, lim_mul; [repeat apply lim_mul; apply lim_id|apply He]|
        apply lim_scal, lim_mul; [apply lim_plus; [apply lim_const|apply lim_mul; apply lim_id]|apply lim_bell]]]].
      rewrite (leg1 (pp u)). unfold pp, bell. cbv beta; field. lra.
  - split; [exact I1|]. intros u.
    apply (lim_ext (fun y => / (2 * INR (S n) + 3) * (y * erfc y * (leg (S (S n)) (pp y) - leg n (pp y)) - (2 * INR (S n) - 1) * An n y
               + (2 * INR (S n) + 1) * (A / B) * An (S n) y + 2 / sqrt PI * (K (S (S n)) y - K n y))));
      [intros; symmetry; apply An_rec|].
    eapply lim_eq; [|apply lim_scal, lim_plus; [apply lim_plus; [apply lim_minus; [apply lim_mul; [apply lim_mul; [apply lim_id|apply He]|apply lim_Q]|apply lim_scal, I0]|apply lim_scal, I1]|
      apply lim_scal, lim_minus; [apply (proj2 (K_der (S n)))|apply (proj1 (K_der n))]]].
    cbv beta. pose proof (pos_INR (S n)) as HN. pose proof (leg_rec n (pp u)) as L.
    assert (L2 : 2 * (INR (S n) + 1) * leg (S (S n)) (pp u) = 2 * ((2 * INR (S n) + 1) * pp u * leg (S n) (pp u) - INR (S n) * leg n (pp u))).
    { rewrite L. cbv beta; field. lra. }
    assert (Eu : u * u = A - 2 * B * pp u) by (unfold pp; field; lra).
    clear L. set (P2 := leg (S (S n)) (pp u)) in *. set (P1 := leg (S n) (pp u)) in *. set (P0 := leg n (pp u)) in *.
    set (N := INR (S n)) in *. unfold bell. set (e := exp (- (u * u))). set (c := erfc u). set (q := sqrt PI) in *. set (t := pp u) in *.
    clearbody P2 P1 P0 N e c q t. clear I0 I1.
    apply (Rmult_eq_reg_l (2 * N + 3)); [|lra]. rewrite <- Rmult_assoc, Rinv_r, Rmult_1_l by lra.
    transitivity (c * (P2 - P0 - (2 * N - 1) * P0 + (2 * N + 1) * P1 / B * (A - u * u))); [cbv beta; field; lra|].
    rewrite Eu. transitivity (c * (P2 - P0 - (2 * N - 1) * P0 + 2 * ((2 * N + 1) * t * P1))); [cbv beta; field; lra|].
    replace (2 * ((2 * N + 1) * t * P1)) with (2 * (N + 1) * P2 + 2 * N * P0) by lra. ring.
Qed.
End Anti.
