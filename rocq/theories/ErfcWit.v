(** Witnesses for the kernel expansion. *)
Require Import Reals List Arith Lra Lia ZArith Bool.
Require Import Verif.Prelude Verif.SadSpec Verif.PotSpec Verif.PotNuc Verif.PotErf Verif.PotWit Verif.LegMath Verif.ShapeModel Verif.ErfcModel Verif.ErfcSpec Verif.ErfcAnti Verif.ErfcProofs Verif.ErfcShort Verif.ErfcSeries.
Import ListNotations.
Open Scope R_scope.

Definition the_erfc (x : R) : R := 1 - PotErf.erf x.
Lemma the_erfc_ok : is_erfc the_erfc.
Proof. exists PotErf.erf. split; [apply erf_exists|reflexivity]. Qed.
Lemma erfc_pos_exists : exists erfc, is_erfc erfc.
Proof. exists the_erfc. apply the_erfc_ok. Qed.

(** The derivatives of erfc are Hermite polynomials times exp(-x^2). *)
Fixpoint hpair (n : nat) (x : R) : R * R :=
  match n with O => (1, -2 * x) | S k => let '(a, b) := hpair k x in (b, -2 * x * b - 2 * INR (S k) * a) end.
Definition hh n x := fst (hpair n x).
Lemma hh_snd n x : snd (hpair n x) = hh (S n) x.
Proof. unfold hh. cbn [hpair]. destruct (hpair n x); reflexivity. Qed.
Lemma hh_rec n x : hh (S (S n)) x = -2 * x * hh (S n) x - 2 * INR (S n) * hh n x.
Proof. rewrite <- (hh_snd (S n)). cbn [hpair]. rewrite <- (hh_snd n). unfold hh. destruct (hpair n x); reflexivity. Qed.
Lemma hh_der n : (forall x, derivable_pt_lim (hh (S n)) x (-2 * INR (S n) * hh n x)) /\ (forall x, derivable_pt_lim (hh (S (S n))) x (-2 * INR (S (S n)) * hh (S n) x)).
Proof.
  assert (D1 : forall x, derivable_pt_lim (hh 1) x (-2 * INR 1 * hh 0 x)).
  { intros x. apply (lim_ext (fun y => -2 * y)); [reflexivity|]. eapply lim_eq; [|apply lim_scal, lim_id]. unfold hh. cbn. ring. }
  induction n as [|n [I0 I1]].
  - split; [exact D1|]. intros x. apply (lim_ext (fun y => -2 * y * hh 1 y - 2 * INR 1 * 1)); [intros; symmetry; rewrite hh_rec; reflexivity|].
    eapply lim_eq; [|apply lim_minus; [apply lim_mul; [apply lim_scal, lim_id|apply D1]|exact (lim_const _ _)]]. cbv beta. unfold hh. cbn. ring.
  - split; [exact I1|]. intros x. apply (lim_ext (fun y => -2 * y * hh (S (S n)) y - 2 * INR (S (S n)) * hh (S n) y)); [intros; symmetry; apply hh_rec|].
    eapply lim_eq; [|apply lim_minus; [apply lim_mul; [apply lim_scal, lim_id|apply I1]|apply lim_scal, I0]]. cbv beta. rewrite (hh_rec n), !S_INR. ring.
Qed.
Lemma hb_der n x : derivable_pt_lim (fun y => hh n y * bell y) x (hh (S n) x * bell x).
Proof.
  destruct n as [|n].
  - apply (lim_ext bell); [intros; unfold hh; cbn; ring|]. eapply lim_eq; [|apply ErfcAnti.lim_bell]. unfold hh. cbn. ring.
  - eapply lim_eq; [|apply lim_mul; [apply (proj1 (hh_der n))|apply ErfcAnti.lim_bell]]. rewrite hh_rec. ring.
Qed.
Definition erfc_derivs (j : nat) (x : R) : R := match j with O => the_erfc x | S k => - (2 / sqrt PI) * (hh k x * ErfcAnti.bell x) end.
Lemma erfc_derivs_ok : derivatives the_erfc erfc_derivs.
Proof.
  split; [reflexivity|]. intros [|j] x.
  - eapply lim_eq; [|apply (lim_ext the_erfc); [reflexivity|apply (erfc_der _ the_erfc_ok)]]. cbn [erfc_derivs]. unfold hh, ErfcAnti.bell. cbn. ring.
  - cbn [erfc_derivs]. apply lim_scal, hb_der.
Qed.

Lemma Phi_outcome eps erfc n X x : (exists v, Phi eps erfc n X x = Ok v) \/ Phi eps erfc n X x = Throw RuntimeError.
Proof.
  assert (L : forall X x f k P, (exists v, short_loop eps erfc n X x f k P = Ok v) \/ short_loop eps erfc n X x f k P = Throw RuntimeError).
  { clear. intros X x f. induction f as [|f IH]; intros k P; [right; reflexivity|]. cbn [short_loop].
    destruct (Dnk_ok erfc n k X) as [d0 ->]. destruct (Dnk_ok erfc n (k + 1) X) as [d1 ->]. cbn [bind].
    match goal with |- context [if ?c then _ else _] => destruct c end; [left; eexists; reflexivity|apply IH]. }
  assert (S : forall X x, (exists v, Phi_short eps erfc n X x = Ok v) \/ Phi_short eps erfc n X x = Throw RuntimeError).
  { clear - L. intros X x. unfold Phi_short. destruct (if Rltb X x then (x, X) else (X, x)) as [X' x'].
    destruct (_ && _)%bool; [left; eexists; reflexivity|]. destruct (_ && _ && _)%bool; [left; eexists; reflexivity|].
    generalize (L X' x' 101%nat 0%nat 0). generalize (short_loop eps erfc n X' x' 101 0 0). intros r [[v ->]| ->]; [left; eexists; reflexivity|right; reflexivity]. }
  assert (Gn : forall X x, exists v, Phi_general erfc n X x = Ok v).
  { clear. intros X x. unfold Phi_general. destruct (Rltb_spec X x); cbv beta iota; unfold Hn; match goal with |- context [Rltb ?a ?b] => destruct (Rltb_spec a b) end; try lra; eexists; reflexivity. }
  unfold Phi. destruct (if Rltb X x then (x, X) else (X, x)) as [X' x']. destruct (_ || _)%bool; [apply S|left; apply Gn].
Qed.
Lemma Phi_origin eps erfc P n X : 0 < eps -> legendre P -> 0 < X -> exists v, Phi eps erfc n X 0 = Ok v /\ Phi eps erfc n 0 X = Ok v /\ multipole erfc P n X 0 v.
Proof.
  intros He HP HX. destruct (Phi_origin_r eps erfc P n X He HP HX) as [v [E M]]. exists v. repeat split; try assumption. rewrite Phi_sym. exact E.
Qed.
Lemma C83_case_radii : 4 / 10 <= Rmin 1 2 /\ 5 / 10 <= Rmax 1 2 /\ 1 <> 2.
Proof. rewrite Rmin_left, Rmax_right by lra. repeat split; lra. Qed.
Lemma binomial_5_2 : (Z.to_nat (- 5) < 3)%nat /\ binomial 5 2 = 10.
Proof. split; [lia|]. cbn. field. Qed.
Lemma binomial_m2_2 : (Z.to_nat (- -2) < 3)%nat /\ (-2 <= -2)%Z /\ (2 <= 2)%nat /\ binomial (-2) 2 = 3.
Proof. split; [lia|]. split; [lia|]. split; [lia|]. cbn. field. Qed.

Lemma series_right erfc h n k X : is_erfc erfc -> radial_family (fun r => erfc r / r) h -> 0 < X -> (k <= 3)%nat ->
  Dnk erfc n k X = Ok (X ^ (n + 1) * taylor h n k X).
Proof. intros He. apply D_right, He. Qed.
Lemma series_wrong erfc h n X : is_erfc erfc -> radial_family (fun r => erfc r / r) h -> 0 < X ->
  exists v, Dnk erfc n 4 X = Ok v /\ v <> X ^ (n + 1) * taylor h n 4 X.
Proof. intros He. apply D_wrong, He. Qed.

Lemma D_all erfc n X : exists D, forall k, Dnk erfc n k X = Ok (D k).
Proof.
  exists (fun k => match Dnk erfc n k X with Ok v => v | _ => 0 end). intros k. destruct (Dnk_ok erfc n k X) as [s ->]. reflexivity.
Qed.
Lemma loop_converged eps erfc n X x D : (forall k, Dnk erfc n k X = Ok (D k)) -> let total k := sum (2 * k) (fun i => D i * x ^ (n + 2 * i)) in
  forall f j v, short_loop eps erfc n X x f (2 * j) (total j) = Ok v ->
  exists i, (j < i <= j + f)%nat /\ v = total i /\ Rabs (total i - total (i - 1)%nat) < eps * Rmax (Rabs (total i)) 1.
Proof.
  intros HD total. induction f as [|f IH]; intros j v H; [discriminate|]. cbn [short_loop] in H. rewrite !HD in H. cbn [bind] in H.
  assert (E : total j + (D (2 * j)%nat * x ^ (n + 2 * (2 * j)) + D (2 * j + 1)%nat * x ^ (n + 2 * (2 * j + 1))) = total (S j)).
  { unfold total. replace (2 * S j)%nat with (S (S (2 * j))) by lia. cbn [sum]. replace (S (2 * j)) with (2 * j + 1)%nat by lia. ring. }
  rewrite E in H.
  match type of H with (if Rltb ?a ?b then _ else _) = _ => destruct (Rltb_spec a b) as [Hc|Hc] end.
  - injection H as <-. exists (S j). split; [lia|]. split; [reflexivity|]. replace (S j - 1)%nat with j by lia. rewrite <- E at 1. replace (total j + _ - total j) with (D (2 * j)%nat * x ^ (n + 2 * (2 * j)) + D (2 * j + 1)%nat * x ^ (n + 2 * (2 * j + 1))) by ring. exact Hc.
  - replace (2 * j + 2)%nat with (2 * S j)%nat in H by lia. destruct (IH (S j) v H) as [i [Hi R]]. exists i. split; [lia|exact R].
Qed.
Lemma short_converged eps erfc n X x v : 0 < x <= X -> Phi_short eps erfc n X x = Ok v ->
  exists j D, (1 <= j <= 101)%nat /\ (forall k, (k < 2 * j)%nat -> Dnk erfc n k X = Ok (D k)) /\
    (let total k := sum (2 * k) (fun i => D i * x ^ (n + 2 * i)) in
     v = total j / X ^ (n + 1) /\ Rabs (total j - total (j - 1)%nat) < eps * Rmax (Rabs (total j)) 1).
Proof.
  intros [H1 H2] H. unfold Phi_short in H. destruct (Rltb_spec X x); [lra|]. destruct (Reqb_spec x 0); [lra|]. rewrite andb_false_r in H. cbn [andb] in H.
  destruct (D_all erfc n X) as [D HD]. pose proof (loop_converged eps erfc n X x D HD 101 0) as L. destruct (short_loop eps erfc n X x 101 0 0) as [s| | |] eqn:Es; try discriminate H. cbn [bind] in H. injection H as <-.
  destruct (L s Es) as [j [Hj [E C]]]. exists j, D. split; [lia|]. split; [intros; apply HD|]. cbv zeta. split; [rewrite E; reflexivity|exact C].
Qed.
Lemma Phi_regions eps erfc n X x : 0 <= x -> x <= X ->
  Phi eps erfc n X x = if Rltb x (4 / 10) then Phi_short eps erfc n X x else if Rltb X (5 / 10) then Phi_short eps erfc n X x else Phi_general erfc n X x.
Proof.
  intros H1 H2. unfold Phi. destruct (Rltb_spec X x); [lra|]. cbv beta iota. destruct (Rltb_spec x (4 / 10)); [reflexivity|]. cbn [orb].
  destruct (Rltb_spec X (5 / 10)); [|reflexivity]. destruct (Rltb_spec x (2 * X)); [reflexivity|lra].
Qed.
Lemma converged_witness : exists v, 0 < 1 <= 1 /\ Phi_short 2 (fun _ => 1) 0 1 1 = Ok v.
Proof.
  unfold Phi_short. destruct (Rltb_spec 1 1); [lra|]. destruct (Reqb_spec 1 0); [lra|]. cbn [andb Nat.eqb Nat.ltb Nat.leb].
  change 101%nat with (S 100). generalize 100%nat. intros f. cbn [short_loop].
  assert (E1 : Dnk (fun _ => 1) 0 0 1 = Ok 1) by (unfold Dnk; cbn; f_equal; ring).
  destruct (Dnk_ok (fun _ => 1) 0 (0 + 1) 1) as [d Hd]. rewrite E1, Hd. cbn [bind]. rewrite !pow1, !Rmult_1_r, Rplus_0_l.
  destruct (Rltb_spec (Rabs (1 + d)) (2 * Rmax (Rabs (1 + d)) 1)) as [H|H]; [eexists; split; [lra|reflexivity]|]. exfalso. apply H. pose proof (Rmax_l (Rabs (1 + d)) 1). pose proof (Rmax_r (Rabs (1 + d)) 1). lra.
Qed.
