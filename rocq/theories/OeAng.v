(** Angular integrals of the one-electron operators. *)
Require Import Reals ZArith List Bool Arith Lia Lra.
Require Import Verif.Prelude Verif.AngModel Verif.AngProofs Verif.GauntModel Verif.GauntSpec Verif.GauntProofs Verif.DiaProofs Verif.OeSpec.
Import ListNotations.
Local Open Scope R_scope.

(* ---------- polynomials ---------- *)

Definition horner (c : list R) (x : R) : R := fold_right (fun a s => a + x * s) 0 c.

Fixpoint padd (c d : list R) : list R :=
  match c, d with
  | [], _ => d
  | _, [] => c
  | a :: c', b :: d' => (a + b) :: padd c' d'
  end.
Lemma padd_ok c : forall d x, horner (padd c d) x = horner c x + horner d x.
Proof.
  induction c as [|a c IH]; intros [|b d] x; cbn [padd]; try (unfold horner; simpl; ring).
  change (a + b + x * horner (padd c d) x = (a + x * horner c x) + (b + x * horner d x)). rewrite IH. ring.
Qed.
Lemma horner_scal k c x : horner (map (fun a => k * a) c) x = k * horner c x.
Proof.
  induction c as [|a c IH]; [unfold horner; simpl; ring|].
  change (k * a + x * horner (map (fun a => k * a) c) x = k * (a + x * horner c x)). rewrite IH. ring.
Qed.

Lemma poly_ext f g : (forall x, f x = g x) -> polynomial f -> polynomial g.
Proof. intros E [c H]. exists c. intros x. now rewrite <- E. Qed.
Lemma poly_const k : polynomial (fun _ => k).
Proof. exists [k]. intros x. simpl. ring. Qed.
Lemma poly_add f g : polynomial f -> polynomial g -> polynomial (fun x => f x + g x).
Proof. intros [c H] [d H']. exists (padd c d). intros x. rewrite H, H'. symmetry. apply padd_ok. Qed.
Lemma poly_scal k f : polynomial f -> polynomial (fun x => k * f x).
Proof. intros [c H]. exists (map (fun a => k * a) c). intros x. rewrite H. symmetry. apply horner_scal. Qed.
Lemma poly_mulx f : polynomial f -> polynomial (fun x => x * f x).
Proof. intros [c H]. exists (0 :: c). intros x. rewrite H. simpl. ring. Qed.
Lemma poly_pow k : polynomial (fun x => x ^ k).
Proof. induction k; [apply (poly_const 1)|]. apply (poly_ext (fun x => x * x ^ k)); [reflexivity|]. now apply poly_mulx. Qed.

Lemma leg2_poly n : polynomial (fun x => fst (leg2 n x)) /\ polynomial (fun x => snd (leg2 n x)).
Proof.
  induction n as [|n [IH1 IH2]].
  - split; [apply (poly_const 1)|]. apply (poly_ext (fun x => x ^ 1)); [intros; simpl; ring|]. apply poly_pow.
  - split.
    + apply (poly_ext (fun x => snd (leg2 n x))); [|exact IH2]. intros x. cbn [leg2]. now destruct (leg2 n x).
    + apply (poly_ext (fun x => (2 * INR n + 3) / (INR n + 2) * (x * snd (leg2 n x)) + (- (INR n + 1) / (INR n + 2)) * fst (leg2 n x))).
      * intros x. cbn [leg2]. destruct (leg2 n x) as [p q]. cbn [fst snd]. field. pose proof (pos_INR n). lra.
      * apply poly_add; apply poly_scal; [now apply poly_mulx|exact IH1].
Qed.
Lemma P_poly n : polynomial (P_ n).
Proof. exact (proj1 (leg2_poly n)). Qed.
Lemma Y_poly n : polynomial (Y_ n).
Proof. apply (poly_scal _ (P_ n)). apply P_poly. Qed.

(** P_n(-x) = (-1)^n P_n(x) *)
Lemma leg2_neg n x : fst (leg2 n (- x)) = (-1) ^ n * fst (leg2 n x) /\ snd (leg2 n (- x)) = (-1) ^ (S n) * snd (leg2 n x).
Proof.
  induction n as [|n [IH1 IH2]]; [simpl; lra|].
  cbn [leg2]. destruct (leg2 n x) as [p q], (leg2 n (- x)) as [p' q']. cbn [fst snd] in *. rewrite IH1, IH2.
  split; [reflexivity|]. simpl pow. field. pose proof (pos_INR n). lra.
Qed.
Lemma P_neg n x : P_ n (- x) = (-1) ^ n * P_ n x.
Proof. apply leg2_neg. Qed.

Lemma P_low n x : (n <= 5)%nat -> P_ n x = GauntSpec.legendre (Z.of_nat n) x.
Proof.
  intros H. unfold P_. do 6 (destruct n; [simpl; field|]). lia.
Qed.
Lemma Y_low n x : (n <= 5)%nat -> Y_ n x = Yl0 (Z.of_nat n) x.
Proof. intros H. unfold Y_, Yl0. rewrite P_low by auto. now rewrite <- INR_IZR_INZ. Qed.

(* ---------- angular integrals ---------- *)

Lemma terms_low terms t : one_electron terms -> In t terms -> (0 <= snd t <= 5)%Z.
Proof.
  unfold one_electron. cbn [In]. intros H Ht.
  repeat match goal with H : _ \/ _ |- _ => destruct H as [H|H] end; try contradiction; subst terms; unfold cos1_terms, cos2_terms, cos3_terms, cos4_terms, cos5_terms, sin2_terms, cos2_sin2_terms in Ht; cbn [In] in Ht;
  repeat match goal with H : _ \/ _ |- _ => destruct H as [H|H] end; try contradiction; subst t; cbn [snd]; lia.
Qed.

Section Angular.
Variables (eval : generator) (li mi lj mj : Z) (ang : (R -> R) -> R).
Hypothesis Hang : angular_integral eval li mi lj mj ang.

(** The integral of the function a coupling is named after. *)
Lemma ang_coupling terms f : one_electron terms -> (forall x, f x = expansion terms x) ->
  ang f = if (mi =? mj)%Z then exact_coupling eval terms lj mj li mi else 0.
Proof.
  intros Ht Hf. destruct Hang as (Hlin & HY & _).
  rewrite (Hlin (map (fun t => (fst t, Y_ (Z.to_nat (snd t)))) terms) f).
  - rewrite lsum_map. cbn [fst snd]. unfold exact_coupling.
    destruct (Z.eqb_spec mi mj) as [E|E].
    + apply lsum_ext. intros t Hin. rewrite HY. destruct (Z.eqb_spec mi mj); [|contradiction]. rewrite Z2Nat.id; [reflexivity|].
      now apply (terms_low terms t).
    + apply lsum_zero. intros t _. rewrite HY. destruct (Z.eqb_spec mi mj); [lia|ring].
  - intros c h Hin. apply in_map_iff in Hin as (t & E & _). inversion E; subst. apply Y_poly.
  - intros x _. rewrite Hf. unfold expansion. rewrite lsum_map. apply lsum_ext. intros t Hin. cbn [fst snd].
    pose proof (terms_low terms t Ht Hin). rewrite Y_low by lia. rewrite Z2Nat.id by lia. reflexivity.
Qed.

Lemma ang_off (h : R -> R) terms : one_electron terms -> (forall x, h x = expansion terms x) -> mi <> mj -> ang h = 0.
Proof. intros Ht Hh Hm. rewrite (ang_coupling terms h Ht Hh). destruct (Z.eqb_spec mi mj); [contradiction|reflexivity]. Qed.

Lemma ang_one : ang (fun _ => 1) = if ((li =? lj) && (mi =? mj))%bool%Z then 1 else 0.
Proof. apply Hang. Qed.

Lemma ang_ext f g : polynomial g -> (forall x, -1 <= x <= 1 -> f x = g x) -> ang f = ang g.
Proof.
  intros Hp H. destruct Hang as (Hlin & _). rewrite (Hlin [(1, g)] f).
  - simpl. ring.
  - intros c h [E|[]]. inversion E; subst. exact Hp.
  - intros x Hx. simpl. rewrite H by exact Hx. ring.
Qed.
End Angular.

Lemma one_electron_1 : one_electron cos1_terms. Proof. unfold one_electron. simpl. tauto. Qed.
Lemma one_electron_2 : one_electron cos2_terms. Proof. unfold one_electron. simpl. tauto. Qed.
Lemma one_electron_3 : one_electron cos3_terms. Proof. unfold one_electron. simpl. tauto. Qed.
Lemma one_electron_4 : one_electron cos4_terms. Proof. unfold one_electron. simpl. tauto. Qed.
Lemma one_electron_s : one_electron sin2_terms. Proof. unfold one_electron. simpl. tauto. Qed.
Lemma one_electron_cs : one_electron cos2_sin2_terms. Proof. unfold one_electron. simpl. tauto. Qed.

(** The coefficients are symmetric in the two shells. *)
Lemma gaunt_swap eval li lj L m : generator_ok eval ->
  gaunt_coefficient eval li m L 0 lj m = gaunt_coefficient eval lj m L 0 li m.
Proof.
  intros (H1 & H2 & H3 & _). unfold gaunt_coefficient. f_equal.
  rewrite H3, H2, H1, H2. f_equal; ring.
Qed.

Lemma lsum_zrange_seq a b n (F : Z -> R) : (0 <= a)%Z -> (b <= Z.of_nat n)%Z ->
  (forall L, (0 <= L)%Z -> (L < a \/ b < L)%Z -> F L = 0) ->
  lsum (zrange a b) F = sum (S n) (fun L => F (Z.of_nat L)).
Proof.
  intros Ha Hb HF.
  assert (G : forall k, (Z.of_nat k <= Z.of_nat n + 1)%Z -> lsum (zrange (Z.of_nat (S n - k)) (Z.of_nat n)) F = lsum (seq (S n - k) k) (fun L => F (Z.of_nat L))).
  { induction k; intros Hk.
    - rewrite zrange_nil by lia. reflexivity.
    - rewrite zrange_cons by lia. replace (seq (S n - S k) (S k)) with ((S n - S k)%nat :: seq (S n - k) k).
      + cbn [lsum]. rewrite <- IHk by lia. f_equal. f_equal. f_equal. lia.
      + cbn [seq]. f_equal. f_equal. lia. }
  rewrite <- lsum_seq0. specialize (G (S n) ltac:(lia)). rewrite Nat.sub_diag in G. change (Z.of_nat 0) with 0%Z in G. rewrite <- G. clear G.
  assert (Z1 : forall lo hi, (0 <= lo)%Z -> (forall L, lo <= L <= hi -> L < a \/ b < L)%Z -> lsum (zrange lo hi) F = 0).
  { intros lo hi Hlo Hh. apply lsum_zero. intros L HL. apply zrange_in in HL. apply HF; [lia|]. now apply Hh. }
  destruct (Z_le_gt_dec a (b + 1)) as [Hab|Hab].
  - rewrite (zrange_split 0 a (Z.of_nat n)) by lia. rewrite lsum_app. rewrite (Z1 0%Z (a - 1)%Z) by (intros; lia).
    rewrite (zrange_split a (b + 1) (Z.of_nat n)) by lia. rewrite lsum_app. rewrite (Z1 (b + 1)%Z (Z.of_nat n)) by (intros; lia).
    replace (b + 1 - 1)%Z with b by ring. ring.
  - rewrite zrange_nil by lia. rewrite Z1; [reflexivity|lia|intros; lia].
Qed.
