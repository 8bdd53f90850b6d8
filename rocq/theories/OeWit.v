(** A basis of s and p functions and its integrals, and what becomes of exceptions and
    of off-centre charges. *)
Require Import Reals ZArith List Bool Arith Lia Lra Permutation.
Require Import Verif.Prelude Verif.AngModel Verif.AngSpec Verif.JKModel Verif.JKSpec Verif.GauntModel Verif.GauntSpec
  Verif.TwoDModel Verif.TwoDSpec Verif.DiaModel Verif.DiaSpec Verif.DiaProofs Verif.OeModel Verif.OeSpec Verif.OeBlocks Verif.OeAng Verif.OeDia Verif.OeAt Verif.OeLeg.
Import ListNotations.
Local Open Scope R_scope.

(* ---------- off-centre charges ---------- *)

Definition with_charges (b : aone) (Zl Zr : Z) : aone :=
  mkAO (ao_sh b) (ao_lay b) (ao_eval b) (ao_Z b) Zl Zr (ao_point b) (ao_int b) (ao_kin b) (ao_kinl b) (ao_off b) (ao_nuc b).

Lemma finite_ignores b Zl Zr oL o oL' o' : ao_point b = false -> ao_nuclear (with_charges b Zl Zr) oL o = ao_nuclear b oL' o'.
Proof. intros H. unfold ao_nuclear. cbn [with_charges ao_point]. now rewrite H. Qed.

Lemma finite_nucleus b f oL o : aone_ok b -> NoDup (ao_sh b) -> ao_point b = false -> adds_up (ao_lay b) (ao_nuc b) f ->
  is_shell_matrix (ao_nuclear b oL o) (ao_n b) (ao_N b) (fun i a j c => if same_shell (ao_sh b) (ao_sh b) i j then f a c else 0).
Proof. intros Hb ND Hp Hf. unfold ao_nuclear. rewrite Hp. cbn [negb]. now apply model_potential_ok. Qed.

Lemma parallel_not_throw {A} (r : res A) e : in_parallel r <> Throw e.
Proof. destruct r; cbn; congruence. Qed.

Lemma vaux_stops b order k L e : In L order -> assemble_radial_diagonal (ao_lay b) (ao_off b L) = Throw e ->
  forall V0, match fold_res (fun V L => in_parallel (bind (assemble_radial_diagonal (ao_lay b) (ao_off b L)) (fun A =>
      if Nat.ltb L k then Ok (fun k => if Nat.eqb k L then A else V k) else UB))) order V0 with Ok _ | Throw _ => False | _ => True end.
Proof.
  intros Hin HL. induction order as [|L0 order IH]; intros V0; [destruct Hin|]. cbn [fold_res].
  destruct Hin as [->|Hin].
  - rewrite HL. exact I.
  - destruct (assemble_radial_diagonal (ao_lay b) (ao_off b L0)); cbn [bind in_parallel]; try exact I.
    destruct (Nat.ltb L0 k); cbn [bind in_parallel]; [|exact I]. now apply IH.
Qed.

Lemma offcenter_stops b f oL o L e : aone_ok b -> ao_point b = true -> (ao_Zl b <> 0 \/ ao_Zr b <> 0)%Z ->
  adds_up (ao_lay b) (ao_int b (-1)) f -> In L oL -> assemble_radial_diagonal (ao_lay b) (ao_off b L) = Throw e ->
  (forall M, ao_nuclear b oL o <> Ok M) /\ (forall e, ao_nuclear b oL o <> Throw e).
Proof.
  intros Hb Hp Hz Hf Hin HL. unfold ao_nuclear. rewrite Hp. cbn [negb].
  assert (HC : exists V, (if (ao_Z b =? 0)%Z then Ok (ao_zero b) else
        bind (assemble_radial_diagonal (ao_lay b) (ao_int b (-1))) (fun Vrad =>
        fold_res (fun V iang => set_sub (ao_N b) V iang iang (dscale (IZR (- ao_Z b)) Vrad)) (seq 0 (ao_n b)) (ao_zero b))) = Ok V).
  { destruct (ao_Z b =? 0)%Z; [eexists; reflexivity|].
    destruct (assemble_radial_ok (ao_lay b) _ f (proj2 (proj2 Hb)) Hf) as (M & -> & RM & CM & _). cbn [bind].
    destruct (diagonal_ok (ao_n b) (ao_N b) (dscale (IZR (- ao_Z b)) M) RM CM) as (V & EV & _). exists V. exact EV. }
  destruct HC as (V & ->). cbn [bind].
  destruct ((ao_Zl b =? 0)%Z && (ao_Zr b =? 0)%Z)%bool eqn:Ez.
  { apply andb_true_iff in Ez as [E1 E2]. apply Z.eqb_eq in E1, E2. destruct Hz; contradiction. }
  cbv zeta. unfold ao_vaux.
  pose proof (vaux_stops b oL (Z.to_nat (2 * zmax_list (map fst (ao_sh b)) + 1)) L e Hin HL (fun _ => dempty)) as H.
  destruct (fold_res _ oL _); try contradiction; cbn [bind]; split; congruence.
Qed.

(* ---------- angular integrals of 1, z and x + iy ---------- *)

Definition oe_eval : generator := fun l1 m1 l2 m2 l3 m3 =>
  let s := (l1 + l2 + l3)%Z in let q := (l1 * l1 + l2 * l2 + l3 * l3)%Z in let mm := (m1 * m1 + m2 * m2 + m3 * m3)%Z in
  if ((s =? 0) && (q =? 0) && (mm =? 0))%bool%Z then 1 / sqrt (4 * PI) else
  if ((s =? 4) && (q =? 8))%bool%Z then (if (mm =? 0)%Z then 1 / sqrt (4 * PI) else if (mm =? 8)%Z then - (1 / sqrt (4 * PI)) else 0) else
  if ((s =? 8) && (q =? 24))%bool%Z then (if (mm =? 0)%Z then 1 / sqrt (5 * PI) else if (mm =? 8)%Z then 1 / 2 * (1 / sqrt (5 * PI)) else 0) else 0.

Lemma oe_eval_ok : generator_ok oe_eval.
Proof.
  unfold generator_ok. split; [|split; [|split]]; intros l1 m1 l2 m2 l3 m3.
  - unfold oe_eval. replace (l2 + l1 + l3)%Z with (l1 + l2 + l3)%Z by lia. replace (l2 * l2 + l1 * l1 + l3 * l3)%Z with (l1 * l1 + l2 * l2 + l3 * l3)%Z by lia.
    now replace (m2 * m2 + m1 * m1 + m3 * m3)%Z with (m1 * m1 + m2 * m2 + m3 * m3)%Z by lia.
  - unfold oe_eval. replace (l1 + l3 + l2)%Z with (l1 + l2 + l3)%Z by lia. replace (l1 * l1 + l3 * l3 + l2 * l2)%Z with (l1 * l1 + l2 * l2 + l3 * l3)%Z by lia.
    now replace (m1 * m1 + m3 * m3 + m2 * m2)%Z with (m1 * m1 + m2 * m2 + m3 * m3)%Z by lia.
  - unfold oe_eval. now replace (- m1 * - m1 + - m2 * - m2 + - m3 * - m3)%Z with (m1 * m1 + m2 * m2 + m3 * m3)%Z by lia.
  - intros H. unfold oe_eval, triangle in *. cbv zeta.
    assert (G : forall s q, (2 * l1 + 2 * l2 + 2 * l3 = s)%Z -> (2 * l1 * (2 * l1) + 2 * l2 * (2 * l2) + 2 * l3 * (2 * l3) = q)%Z ->
      ((s = 0 /\ q = 0) \/ (s = 4 /\ q = 8) \/ (s = 8 /\ q = 24))%Z -> False).
    { intros s q Es Eq Hc.
      assert (B : (-2 <= l1 <= 2 /\ -2 <= l2 <= 2 /\ -2 <= l3 <= 2)%Z) by (repeat split; nia).
      assert (C1 : (l1 = -2 \/ l1 = -1 \/ l1 = 0 \/ l1 = 1 \/ l1 = 2)%Z) by lia.
      assert (C2 : (l2 = -2 \/ l2 = -1 \/ l2 = 0 \/ l2 = 1 \/ l2 = 2)%Z) by lia.
      assert (C3 : (l3 = -2 \/ l3 = -1 \/ l3 = 0 \/ l3 = 1 \/ l3 = 2)%Z) by lia. clear B.
      destruct C1 as [->|[->|[->|[->| ->]]]]; destruct C2 as [->|[->|[->|[->| ->]]]]; destruct C3 as [->|[->|[->|[->| ->]]]];
        destruct H as [H|H]; try (apply H; lia); try (cbn in H; discriminate H); lia. }
    destruct (Z.eqb_spec (2 * l1 + 2 * l2 + 2 * l3) 0); [|destruct (Z.eqb_spec (2 * l1 + 2 * l2 + 2 * l3) 4); [|destruct (Z.eqb_spec (2 * l1 + 2 * l2 + 2 * l3) 8)]]; cbn [andb];
      try reflexivity.
    + destruct (Z.eqb_spec (2 * l1 * (2 * l1) + 2 * l2 * (2 * l2) + 2 * l3 * (2 * l3)) 0); [exfalso; apply (G 0 0)%Z; lia|].
      cbn [andb]. rewrite e. reflexivity.
    + destruct (Z.eqb_spec (2 * l1 * (2 * l1) + 2 * l2 * (2 * l2) + 2 * l3 * (2 * l3)) 8); [exfalso; apply (G 4 8)%Z; lia|].
      cbn [andb]. rewrite e. reflexivity.
    + destruct (Z.eqb_spec (2 * l1 * (2 * l1) + 2 * l2 * (2 * l2) + 2 * l3 * (2 * l3)) 24); [exfalso; apply (G 8 24)%Z; lia|reflexivity].
Qed.

Definition oe_sh : list (Z * Z) := [(0, 0); (1, 0); (1, 1)]%Z.

(** The product of the two spherical harmonics integrated over the azimuth, as a function of x = cos(theta). *)
Definition oe_w (i j : nat) (x : R) : R :=
  match i, j with
  | 0%nat, 0%nat => 1 / 2
  | 0%nat, 1%nat | 1%nat, 0%nat => sqrt 3 / 2 * x
  | 1%nat, 1%nat => 3 / 2 * x ^ 2
  | 2%nat, 2%nat => 3 / 4 * (1 - x ^ 2)
  | _, _ => 0
  end.
Definition oe_ang (i j : nat) (f : R -> R) : R := I11 (fun x => oe_w i j x * f x).

Lemma w0 k n : I11 (fun x => k * (sqrt ((2 * INR n + 1) / (4 * PI)) * P_ n x)) = k * sqrt ((2 * INR n + 1) / (4 * PI)) * mom 0 n.
Proof.
  unfold mom. rewrite <- I11_scal by apply mom_poly. apply I11_ext. intros. simpl. ring.
Qed.
Lemma w1 k n : I11 (fun x => k * x * (sqrt ((2 * INR n + 1) / (4 * PI)) * P_ n x)) = k * sqrt ((2 * INR n + 1) / (4 * PI)) * mom 1 n.
Proof.
  unfold mom. rewrite <- I11_scal by apply mom_poly. apply I11_ext. intros. simpl. ring.
Qed.
Lemma w2 k n : I11 (fun x => k * x ^ 2 * (sqrt ((2 * INR n + 1) / (4 * PI)) * P_ n x)) = k * sqrt ((2 * INR n + 1) / (4 * PI)) * mom 2 n.
Proof.
  unfold mom. rewrite <- I11_scal by apply mom_poly. apply I11_ext. intros. simpl. ring.
Qed.
Lemma ws k n : I11 (fun x => k * (1 - x ^ 2) * (sqrt ((2 * INR n + 1) / (4 * PI)) * P_ n x)) = k * sqrt ((2 * INR n + 1) / (4 * PI)) * (mom 0 n - mom 2 n).
Proof.
  unfold mom. replace (I11 (fun x => x ^ 0 * P_ n x) - I11 (fun x => x ^ 2 * P_ n x)) with (I11 (fun x => x ^ 0 * P_ n x) + -1 * I11 (fun x => x ^ 2 * P_ n x)) by ring.
  rewrite <- (I11_scal (-1)) by apply mom_poly. rewrite <- I11_plus by (try apply mom_poly; apply (poly_scal (-1) (fun x => x ^ 2 * P_ n x)), mom_poly).
  rewrite <- I11_scal.
  - apply I11_ext. intros. simpl. ring.
  - apply (poly_add (fun x => x ^ 0 * P_ n x)); [apply mom_poly|]. apply (poly_scal (-1) (fun x => x ^ 2 * P_ n x)), mom_poly.
Qed.

Lemma root0 : sqrt ((2 * INR 0 + 1) / (4 * PI)) = 1 / sqrt (4 * PI).
Proof. pose proof PI_RGT_0. rewrite sqrt_div by (simpl; lra). simpl INR. replace (2 * 0 + 1) with 1 by ring. now rewrite sqrt_1. Qed.
Lemma root1 : sqrt ((2 * INR 1 + 1) / (4 * PI)) = sqrt 3 * (1 / sqrt (4 * PI)).
Proof. pose proof PI_RGT_0. rewrite sqrt_div by (simpl; lra). simpl INR. replace (2 * 1 + 1) with 3 by ring. unfold Rdiv. ring. Qed.
Lemma root2 : sqrt ((2 * INR 2 + 1) / (4 * PI)) = 5 / 2 * (1 / sqrt (5 * PI)).
Proof.
  pose proof PI_RGT_0. replace ((2 * INR 2 + 1) / (4 * PI)) with ((5 / 2) ^ 2 * / (5 * PI)) by (simpl; field; lra).
  rewrite sqrt_mult; [|nra|apply Rlt_le, Rinv_0_lt_compat; lra]. rewrite <- Rsqr_pow2, sqrt_Rsqr by lra. rewrite sqrt_inv. unfold Rdiv. ring.
Qed.

Lemma oe_w_poly i j : polynomial (oe_w i j).
Proof.
  assert (Px : polynomial (fun x => x)) by (apply (poly_ext (fun x => x ^ 1)); [intros; simpl; ring|apply poly_pow]).
  assert (P0 : polynomial (fun _ => 0)) by apply (poly_const 0).
  assert (Px2 : polynomial (fun x => x ^ 2)) by apply (poly_pow 2).
  destruct i as [|[|[|i]]]; destruct j as [|[|[|j]]]; cbv beta iota delta [oe_w]; try exact P0.
  - apply (poly_const (1 / 2)).
  - now apply (poly_scal _ (fun x => x)).
  - now apply (poly_scal _ (fun x => x)).
  - now apply (poly_scal _ (fun x => x ^ 2)).
  - apply (poly_scal _ (fun x => 1 - x ^ 2)). apply (poly_ext (fun x => 1 + -1 * x ^ 2)); [intros; ring|].
    apply (poly_add (fun _ => 1)); [apply (poly_const 1)|]. now apply (poly_scal _ (fun x => x ^ 2)).
Qed.

(** These are the integrals of two spherical harmonics of the shells with functions of cos(theta). *)
Lemma oe_angular i j : (i < 3)%nat -> (j < 3)%nat ->
  angular_integral oe_eval (l_of oe_sh i) (m_of oe_sh i) (l_of oe_sh j) (m_of oe_sh j) (oe_ang i j).
Proof.
  intros Hi Hj. split; [|split].
  - intros terms f Hp Hf. apply weighted_linear; auto. apply oe_w_poly.
  - assert (S3 : sqrt 3 * sqrt 3 = 3) by (apply sqrt_sqrt; lra).
    assert (Z0 : forall L, (3 <= L)%nat -> forall l1 l2, (0 <= l1 <= 1)%Z -> (0 <= l2 <= 1)%Z -> forall m m', gaunt_coefficient oe_eval l1 m (Z.of_nat L) 0 l2 m' = 0).
    { intros L HL l1 l2 H1 H2 m m'. apply gaunt_zero; [apply oe_eval_ok|]. lia. }
    intros L. unfold oe_ang, oe_w, Y_.
    assert (C : L = 0%nat \/ L = 1%nat \/ L = 2%nat \/ (3 <= L)%nat) by lia.
    destruct i as [|[|[|i]]]; try lia; destruct j as [|[|[|j]]]; try lia; unfold l_of, m_of; cbn [oe_sh nth fst snd Z.eqb Pos.eqb];
      try (rewrite (I11_ext _ (fun _ => 0)) by (intros; ring); apply I11_zero);
      rewrite ?w0, ?w1, ?w2, ?ws;
      destruct C as [->|[->|[->|HL]]];
      try (rewrite Z0 by lia; destruct L as [|[|[|L]]]; try lia; rewrite ?mom0S, ?mom1, ?mom2; ring);
      rewrite ?root0, ?root1, ?root2, ?mom00, ?mom0S, ?mom10, ?mom1, ?mom2;
      unfold gaunt_coefficient, oe_eval, parity_sign; set (u := 1 / sqrt (4 * PI)); set (v := 1 / sqrt (5 * PI)); clearbody u v;
      cbn -[IZR sqrt]; try lra;
      replace (sqrt 3 / 2 * (sqrt 3 * u) * (2 / 3)) with (sqrt 3 * sqrt 3 * u / 3) by field; rewrite S3; field.
  - unfold oe_ang. assert (E : forall g, I11 (fun x => g x * 1) = I11 g) by (intros g; apply I11_ext; intros; ring). cbv beta. rewrite (E (oe_w i j)).
    assert (M0 : mom 0 0 = I11 (fun _ => 1)) by (unfold mom; apply I11_ext; intros; unfold P_; simpl; ring).
    assert (M1 : mom 1 0 = I11 (fun x => x)) by (unfold mom; apply I11_ext; intros; unfold P_; simpl; ring).
    assert (M2 : mom 2 0 = I11 (fun x => x ^ 2)) by (unfold mom; apply I11_ext; intros; unfold P_; simpl; ring).
    assert (Px : polynomial (fun x => x)) by (apply (poly_ext (fun x => x ^ 1)); [intros; simpl; ring|apply poly_pow]).
    assert (P1 : polynomial (fun _ => 1)) by apply (poly_const 1).
    assert (Px2 : polynomial (fun x => x ^ 2)) by apply (poly_pow 2).
    unfold oe_w. destruct i as [|[|[|i]]]; try lia; destruct j as [|[|[|j]]]; try lia; unfold l_of, m_of; cbn [oe_sh nth fst snd Z.eqb Pos.eqb andb];
      try apply I11_zero.
    + rewrite (I11_ext _ (fun x => 1 / 2 * 1)) by (intros; ring). rewrite (I11_scal (1 / 2) (fun _ => 1)), <- M0, mom00 by auto. lra.
    + rewrite (I11_scal _ (fun x => x)), <- M1, mom10 by auto. ring.
    + rewrite (I11_scal _ (fun x => x)), <- M1, mom10 by auto. ring.
    + rewrite (I11_scal _ (fun x => x ^ 2)), <- M2, mom2 by auto. lra.
    + rewrite (I11_ext _ (fun x => 3 / 4 * 1 + - (3 / 4) * x ^ 2)) by (intros; ring).
      rewrite (I11_plus (fun x => 3 / 4 * 1)); [|now apply (poly_scal _ (fun _ => 1))|now apply (poly_scal _ (fun x => x ^ 2))].
      rewrite (I11_scal (3 / 4) (fun _ => 1)), (I11_scal _ (fun x => x ^ 2)), <- M0, <- M2, mom00, mom2 by auto. lra.
Qed.

(* ---------- a radial basis: two functions sampled at r = 1 and r = 2 ---------- *)

Definition oe_rad (a c : nat) (f : R -> R) : R := f 1 + 2 ^ (a + c) * f 2.
Definition oe_E : integral_of := fun i a j c f => oe_ang i j (f 1) + 2 ^ (a + c) * oe_ang i j (f 2).

Lemma oe_integrals : one_electron_integrals oe_eval oe_sh oe_sh 2 2 (fun _ => True) oe_rad oe_E.
Proof.
  intros i j Hi Hj. exists (oe_ang i j). pose proof (oe_angular i j Hi Hj) as Ha. split; [exact Ha|].
  intros a c _ _ terms f Hok Hf. unfold oe_E, oe_rad.
  assert (G : forall r, 0 < r -> oe_ang i j (f r) = lsum terms (fun t => fst t * (fst (snd t) r * oe_ang i j (snd (snd t))))).
  { intros r Hr. rewrite (proj1 Ha (map (fun t => (fst t * fst (snd t) r, snd (snd t))) terms) (f r)).
    - rewrite lsum_map. apply lsum_ext. intros t _. cbn [fst snd]. ring.
    - intros k h Hin. apply in_map_iff in Hin as ([k' [g h']] & Et & Hin). inversion Et; subst. apply (Hok _ _ _ Hin).
    - intros x Hx. rewrite lsum_map. cbn [fst snd]. rewrite Hf by auto. apply lsum_ext. intros. ring. }
  rewrite (G 1), (G 2) by lra. rewrite <- lsum_scal, <- lsum_plus. apply lsum_ext. intros. ring.
Qed.

Definition oe_lay : layout := mkLayout 1 2 (fun _ => (0, 2)%nat).
Definition oe_acc (f : mat) : accessor := fun _ => Ok (mkD 2 2 f).
Lemma oe_adds f : adds_up oe_lay (oe_acc f) f.
Proof.
  exists (fun _ => f). split.
  - intros e He. exists (mkD 2 2 f). repeat split; auto.
  - intros a c Ha Hc. unfold radial_sum. cbn [oe_lay lnel sum]. unfold inside, local, first_of, count_of. cbn [oe_lay lidx fst snd].
    cbn [lnbf oe_lay] in Ha, Hc. destruct (Nat.leb_spec 0 a), (Nat.ltb_spec a (0 + 2)), (Nat.leb_spec 0 c), (Nat.ltb_spec c (0 + 2)); try lia.
    cbn [andb]. rewrite !Nat.sub_0_r. ring.
Qed.

Definition oe_b (point : bool) : aone := mkAO oe_sh oe_lay oe_eval 2 1 3 point
  (fun n => oe_acc (fun a c => oe_rad a c (fun r => powerRZ r n)))
  (oe_acc (fun a c => INR (a + c))) (oe_acc (fun a c => INR (a * c)))
  (fun L => oe_acc (fun a c => - sqrt (4 * PI / (2 * INR L + 1)) * oe_rad a c (charge_multipole 3 L)))
  (oe_acc (fun a c => oe_rad a c (fun r => - 2 / (r + 1)))).

Lemma oe_b_ok p : aone_ok (oe_b p).
Proof.
  split; [|split; [apply oe_eval_ok|]].
  - split; [discriminate|]. intros l m [E|[E|[E|[]]]]; inversion E; subst; simpl; lia.
  - intros e He. cbn. lia.
Qed.
Lemma oe_nodup : NoDup oe_sh.
Proof. repeat constructor; cbn; intuition discriminate. Qed.
Lemma oe_radial p : atomic_radial (oe_b p) 3 (fun _ => True) oe_rad.
Proof. split; intros; (split; [exact I|apply oe_adds]). Qed.

Lemma oe_orders p : orders_ok (oe_b p) (rev (seq 0 3)) (rev (list_prod (seq 0 3) (seq 0 3))).
Proof. split; cbn [oe_b ao_sh]; apply Permutation_sym, Permutation_rev. Qed.

(** A second atomic basis. *)
Definition oe_rh : aone := mkAO [(1, 1); (2, 0); (0, 0)]%Z oe_lay oe_eval 0 0 0 true (fun _ => oe_acc mzero) (oe_acc mzero) (oe_acc mzero) (fun _ => oe_acc mzero) (oe_acc mzero).

(** The finite nucleus leaves out the off-centre charges. *)
Lemma finite_nucleus_refuted : exists b Rh rad okr E f oL o, aone_ok b /\ NoDup (ao_sh b) /\
  one_electron_integrals (ao_eval b) (ao_sh b) (ao_sh b) (ao_N b) (ao_N b) okr rad E /\ atomic_radial b Rh okr rad /\ orders_ok b oL o /\
  ao_point b = false /\ okr f /\ adds_up (ao_lay b) (ao_nuc b) (fun a c => rad a c f) /\
  forall k, (2 * lmax_of (ao_sh b) <= Z.of_nat k)%Z ->
  ~ is_shell_matrix (ao_nuclear b oL o) (ao_n b) (ao_N b) (fun i a j c => E i a j c (fun r x => f r + atomic_attraction 0 (ao_Zl b) (ao_Zr b) Rh k r x)).
Proof.
  exists (oe_b false), 3, oe_rad, (fun _ => True), oe_E, (fun r => - 2 / (r + 1)), (rev (seq 0 3)), (rev (list_prod (seq 0 3) (seq 0 3))).
  split; [apply oe_b_ok|]. split; [apply oe_nodup|]. split; [apply oe_integrals|]. split; [apply oe_radial|]. split; [apply oe_orders|].
  split; [reflexivity|]. split; [exact I|]. split; [apply oe_adds|]. intros k Hk (M & EM & _ & _ & VM).
  destruct (finite_nucleus (oe_b false) (fun a c => oe_rad a c (fun r => - 2 / (r + 1))) (rev (seq 0 3)) (rev (list_prod (seq 0 3) (seq 0 3)))
    (oe_b_ok false) oe_nodup eq_refl (oe_adds _)) as (M' & EM' & _ & _ & VM').
  rewrite EM in EM'. injection EM' as <-.
  specialize (VM 0%nat 0%nat 0%nat 0%nat). specialize (VM' 0%nat 0%nat 0%nat 0%nat).
  assert (H3 : (0 < ao_n (oe_b false))%nat) by (cbn; lia). assert (H2 : (0 < ao_N (oe_b false))%nat) by (cbn; lia).
  specialize (VM H3 H2 H3 H2). specialize (VM' H3 H2 H3 H2). rewrite VM' in VM. clear VM'.
  destruct (oe_integrals 0 0 ltac:(cbn; lia) ltac:(cbn; lia))%nat as (ang & Hang & Hsep).
  rewrite (Hsep 0%nat 0%nat ltac:(lia) ltac:(lia) ((1, (fun r => - 2 / (r + 1), fun _ => 1)) ::
    map (fun L => (- ((-1) ^ L + 3), (charge_multipole 3 L, P_ L))) (seq 0 (S k)))) in VM.
  - cbn [lsum fst snd] in VM. rewrite (ang_one _ _ _ _ _ ang Hang) in VM. cbn [l_of m_of oe_sh nth fst snd Z.eqb andb] in VM.
    replace (same_shell (ao_sh (oe_b false)) (ao_sh (oe_b false)) 0 0) with true in VM by reflexivity.
    rewrite lsum_map, lsum_seq0, sum_shift in VM. cbn [fst snd] in VM.
    assert (AP : forall L, ang (P_ L) = if Nat.eqb L 0 then 1 else 0).
    { intros L. destruct Hang as (Hlin & HY & H1). pose proof (HY L) as E.
      rewrite (Hlin [(sqrt ((2 * INR L + 1) / (4 * PI)), P_ L)] (Y_ L)) in E.
      - cbn [lsum fst snd] in E. pose proof (pos_INR L). pose proof PI_RGT_0.
        assert (S0 : sqrt ((2 * INR L + 1) / (4 * PI)) > 0) by (apply sqrt_lt_R0, Rdiv_lt_0_compat; lra).
        destruct L as [|L].
        + cbn [Nat.eqb]. change (P_ 0) with (fun _ : R => 1). rewrite H1. reflexivity.
        + cbn [Nat.eqb]. unfold l_of, m_of in E. cbn [oe_sh nth fst snd Z.eqb] in E. rewrite gaunt_zero in E; [|apply oe_eval_ok|lia].
          apply (Rmult_eq_reg_l (sqrt ((2 * INR (S L) + 1) / (4 * PI)))); lra.
      - intros c0 h [Et|[]]. inversion Et; subst. apply P_poly.
      - intros x _. cbn [lsum fst snd]. unfold Y_. ring. }
    rewrite AP in VM. rewrite (sum_zero' k) in VM by (intros; rewrite AP; cbn [Nat.eqb]; ring). cbn [Nat.eqb] in VM.
    unfold oe_rad, charge_multipole in VM. cbn [pow Nat.add] in VM. rewrite !Rmax_right in VM by lra. lra.
  - intros c0 g h [Et|Hin].
    + inversion Et; subst. split; [exact I|apply (poly_const 1)].
    + apply in_map_iff in Hin as (L & Et & _). inversion Et; subst. split; [exact I|apply P_poly].
  - intros r x Hr Hx. cbn [lsum fst snd]. rewrite lsum_map, lsum_seq0. cbn [fst snd oe_b ao_Zl ao_Zr]. unfold atomic_attraction, charge_potential.
    replace (sum (S k) (fun L => charge_multipole 3 L r * P_ L (- x))) with (sum (S k) (fun L => (-1) ^ L * (charge_multipole 3 L r * P_ L x)))
      by (apply sum_ext; intros; rewrite P_neg; ring).
    replace (sum (S k) (fun L => - ((-1) ^ L + 3) * (charge_multipole 3 L r * P_ L x)))
      with (- (sum (S k) (fun L => (-1) ^ L * (charge_multipole 3 L r * P_ L x))) + - 3 * sum (S k) (fun L => charge_multipole 3 L r * P_ L x)).
    + unfold Rdiv. ring.
    + rewrite <- sum_scal, <- sum_opp, <- sum_plus. apply sum_ext. intros. ring.
Qed.

(* ---------- a diatomic basis ---------- *)

Definition oe_db : done := mkDO (mkDB oe_sh oe_lay 2 oe_eval 0 false) true 1 3
  (fun p q => Ok (mkD 2 2 (fun a c => oe_rad a c (sinh_cosh p q)))) (Ok (mkD 2 2 (fun a c => INR (a + c)))).
Lemma oe_db_ok : done_ok oe_db.
Proof.
  split; [exact (proj1 (oe_b_ok true))|]. split; [apply oe_eval_ok|]. split; [intros e He; cbn; lia|]. cbn. lia.
Qed.
Lemma oe_db_radial : diatomic_radial oe_db (fun _ => True) oe_rad.
Proof. intros p q _. split; [exact I|]. eexists. split; [reflexivity|]. repeat split; auto. Qed.
