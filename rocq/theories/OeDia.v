(** The one-electron matrices of the diatomic basis. *)
Require Import Reals ZArith List Bool Arith Lia Lra Permutation.
Require Import Verif.Prelude Verif.AngModel Verif.AngSpec Verif.AngProofs Verif.JKModel Verif.JKSpec Verif.GauntModel Verif.GauntSpec Verif.GauntProofs
  Verif.TwoDModel Verif.TwoDSpec Verif.TwoDProofs Verif.DiaModel Verif.DiaSpec Verif.DiaProofs Verif.OeModel Verif.OeSpec Verif.OeBlocks Verif.OeAng.
Import ListNotations.
Local Open Scope R_scope.

Lemma shell_eq sh i : shell sh i = (l_of sh i, m_of sh i).
Proof. unfold shell, l_of, m_of. apply surjective_pairing. Qed.

Lemma is_dmat_inv r n m f : is_dmat r n m f -> exists M, r = Ok M /\ drows M = n /\ dcols M = m /\
  forall a c, (a < n)%nat -> (c < m)%nat -> dent M a c = f a c.
Proof. auto. Qed.

Section Dia.
Variables (b : done) (okr : (R -> R) -> Prop) (rad : nat -> nat -> (R -> R) -> R) (E : integral_of).
Hypothesis Hb : done_ok b.
Hypothesis HE : one_electron_integrals (db_eval (do_b b)) (do_sh b) (do_sh b) (do_N b) (do_N b) okr rad E.
Hypothesis Hr : diatomic_radial b okr rad.

Let n := do_n b.
Let N := do_N b.
Let Rh := db_Rhalf (do_b b).
Let l := l_of (do_sh b).
Let m := m_of (do_sh b).

Lemma gaunt_ready : exists g, do_gaunt b = Ok g /\
  forall terms i j, one_electron terms -> (i < n)%nat -> (j < n)%nat -> m i = m j ->
  coupling terms g (l j) (m j) (l i) (m i) = Ok (exact_coupling (db_eval (do_b b)) terms (l j) (m j) (l i) (m i)).
Proof.
  destruct Hb as (Hsh & Hg & _). pose proof (diatomic_couplings_ok (db_eval (do_b b)) (do_sh b) (do_legendre b) Hg Hsh) as H.
  unfold do_gaunt. destruct (diatomic_gaunt (do_sh b) (do_legendre b)) as [[lr mid] mc].
  destruct H as (g & E1 & Hc & _). exists g. split; [exact E1|]. intros terms i j Ht Hi Hj Hm.
  rewrite Hc by (auto; apply shell_in; auto). unfold m in *. rewrite Hm, Z.eqb_refl. reflexivity.
Qed.

Lemma loop_ok body tr :
  (forall i j, (i < n)%nat -> (j < n)%nat -> m i = m j ->
     op_at n N n N i j (body i j (l i) (m i) (l j) (m j)) (tr i j)) ->
  is_shell_matrix (do_loop b body) n N (fun i a j c => if (m i =? m j)%Z then tr i j a c 0 else 0).
Proof.
  intros H. unfold do_loop.
  destruct (pairs_fold n N n N (fun M p => let '(iang, jang) := p in
    let '(li, mi) := shell (do_sh b) iang in let '(lj, mj) := shell (do_sh b) jang in
    if (mi =? mj)%Z then body iang jang li mi lj mj M else Ok M)
    (fun i j a c v => if (m i =? m j)%Z then tr i j a c v else v) (shell_pairs n n) (Permutation_refl _)) with (M := do_zero b)
    as (M' & E1 & [D1 D2] & V).
  - intros i j Hi Hj. rewrite !shell_eq. fold (l i) (l j) (m i) (m j).
    destruct (Z.eqb_spec (m i) (m j)) as [Em|Em]; [now apply H|apply op_id].
  - apply dims_zero.
  - exists M'. split; [exact E1|]. split; [exact D1|]. split; [exact D2|]. intros i a j c Hi Ha Hj Hc. rewrite V by auto. reflexivity.
Qed.

Lemma finish r s (f : nat -> nat -> nat -> nat -> R) : is_shell_matrix r n N f ->
  is_dmat (bind r (fun S => do_remove b (dscale s S))) (dia_size (do_b b)) (dia_size (do_b b))
    (fun u v => s * f (sh_ix (do_b b) u) (rad_ix (do_b b) u) (sh_ix (do_b b) v) (rad_ix (do_b b) v)).
Proof.
  intros (M & -> & R1 & C1 & V). cbn [bind].
  destruct Hb as (_ & _ & _ & _ & HN).
  apply (remove_shell (do_b b) (Ok (dscale s M)) (fun i a j c => s * f i a j c) HN).
  exists (dscale s M). split; [reflexivity|]. split; [exact R1|]. split; [exact C1|].
  intros i a j c Hi Ha Hj Hc. cbn [dent dscale]. unfold mscal. rewrite V by auto. reflexivity.
Qed.

Lemma finish1 r (f : nat -> nat -> nat -> nat -> R) : is_shell_matrix r n N f ->
  is_dmat (bind r (fun S => do_remove b S)) (dia_size (do_b b)) (dia_size (do_b b))
    (fun u v => f (sh_ix (do_b b) u) (rad_ix (do_b b) u) (sh_ix (do_b b) v) (rad_ix (do_b b) v)).
Proof.
  intros H. destruct Hb as (_ & _ & _ & _ & HN). exact (remove_shell (do_b b) r f HN H).
Qed.

Lemma as_operator r f (F : Z -> R -> R -> R) :
  is_dmat r (dia_size (do_b b)) (dia_size (do_b b))
    (fun u v => f (sh_ix (do_b b) u) (rad_ix (do_b b) u) (sh_ix (do_b b) v) (rad_ix (do_b b) v)) ->
  (forall i a j c, (i < n)%nat -> (a < N)%nat -> (j < n)%nat -> (c < N)%nat -> f i a j c = E i a j c (F (m j))) ->
  is_operator b E r F.
Proof.
  intros (M & E1 & R1 & C1 & V) H. exists M. split; [exact E1|]. split; [exact R1|]. split; [exact C1|].
  intros u v Hu Hv. rewrite V by auto. destruct Hb as (_ & _ & _ & _ & HN).
  destruct (sh_rad (do_b b) u HN Hu) as (A1 & A2 & _). destruct (sh_rad (do_b b) v HN Hv) as (B1 & B2 & _). now apply H.
Qed.

Lemma scaled_operator r s f F : is_shell_matrix r n N f ->
  (forall i a j c, (i < n)%nat -> (a < N)%nat -> (j < n)%nat -> (c < N)%nat -> s * f i a j c = E i a j c (F (m j))) ->
  is_operator b E (bind r (fun S => do_remove b (dscale s S))) F.
Proof. intros H1 H2. exact (as_operator _ (fun i a j c => s * f i a j c) F (finish r s f H1) H2). Qed.
Lemma plain_operator r f F : is_shell_matrix r n N f ->
  (forall i a j c, (i < n)%nat -> (a < N)%nat -> (j < n)%nat -> (c < N)%nat -> f i a j c = E i a j c (F (m j))) ->
  is_operator b E (bind r (fun S => do_remove b S)) F.
Proof. intros H1 H2. exact (as_operator _ f F (finish1 r f H1) H2). Qed.

(** E of a sum of products, with the coupling constants as angular integrals. *)
Definition X_ (terms : list (R * Z)) (i j : nat) : R :=
  if (m i =? m j)%Z then exact_coupling (db_eval (do_b b)) terms (l j) (m j) (l i) (m i) else 0.
Definition D_ (i j : nat) : R := if ((l i =? l j) && (m i =? m j))%bool%Z then 1 else 0.

Inductive afun := A1 | Ac (terms : list (R * Z)).
Definition afun_ok (h : afun) : Prop := match h with A1 => True | Ac terms => one_electron terms end.
Definition afun_fn (h : afun) (x : R) : R := match h with A1 => 1 | Ac terms => expansion terms x end.
Definition afun_int (h : afun) (i j : nat) : R := match h with A1 => D_ i j | Ac terms => X_ terms i j end.

Lemma expansion_poly terms : one_electron terms -> polynomial (expansion terms).
Proof.
  intros Ht. unfold expansion. assert (H : forall t, In t terms -> (0 <= snd t <= 5)%Z) by (intros; now apply (terms_low terms)).
  clear Ht. induction terms as [|t r IH]; [apply (poly_const 0)|]. apply (poly_ext (fun x => fst t * Yl0 (snd t) x + lsum r (fun t => fst t * Yl0 (snd t) x))); [reflexivity|].
  apply poly_add; [|apply IH; intros; apply H; now right]. apply poly_scal.
  apply (poly_ext (Y_ (Z.to_nat (snd t)))); [|apply Y_poly]. intros x. pose proof (H t (or_introl eq_refl)).
  rewrite Y_low by lia. now rewrite Z2Nat.id by lia.
Qed.
Lemma afun_poly h : afun_ok h -> polynomial (afun_fn h).
Proof. destruct h; intros H; [apply (poly_const 1)|now apply expansion_poly]. Qed.

Lemma E_sum i a j c (ts : list (R * ((Z * Z) * afun))) f : (i < n)%nat -> (a < N)%nat -> (j < n)%nat -> (c < N)%nat ->
  (forall t, In t ts -> In (fst (snd t)) [(1, 0); (1, 1); (1, 2); (1, 3); (1, 4); (3, 0); (3, 2); (-1, 0)]%Z /\ afun_ok (snd (snd t))) ->
  (forall mu x, 0 < mu -> -1 <= x <= 1 -> f mu x =
     lsum ts (fun t => fst t * (sinh_cosh (fst (fst (snd t))) (Z.to_nat (snd (fst (snd t)))) mu * afun_fn (snd (snd t)) x))) ->
  E i a j c f = lsum ts (fun t => fst t * (rad a c (sinh_cosh (fst (fst (snd t))) (Z.to_nat (snd (fst (snd t))))) * afun_int (snd (snd t)) i j)).
Proof.
  intros Hi Ha Hj Hc Hts Hf. destruct (HE i j Hi Hj) as (ang & Hang & Hsep).
  rewrite (Hsep a c Ha Hc (map (fun t => (fst t, (sinh_cosh (fst (fst (snd t))) (Z.to_nat (snd (fst (snd t)))), afun_fn (snd (snd t))))) ts) f).
  - rewrite lsum_map. cbn [fst snd]. apply lsum_ext. intros t Ht. f_equal. f_equal. destruct (Hts t Ht) as [_ Ho].
    destruct (snd (snd t)) as [|terms]; cbn [afun_fn afun_int].
    + exact (ang_one _ _ _ _ _ ang Hang).
    + exact (ang_coupling _ _ _ _ _ ang Hang terms _ Ho (fun x => eq_refl)).
  - intros k g h Hin. apply in_map_iff in Hin as (t & Et & Ht). inversion Et; subst. destruct (Hts t Ht) as [H1 H2]. split; [|now apply afun_poly].
    destruct (fst (snd t)) as [p q]. cbn [fst snd]. exact (proj1 (Hr p q H1)).
  - intros mu x Hmu Hx. rewrite Hf by auto. rewrite lsum_map. reflexivity.
Qed.

Lemma int_ok p q : In (p, Z.of_nat q) [(1, 0); (1, 1); (1, 2); (1, 3); (1, 4); (3, 0); (3, 2); (-1, 0)]%Z ->
  exists M, do_int b p q = Ok M /\ drows M = N /\ dcols M = N /\
  forall a c, (a < N)%nat -> (c < N)%nat -> dent M a c = rad a c (sinh_cosh p q).
Proof. intros H. destruct (Hr p (Z.of_nat q) H) as (_ & HM). rewrite Nat2Z.id in HM. exact HM. Qed.

Ltac get p q M := destruct (int_ok p q ltac:(simpl; tauto)) as (M & -> & ? & ? & ?); cbn [bind].
Ltac couple Hc := rewrite (Hc _ _ _) by (auto using one_electron_1, one_electron_2, one_electron_3, one_electron_4, one_electron_s, one_electron_cs); cbn [bind].

Lemma op_set_sub i j B : (i < n)%nat -> (j < n)%nat -> drows B = N -> dcols B = N ->
  op_at n N n N i j (fun M => set_sub N M i j B) (fun a c _ => dent B a c).
Proof. apply op_set. Qed.
Lemma op_add_sub i j B : (i < n)%nat -> (j < n)%nat -> drows B = N -> dcols B = N ->
  op_at n N n N i j (fun M => add_sub N M i j B) (fun a c v => v + dent B a c).
Proof. apply op_add. Qed.
(** if(cpl != 0) add_sub(M, i, j, k*B), where k is a multiple of cpl *)
Lemma op_when_add i j cpl k w B : (i < n)%nat -> (j < n)%nat -> drows B = N -> dcols B = N -> k = cpl * w ->
  op_at n N n N i j (fun M => when_nonzero cpl M (fun M => add_sub N M i j (dscale k B))) (fun a c v => v + k * dent B a c).
Proof.
  intros Hi Hj RB CB ->. apply (op_ext _ _ _ _ i j _ (fun a c v => v + cpl * (w * dent B a c))); [|intros; ring].
  apply op_when. apply (op_ext _ _ _ _ i j _ (fun a c v => v + dent (dscale (cpl * w) B) a c)).
  - now apply op_add_sub.
  - intros. cbn [dent dscale]. unfold mscal. ring.
Qed.

Notation Xc t i j := (exact_coupling (db_eval (do_b b)) t (l j) (m j) (l i) (m i)).
Notation XN := (Z.to_nat).

Lemma sc_nat p q mu : sinh_cosh (Z.of_nat p) q mu = sinh mu ^ p * cosh mu ^ q.
Proof. unfold sinh_cosh. now rewrite <- pow_powerRZ. Qed.
Lemma sc1 q mu : sinh_cosh 1 q mu = sinh mu * cosh mu ^ q.
Proof. rewrite (sc_nat 1). simpl. ring. Qed.
Lemma sc3 q mu : sinh_cosh 3 q mu = sinh mu ^ 3 * cosh mu ^ q.
Proof. apply (sc_nat 3). Qed.

Lemma cosh2 mu : cosh mu ^ 2 = 1 + sinh mu ^ 2.
Proof.
  unfold cosh, sinh. assert (H : exp mu * exp (- mu) = 1) by (rewrite <- exp_plus, Rplus_opp_r; apply exp_0).
  replace (((exp mu + exp (- mu)) / 2) ^ 2) with (exp mu * exp (- mu) + ((exp mu - exp (- mu)) / 2) ^ 2) by field.
  now rewrite H.
Qed.

Lemma sinh_pos mu : 0 < mu -> 0 < sinh mu.
Proof. intros H. rewrite <- sinh_0. now apply sinh_lt. Qed.
Lemma cosh_gt1 mu : 0 < mu -> 1 < cosh mu.
Proof.
  intros H. pose proof (sinh_pos mu H). pose proof (cosh2 mu). assert (0 < cosh mu).
  { unfold cosh. pose proof (exp_pos mu). pose proof (exp_pos (- mu)). lra. }
  nra.
Qed.

(* ---------- overlap ---------- *)

Theorem overlap_ok : is_operator b E (do_overlap b) (fun _ => volume Rh).
Proof.
  unfold do_overlap. get 1%Z 0%nat I10. get 1%Z 2%nat I12. destruct gaunt_ready as (g & -> & Hc). cbn [bind].
  eapply scaled_operator.
  - apply loop_ok with (tr := fun i j a c v =>
      (if (l i =? l j)%Z then dent I12 a c else v) + (- Xc cos2_terms i j) * dent I10 a c).
    intros i j Hi Hj Hm.
    eapply op_seq.
    + apply (op_if n N n N i j (l i =? l j)%Z (fun V => set_sub N V i j I12)); [now apply op_set_sub|apply op_id].
    + eapply op_eq. { intros M. couple Hc. reflexivity. } apply op_when_add with (w := -1); auto. ring.
    + intros. cbn beta. destruct (l i =? l j)%Z; ring.
  - intros i a j c Hi Ha Hj Hc'. cbn beta.
    rewrite (E_sum i a j c [(Rh ^ 3, ((1, 2)%Z, A1)); (- Rh ^ 3, ((1, 0)%Z, Ac cos2_terms))]); auto.
    + cbn [lsum fst snd afun_int]. unfold D_, X_. change (XN 2) with 2%nat. change (XN 0) with 0%nat.
      destruct (Z.eqb_spec (m i) (m j)); [|rewrite andb_false_r; ring]. rewrite andb_true_r.
      fold Rh. rewrite H1, H4 by auto. destruct (Z.eqb_spec (l i) (l j)); ring.
    + intros t [<-|[<-|[]]]; cbn [fst snd afun_ok]; split; auto using one_electron_2; simpl; tauto.
    + intros mu x _ _. cbn [lsum fst snd afun_fn]. rewrite (proj1 (proj2 (expansions x))).
      change (XN 2) with 2%nat. change (XN 0) with 0%nat. rewrite !sc1. unfold volume. ring.
Qed.

(* ---------- nuclear attraction ---------- *)

Lemma distance_minus mu x : 0 < Rh -> 0 < mu -> -1 <= x <= 1 -> nuclear_distance (-1) Rh mu x = Rh * (cosh mu + x).
Proof.
  intros HR Hmu Hx. unfold nuclear_distance, rho2, z_coord. pose proof (cosh_gt1 mu Hmu). pose proof (cosh2 mu) as C.
  replace (Rh ^ 2 * (sinh mu ^ 2 * (1 - x ^ 2)) + (Rh * cosh mu * x - -1 * Rh) ^ 2) with ((Rh * (cosh mu + x)) ^ 2).
  - rewrite <- Rsqr_pow2. apply sqrt_Rsqr. nra.
  - replace (sinh mu ^ 2) with (cosh mu ^ 2 - 1) by (rewrite C; ring). ring.
Qed.
Lemma distance_plus mu x : 0 < Rh -> 0 < mu -> -1 <= x <= 1 -> nuclear_distance 1 Rh mu x = Rh * (cosh mu - x).
Proof.
  intros HR Hmu Hx. unfold nuclear_distance, rho2, z_coord. pose proof (cosh_gt1 mu Hmu). pose proof (cosh2 mu) as C.
  replace (Rh ^ 2 * (sinh mu ^ 2 * (1 - x ^ 2)) + (Rh * cosh mu * x - 1 * Rh) ^ 2) with ((Rh * (cosh mu - x)) ^ 2).
  - rewrite <- Rsqr_pow2. apply sqrt_Rsqr. nra.
  - replace (sinh mu ^ 2) with (cosh mu ^ 2 - 1) by (rewrite C; ring). ring.
Qed.

Theorem nuclear_ok : 0 < Rh -> is_operator b E (do_nuclear b) (fun _ mu x => volume Rh mu x *
  (- IZR (do_Z1 b) / nuclear_distance (-1) Rh mu x - IZR (do_Z2 b) / nuclear_distance 1 Rh mu x)).
Proof.
  intros HR. unfold do_nuclear. get 1%Z 0%nat I10. get 1%Z 1%nat I11. destruct gaunt_ready as (g & -> & Hc). cbn [bind].
  eapply scaled_operator.
  - apply loop_ok with (tr := fun i j a c v =>
      (if (l i =? l j)%Z then IZR (do_Z1 b + do_Z2 b) * dent I11 a c else v) + (IZR (do_Z2 b - do_Z1 b) * Xc cos1_terms i j) * dent I10 a c).
    intros i j Hi Hj Hm.
    eapply (op_seq n N n N i j _ _ _ (fun a c v => v + (IZR (do_Z2 b - do_Z1 b) * Xc cos1_terms i j) * dent I10 a c)).
    + apply (op_if n N n N i j (l i =? l j)%Z (fun V => set_sub N V i j (dscale (IZR (do_Z1 b + do_Z2 b)) I11))); [now apply op_set_sub|apply op_id].
    + destruct (Z.eqb_spec (do_Z1 b) (do_Z2 b)) as [Ez|Ez].
      * apply (op_ext n N n N i j _ (fun _ _ v => v)); [apply op_id|]. intros. rewrite Ez, Z.sub_diag. ring.
      * eapply op_eq. { intros M. couple Hc. reflexivity. } apply op_when_add with (w := IZR (do_Z2 b - do_Z1 b)); auto. ring.
    + intros. cbn [dent dscale]. unfold mscal. reflexivity.
  - intros i a j c Hi Ha Hj Hc'. cbn beta.
    rewrite (E_sum i a j c [(- (Rh ^ 2) * IZR (do_Z1 b + do_Z2 b), ((1, 1)%Z, A1)); (- (Rh ^ 2) * IZR (do_Z2 b - do_Z1 b), ((1, 0)%Z, Ac cos1_terms))]); auto.
    + cbn [lsum fst snd afun_int]. unfold D_, X_. change (XN 1) with 1%nat. change (XN 0) with 0%nat.
      destruct (Z.eqb_spec (m i) (m j)); [|rewrite andb_false_r; ring]. rewrite andb_true_r.
      fold Rh. rewrite H1, H4 by auto. destruct (Z.eqb_spec (l i) (l j)); ring.
    + intros t [<-|[<-|[]]]; cbn [fst snd afun_ok]; split; auto using one_electron_1; simpl; tauto.
    + intros mu x Hmu Hx. cbn [lsum fst snd afun_fn]. rewrite (proj1 (expansions x)).
      change (XN 1) with 1%nat. change (XN 0) with 0%nat. rewrite !sc1. rewrite distance_minus, distance_plus by auto.
      unfold volume. rewrite plus_IZR, minus_IZR. pose proof (cosh_gt1 mu Hmu). field. split; [lra|split; lra].
Qed.

(* ---------- multipole moments ---------- *)

Theorem dipole_ok : is_operator b E (do_dipole_z b) (fun _ mu x => volume Rh mu x * z_coord Rh mu x).
Proof.
  unfold do_dipole_z. get 1%Z 1%nat I11. get 1%Z 3%nat I13. destruct gaunt_ready as (g & -> & Hc). cbn [bind].
  eapply scaled_operator.
  - apply loop_ok with (tr := fun i j a c v =>
      (v + Xc cos1_terms i j * dent I13 a c) + (- Xc cos3_terms i j) * dent I11 a c).
    intros i j Hi Hj Hm. eapply op_eq. { intros M. couple Hc. reflexivity. }
    eapply op_seq.
    + apply op_when_add with (w := 1); auto. ring.
    + eapply op_eq. { intros M. couple Hc. reflexivity. } apply op_when_add with (w := -1); auto. ring.
    + reflexivity.
  - intros i a j c Hi Ha Hj Hc'. cbn beta.
    rewrite (E_sum i a j c [(Rh ^ 4, ((1, 3)%Z, Ac cos1_terms)); (- Rh ^ 4, ((1, 1)%Z, Ac cos3_terms))]); auto.
    + cbn [lsum fst snd afun_int]. unfold D_, X_. change (XN 1) with 1%nat. change (XN 3) with 3%nat.
      destruct (Z.eqb_spec (m i) (m j)); [|ring]. fold Rh. rewrite H1, H4 by auto. ring.
    + intros t [<-|[<-|[]]]; cbn [fst snd afun_ok]; split; auto using one_electron_1, one_electron_3; simpl; tauto.
    + intros mu x _ _. cbn [lsum fst snd afun_fn]. rewrite (proj1 (expansions x)), (proj1 (proj2 (proj2 (expansions x)))).
      change (XN 1) with 1%nat. change (XN 3) with 3%nat. rewrite !sc1. unfold volume, z_coord. ring.
Qed.

Lemma dsub_ok A B : drows A = N -> dcols A = N -> drows B = N -> dcols B = N ->
  exists C, dsub A B = Ok C /\ drows C = N /\ dcols C = N /\ forall a c, dent C a c = dent A a c - dent B a c.
Proof.
  intros RA CA RB CB. unfold dsub, dadd. cbn [drows dcols dscale]. rewrite RA, CA, RB, CB, !Nat.eqb_refl. cbn [andb].
  eexists. split; [reflexivity|]. cbn [drows dcols dent]. split; [reflexivity|]. split; [reflexivity|]. intros.
  unfold madd. cbn [dent dscale]. unfold mscal. ring.
Qed.

Theorem quadrupole_ok : is_operator b E (do_quadrupole_zz b)
  (fun _ mu x => volume Rh mu x * ((3 * z_coord Rh mu x ^ 2 - dist2 Rh mu x) / 2)).
Proof.
  unfold do_quadrupole_zz. get 1%Z 0%nat I10. get 1%Z 2%nat I12. get 1%Z 4%nat I14.
  destruct gaunt_ready as (g & -> & Hc). cbn [bind].
  destruct (dsub_ok I10 (dscale 3 I12)) as (X4 & E4 & RX4 & CX4 & V4); auto.
  destruct (dsub_ok (dscale 3 I14) I10) as (X2 & E2 & RX2 & CX2 & V2); auto.
  destruct (dsub_ok I12 I14) as (X0 & E0 & RX0 & CX0 & V0); auto.
  eapply scaled_operator.
  - apply loop_ok with (tr := fun i j a c v =>
      if (l i =? l j)%Z then (v + Xc cos4_terms i j * dent X4 a c) + Xc cos2_terms i j * dent X2 a c + dent X0 a c
      else (v + Xc cos4_terms i j * dent X4 a c) + Xc cos2_terms i j * dent X2 a c).
    intros i j Hi Hj Hm. eapply op_eq. { intros M. couple Hc. reflexivity. }
    eapply (op_seq n N n N i j _ _ _
      (fun a c v => if (l i =? l j)%Z then v + Xc cos2_terms i j * dent X2 a c + dent X0 a c else v + Xc cos2_terms i j * dent X2 a c)).
    + eapply op_eq. { intros M. rewrite E4. cbn [bind]. reflexivity. } apply op_when_add with (w := 1); auto. ring.
    + eapply op_eq. { intros M. couple Hc. reflexivity. }
      eapply (op_seq n N n N i j _ _ _ (fun a c v => if (l i =? l j)%Z then v + dent X0 a c else v)).
      * eapply op_eq. { intros M. rewrite E2. cbn [bind]. reflexivity. } apply op_when_add with (w := 1); auto. ring.
      * destruct (l i =? l j)%Z; [|apply op_id]. eapply op_eq. { intros M. rewrite E0. cbn [bind]. reflexivity. } now apply op_add_sub.
      * reflexivity.
    + reflexivity.
  - intros i a j c Hi Ha Hj Hc'. cbn beta.
    rewrite (E_sum i a j c [(Rh ^ 5 / 2, ((1, 0)%Z, Ac cos4_terms)); (- 3 * (Rh ^ 5 / 2), ((1, 2)%Z, Ac cos4_terms));
      (3 * (Rh ^ 5 / 2), ((1, 4)%Z, Ac cos2_terms)); (- (Rh ^ 5 / 2), ((1, 0)%Z, Ac cos2_terms));
      (Rh ^ 5 / 2, ((1, 2)%Z, A1)); (- (Rh ^ 5 / 2), ((1, 4)%Z, A1))]); auto.
    + cbn [lsum fst snd afun_int]. unfold D_, X_. change (XN 0) with 0%nat. change (XN 2) with 2%nat. change (XN 4) with 4%nat.
      destruct (Z.eqb_spec (m i) (m j)); [|rewrite andb_false_r; ring]. rewrite andb_true_r.
      fold Rh. rewrite V4, V2, V0. cbn [dent dscale]. unfold mscal. rewrite H1, H4, H7 by auto. destruct (Z.eqb_spec (l i) (l j)); field.
    + intros t [<-|[<-|[<-|[<-|[<-|[<-|[]]]]]]]; cbn [fst snd afun_ok]; split; auto using one_electron_4, one_electron_2; simpl; tauto.
    + intros mu x _ _. cbn [lsum fst snd afun_fn]. rewrite (proj1 (proj2 (expansions x))), (proj1 (proj2 (proj2 (proj2 (expansions x))))).
      change (XN 0) with 0%nat. change (XN 2) with 2%nat. change (XN 4) with 4%nat. rewrite !sc1.
      unfold volume, dist2, z_coord, rho2. replace (sinh mu ^ 2) with (cosh mu ^ 2 - 1) by (rewrite cosh2; ring). field.
Qed.

(* ---------- magnetic field ---------- *)

Theorem Bz_ok B : is_operator b E (do_Bz_field b B)
  (fun mj mu x => volume Rh mu x * (B ^ 2 / 8 * rho2 Rh mu x - B * IZR mj / 2)).
Proof.
  unfold do_Bz_field. get 1%Z 0%nat I10. get 1%Z 2%nat I12. get 3%Z 0%nat I30. get 3%Z 2%nat I32.
  destruct gaunt_ready as (g & -> & Hc). cbn [bind]. fold Rh.
  set (J10 := dscale (Rh ^ 3) I10). set (J12 := dscale (Rh ^ 3) I12). set (J30 := dscale (Rh ^ 5) I30). set (J32 := dscale (Rh ^ 5) I32).
  eapply plain_operator.
  - apply loop_ok with (tr := fun i j a c v =>
      let w := (v + B * B / 8 * Xc sin2_terms i j * dent J32 a c) + (- (B * B / 8) * Xc cos2_sin2_terms i j) * dent J30 a c in
      let ds := - (1 / 2) * IZR (m j) * B in
      (if (l i =? l j)%Z then w + ds * dent J12 a c else w) + (- ds * Xc cos2_terms i j) * dent J10 a c).
    intros i j Hi Hj Hm. cbv zeta. eapply op_eq. { intros M. couple Hc. reflexivity. }
    eapply (op_seq n N n N i j _ _ _
      (fun a c v => let w := v + (- (B * B / 8) * Xc cos2_sin2_terms i j) * dent J30 a c in let ds := - (1 / 2) * IZR (m j) * B in
      (if (l i =? l j)%Z then w + ds * dent J12 a c else w) + (- ds * Xc cos2_terms i j) * dent J10 a c)).
    + apply op_when_add with (w := B * B / 8); auto. ring.
    + eapply op_eq. { intros M. couple Hc. reflexivity. }
      eapply (op_seq n N n N i j _ _ _
        (fun a c v => let ds := - (1 / 2) * IZR (m j) * B in (if (l i =? l j)%Z then v + ds * dent J12 a c else v) + (- ds * Xc cos2_terms i j) * dent J10 a c)).
      * apply op_when_add with (w := - (B * B / 8)); auto. ring.
      * destruct (Reqb_spec (- (1 / 2) * IZR (m j) * B) 0) as [Eds|Eds].
        -- apply (op_ext n N n N i j _ (fun _ _ v => v)); [apply op_id|]. intros. cbv zeta. rewrite Eds. destruct (l i =? l j)%Z; ring.
        -- eapply op_seq.
           ++ apply (op_if n N n N i j (l i =? l j)%Z (fun V => add_sub N V i j (dscale (- (1 / 2) * IZR (m j) * B) J12))); [|apply op_id]. now apply op_add_sub.
           ++ eapply op_eq. { intros M. couple Hc. reflexivity. } apply op_when_add with (w := - (- (1 / 2) * IZR (m j) * B)); auto. ring.
           ++ reflexivity.
      * reflexivity.
    + reflexivity.
  - intros i a j c Hi Ha Hj Hc'. cbn beta zeta.
    rewrite (E_sum i a j c [(B ^ 2 / 8 * Rh ^ 5, ((3, 2)%Z, Ac sin2_terms)); (- (B ^ 2 / 8 * Rh ^ 5), ((3, 0)%Z, Ac cos2_sin2_terms));
      (- (B * IZR (m j) / 2) * Rh ^ 3, ((1, 2)%Z, A1)); (B * IZR (m j) / 2 * Rh ^ 3, ((1, 0)%Z, Ac cos2_terms))]); auto.
    + cbn [lsum fst snd afun_int]. unfold D_, X_. change (XN 0) with 0%nat. change (XN 2) with 2%nat.
      destruct (Z.eqb_spec (m i) (m j)); [|rewrite andb_false_r; ring]. rewrite andb_true_r.
      unfold J10, J12, J30, J32. cbn [dent dscale]. unfold mscal. rewrite H1, H4, H7, H10 by auto. destruct (Z.eqb_spec (l i) (l j)); field.
    + intros t [<-|[<-|[<-|[<-|[]]]]]; cbn [fst snd afun_ok]; split; auto using one_electron_s, one_electron_cs, one_electron_2; simpl; tauto.
    + intros mu x _ _. cbn [lsum fst snd afun_fn]. destruct (expansions x) as (_ & -> & _ & _ & _ & -> & -> & _).
      change (XN 0) with 0%nat. change (XN 2) with 2%nat. rewrite !sc1, !sc3. unfold volume, rho2. field.
Qed.

(* ---------- kinetic energy ---------- *)

Theorem kinetic_ok (K : mat) : NoDup (do_sh b) -> is_dmat (do_kin b) N N K ->
  is_dmat (do_kinetic b) (dia_size (do_b b)) (dia_size (do_b b)) (fun u v =>
    let i := sh_ix (do_b b) u in let j := sh_ix (do_b b) v in let a := rad_ix (do_b b) u in let c := rad_ix (do_b b) v in
    if same_shell (do_sh b) (do_sh b) i j
    then Rh / 2 * (K a c + IZR (l i * (l i + 1)) * rad a c (sinh_cosh 1 0) + IZR (m i) ^ 2 * rad a c (sinh_cosh (-1) 0)) else 0).
Proof.
  intros ND (Kr & EK & RK & CK & VK). unfold do_kinetic. rewrite EK. cbn [bind]. get 1%Z 0%nat Ip. get (-1)%Z 0%nat Im.
  destruct (diag_fold n N (fun Tm iang => let '(l, m) := shell (do_sh b) iang in
      bind (set_sub (do_N b) Tm iang iang Kr) (fun Tm =>
      bind (if (l =? 0)%Z then Ok Tm else add_sub (do_N b) Tm iang iang (dscale (IZR (l * (l + 1))) Ip)) (fun Tm =>
      if (m =? 0)%Z then Ok Tm else add_sub (do_N b) Tm iang iang (dscale (IZR (m * m)) Im))))
    (fun i a c v => dent Kr a c + IZR (l i * (l i + 1)) * dent Ip a c + IZR (m i * m i) * dent Im a c)) with (M := do_zero b) as (M' & EM & [DM1 DM2] & VM).
  - intros i Hi. rewrite shell_eq. fold (l i) (m i).
    apply (op_seq n N n N i i (fun Tm => set_sub N Tm i i Kr) _ (fun a c _ => dent Kr a c)
      (fun a c v => v + IZR (l i * (l i + 1)) * dent Ip a c + IZR (m i * m i) * dent Im a c)); [now apply op_set_sub| |reflexivity].
    apply (op_seq n N n N i i (fun Tm => if (l i =? 0)%Z then Ok Tm else add_sub N Tm i i (dscale (IZR (l i * (l i + 1))) Ip)) _
      (fun a c v => v + IZR (l i * (l i + 1)) * dent Ip a c) (fun a c v => v + IZR (m i * m i) * dent Im a c)); [| |reflexivity].
    + destruct (Z.eqb_spec (l i) 0) as [El|_].
      * apply (op_ext n N n N i i _ (fun _ _ v => v)); [apply op_id|]. intros. rewrite El. simpl Z.mul. ring.
      * now apply op_add_sub.
    + destruct (Z.eqb_spec (m i) 0) as [Em|_].
      * apply (op_ext n N n N i i _ (fun _ _ v => v)); [apply op_id|]. intros. rewrite Em. simpl Z.mul. ring.
      * now apply op_add_sub.
  - apply dims_zero.
  - unfold N, n in EM. rewrite EM. cbn [bind].
    pose proof (finish (Ok M') (Rh / 2) (fun i a j c => if Nat.eqb i j then dent Kr a c + IZR (l i * (l i + 1)) * dent Ip a c + IZR (m i * m i) * dent Im a c else 0)) as F.
    cbn [bind] in F. destruct F as (G & EG & RG & CG & VG).
    + exists M'. split; [reflexivity|]. split; [exact DM1|]. split; [exact DM2|]. intros i a j c Hi Ha Hj Hc. rewrite VM by auto. reflexivity.
    + exists G. split; [exact EG|]. split; [exact RG|]. split; [exact CG|]. intros u v Hu Hv. rewrite VG by auto. cbv zeta.
      destruct Hb as (_ & _ & _ & _ & HN). destruct (sh_rad (do_b b) u HN Hu) as (Bu1 & Bu2 & _). destruct (sh_rad (do_b b) v HN Hv) as (Bv1 & Bv2 & _).
      set (i := sh_ix (do_b b) u) in *. set (j := sh_ix (do_b b) v) in *.
      replace (same_shell (do_sh b) (do_sh b) i j) with (Nat.eqb i j).
      * destruct (Nat.eqb_spec i j); [|ring]. rewrite VK, H1, H4 by auto. rewrite !mult_IZR. ring.
      * unfold same_shell. destruct (Nat.eqb_spec i j) as [->|Hne]; [now rewrite !Z.eqb_refl|].
        destruct (Z.eqb_spec (l_of (do_sh b) i) (l_of (do_sh b) j)) as [El|]; [|reflexivity].
        destruct (Z.eqb_spec (m_of (do_sh b) i) (m_of (do_sh b) j)) as [Em|]; [|reflexivity]. exfalso. apply Hne.
        apply (proj1 (NoDup_nth (do_sh b) (0, 0)%Z) ND i j Bu1 Bv1).
        unfold l_of in El. unfold m_of in Em. rewrite (surjective_pairing (nth i _ _)), (surjective_pairing (nth j _ _)). congruence.
Qed.
End Dia.
