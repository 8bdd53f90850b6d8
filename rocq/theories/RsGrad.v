(** The Fock matrices of spherically averaged atoms are the gradient of the energy. *)
Require Import Reals ZArith List Bool Arith Lia Lra Permutation FunctionalExtensionality.
Require Import Verif.Prelude Verif.FEModel Verif.AngModel Verif.JKModel Verif.ScfModel Verif.ScfSpec Verif.ScfProofs
  Verif.RsModel Verif.RsSpec Verif.RsProofs.
Import ListNotations.
Local Open Scope R_scope.

(* ---------- quadratic functions along curves ---------- *)

Lemma deriv_step h c d : derivable_pt_lim h 0 d -> derivable_pt_lim (fun t => c + t * h t) 0 (h 0).
Proof.
  intros H. replace (h 0) with (0 + (1 * h 0 + 0 * d)) by ring.
  apply (derivable_pt_lim_plus (fun _ => c) (fun t => t * h t)); [apply derivable_pt_lim_const|].
  apply (derivable_pt_lim_mult (fun t => t) h); [apply derivable_pt_lim_id|exact H].
Qed.
Lemma deriv_poly c0 c1 c2 c3 c4 c5 c6 :
  derivable_pt_lim (fun t => c0 + t * (c1 + t * (c2 + t * (c3 + t * (c4 + t * (c5 + t * c6)))))) 0 c1.
Proof.
  set (h := fun t => c1 + t * (c2 + t * (c3 + t * (c4 + t * (c5 + t * c6))))).
  assert (E : h 0 = c1) by (unfold h; ring). 
  enough (H : derivable_pt_lim (fun t => c0 + t * h t) 0 (h 0)) by (rewrite E in H; exact H).
  eapply (deriv_step h c0). unfold h.
  eapply (deriv_step (fun t => c2 + t * (c3 + t * (c4 + t * (c5 + t * c6)))) c1).
  eapply (deriv_step (fun t => c3 + t * (c4 + t * (c5 + t * c6))) c2).
  eapply (deriv_step (fun t => c4 + t * (c5 + t * c6)) c3).
  eapply (deriv_step (fun t => c5 + t * c6) c4).
  apply (deriv_step (fun t => c6) c5 0). apply derivable_pt_lim_const.
Qed.

Section Curve.
Context {V : Type} (line : V -> R -> V -> V) (ok : V -> Prop) (L : V -> R) (Q : V -> V -> R).
Hypothesis okl : forall x t y, ok x -> ok y -> ok (line x t y).
Hypothesis Ll : forall x t y, ok x -> ok y -> L (line x t y) = L x + t * L y.
Hypothesis Ql : forall x t y z, ok x -> ok y -> ok z -> Q (line x t y) z = Q x z + t * Q y z.
Hypothesis Qs : forall x y, ok x -> ok y -> Q x y = Q y x.
Definition curve (p a b c : V) (t : R) : V := line p t (line a t (line b t c)).
Lemma Ql' x t y z : ok x -> ok y -> ok z -> Q z (line x t y) = Q z x + t * Q z y.
Proof. intros. rewrite (Qs z) by auto. rewrite Ql by auto. now rewrite (Qs z x), (Qs z y). Qed.
Lemma quadratic_curve p a b c : ok p -> ok a -> ok b -> ok c ->
  derivable_pt_lim (fun t => L (curve p a b c t) + Q (curve p a b c t) (curve p a b c t)) 0 (L a + 2 * Q a p).
Proof.
  intros Hp Ha Hb Hc.
  replace (fun t => L (curve p a b c t) + Q (curve p a b c t) (curve p a b c t)) with
    (fun t => (L p + Q p p) + t * ((L a + 2 * Q a p) + t * ((L b + 2 * Q b p + Q a a) + t * ((L c + 2 * Q c p + 2 * Q b a) +
       t * ((2 * Q c a + Q b b) + t * (2 * Q c b + t * Q c c)))))).
  - apply deriv_poly.
  - apply functional_extensionality; intros t. unfold curve.
    assert (H1 : ok (line b t c)) by auto. assert (H2 : ok (line a t (line b t c))) by auto.
    rewrite !Ll by auto. repeat (first [rewrite Ql by auto|rewrite Ql' by auto]).
    rewrite (Qs p a), (Qs p b), (Qs p c), (Qs a b), (Qs a c), (Qs b c) by auto. ring.
Qed.
End Curve.

(* ---------- Coulomb and exchange ---------- *)

Definition cline (A : cube) (t : R) (B : cube) : cube := cadd A (cscal t B).
Lemma csym_line nb n A t B : csym nb n A -> csym nb n B -> csym nb n (cline A t B).
Proof. intros HA HB l Hl. apply sym_line; [apply HA|apply HB]; auto. Qed.
Lemma angfac_pos : 0 < angfac.
Proof. unfold angfac. assert (H := PI_RGT_0). lra. Qed.
Lemma div_line A t B f : divided_cube (cline A t B) f = cline (divided_cube A f) t (divided_cube B f).
Proof. fext. unfold divided_cube, cline, cadd, cscal, madd, mscal, Rdiv. ring. Qed.
Lemma csym_div nb n A f : csym nb n A -> csym nb n (divided_cube A f).
Proof. intros H l Hl a b Ha Hb. unfold divided_cube. now rewrite (H l Hl a b). Qed.
Lemma tr_div n A f B : f <> 0 -> tr n A B = f * tr n (fun a b => A a b / f) B.
Proof.
  intros Hf. rewrite <- tr_scal. apply tr_meq; intros ? ? _ _; [|reflexivity]. unfold mscal. field. auto.
Qed.
Lemma csum_line k A t B : csum k (cline A t B) = madd (csum k A) (mscal t (csum k B)).
Proof. fext. unfold csum, cline, cadd, cscal, madd, mscal. now rewrite sum_plus, sum_scal. Qed.
Lemma csum_sym nb n A : csym nb n A -> symmetric n (csum nb A).
Proof. intros H i j Hi Hj. unfold csum. apply sum_ext. intros l Hl. now apply H. Qed.
Lemma tr_meq_r n A B B' : meq n n B B' -> tr n A B = tr n A B'.
Proof. intros. apply tr_meq; [intros ? ? _ _; reflexivity|auto]. Qed.

Section Grad.
Variable s : satom.
Notation n := (sa_n s).
Notation nb := (sa_nb s).
Hypothesis Hs : atom_ok s.

Lemma coul_ls : linear_symmetric n (coul s).
Proof.
  destruct Hs as ((HL & HS) & _). pose proof angfac_pos as Hp. split.
  - intros A B t HA HB. unfold coul.
    replace (fun a b => madd A (mscal t B) a b / angfac) with (madd (fun a b => A a b / angfac) (mscal t (fun a b => B a b / angfac)))
      by (fext; unfold madd, mscal, Rdiv; ring).
    apply HL; intros i j Hi Hj; [rewrite (HA i j)|rewrite (HB i j)]; auto.
  - intros A B HA HB. unfold coul. rewrite (tr_div n A angfac), (tr_div n B angfac) by lra. f_equal.
    apply HS; intros i j Hi Hj; [rewrite (HA i j)|rewrite (HB i j)]; auto.
Qed.

Section Exch.
Variables (fac : nat -> R) (w : R).
Hypothesis Hw : w <> 0.
Hypothesis Hfac : forall l, fac l = w * INR (2 * l + 1).
Lemma fac_nz l : fac l <> 0.
Proof. rewrite Hfac. apply Rmult_integral_contrapositive_currified; auto. apply not_0_INR. lia. Qed.

Lemma part_linear f A B t l : shell_linear_symmetric nb n f -> csym nb n A -> csym nb n B -> (l < nb)%nat ->
  meq n n (f (divided_cube (cline A t B) fac) l) (madd (f (divided_cube A fac) l) (mscal t (f (divided_cube B fac) l))).
Proof. intros (HL & _) HA HB Hl. rewrite div_line. apply HL; auto using csym_div. Qed.
Lemma part_symmetric f A B : shell_linear_symmetric nb n f -> csym nb n A -> csym nb n B ->
  ctr nb n A (f (divided_cube B fac)) = ctr nb n B (f (divided_cube A fac)).
Proof.
  intros (_ & HS) HA HB. unfold ctr.
  assert (E : forall X Y, sum nb (fun l => tr n (X l) (f (divided_cube Y fac) l)) =
     w * sum nb (fun l => INR (2 * l + 1) * tr n (divided_cube X fac l) (f (divided_cube Y fac) l))).
  { intros X Y. rewrite <- sum_scal. apply sum_ext. intros l Hl. rewrite (tr_div n (X l) (fac l)) by apply fac_nz.
    rewrite (Hfac l) at 1. unfold divided_cube at 2. ring. }
  rewrite !E. f_equal. apply HS; auto using csym_div.
Qed.

Lemma K_linear A B t l : csym nb n A -> csym nb n B -> (l < nb)%nat ->
  meq n n (Kof s fac (cline A t B) l) (madd (Kof s fac A l) (mscal t (Kof s fac B l))).
Proof.
  destruct Hs as (_ & H1 & H2). intros HA HB Hl i j Hi Hj. unfold Kof, have_exx.
  destruct (Reqb_spec (sa_kfrac s) 0) as [E1|E1]; destruct (Reqb_spec (sa_kshort s) 0) as [E2|E2]; cbn [negb orb];
  unfold hf_exchange; rewrite ?E1, ?E2; destruct (Reqb_spec 0 0) as [_|]; try lra;
  try (destruct (Reqb_spec (sa_kfrac s) 0); [contradiction|]); try (destruct (Reqb_spec (sa_kshort s) 0); [contradiction|]);
  cbn [negb]; unfold czero, madd, mscal, mzero; try ring.
  - rewrite (part_linear _ A B t l (H2 E2) HA HB Hl i j Hi Hj). unfold madd, mscal. ring.
  - rewrite (part_linear _ A B t l (H1 E1) HA HB Hl i j Hi Hj). unfold madd, mscal. ring.
  - rewrite (part_linear _ A B t l (H1 E1) HA HB Hl i j Hi Hj), (part_linear _ A B t l (H2 E2) HA HB Hl i j Hi Hj).
    unfold madd, mscal. ring.
Qed.

Lemma ctr_zero A : ctr nb n A czero = 0.
Proof. unfold ctr. apply sum_zero'. intros. rewrite tr_comm. apply tr_zero. Qed.
Lemma ctr_comm A B : ctr nb n A B = ctr nb n B A.
Proof. unfold ctr. apply sum_ext. intros. apply tr_comm. Qed.
Lemma ctr_add_r A B c C : ctr nb n A (fun l => madd (B l) (mscal c (C l))) = ctr nb n A B + c * ctr nb n A C.
Proof. unfold ctr. rewrite <- sum_scal, <- sum_plus. apply sum_ext. intros. now rewrite tr_add_r, tr_scal_r. Qed.

Lemma K_symmetric A B : csym nb n A -> csym nb n B -> ctr nb n A (Kof s fac B) = ctr nb n B (Kof s fac A).
Proof.
  destruct Hs as (_ & H1 & H2). intros HA HB.
  assert (E : forall X Y, csym nb n X -> csym nb n Y -> ctr nb n X (Kof s fac Y) =
    (if Reqb (sa_kfrac s) 0 then 0 else sa_kfrac s * ctr nb n X (sa_exchange s (divided_cube Y fac))) +
    (if Reqb (sa_kshort s) 0 then 0 else sa_kshort s * ctr nb n X (sa_rs_exchange s (divided_cube Y fac)))).
  { intros X Y HX HY. unfold Kof, have_exx, hf_exchange.
    destruct (Reqb (sa_kfrac s) 0); destruct (Reqb (sa_kshort s) 0); cbn [negb orb]; rewrite ?ctr_add_r, ?ctr_zero; ring. }
  rewrite !E by auto. destruct (Reqb_spec (sa_kfrac s) 0) as [E1|E1]; destruct (Reqb_spec (sa_kshort s) 0) as [E2|E2];
  rewrite ?(part_symmetric _ A B (H1 E1)), ?(part_symmetric _ A B (H2 E2)) by auto; reflexivity.
Qed.
Lemma QK_line A t B C : csym nb n A -> csym nb n B -> ctr nb n (cline A t B) C = ctr nb n A C + t * ctr nb n B C.
Proof. intros _ _. unfold ctr. rewrite <- sum_scal, <- sum_plus. apply sum_ext. intros. unfold cline, cadd, cscal. now rewrite tr_add, tr_scal. Qed.
End Exch.

(* ---------- restricted ---------- *)

Definition Lr (P : cube) : R := sum nb (fun l => tr n (P l) (ham s l)).
Definition Qr (A B : cube) : R := / 2 * tr n (csum nb A) (coul s (csum nb B)) + / 2 * ctr nb n A (Kof s facr B).
Lemma facr_w l : facr l = 2 * INR (2 * l + 1).
Proof. reflexivity. Qed.
Lemma facu_w l : facu l = 1 * INR (2 * l + 1).
Proof. unfold facu. ring. Qed.

Lemma Lr_line A t B : Lr (cline A t B) = Lr A + t * Lr B.
Proof. unfold Lr. rewrite <- sum_scal, <- sum_plus. apply sum_ext. intros. unfold cline, cadd, cscal. now rewrite tr_add, tr_scal. Qed.
Lemma Qr_line A t B C : csym nb n A -> csym nb n B -> Qr (cline A t B) C = Qr A C + t * Qr B C.
Proof. intros. unfold Qr. rewrite csum_line, tr_add, tr_scal, QK_line by auto. ring. Qed.
Lemma Qr_sym A B : csym nb n A -> csym nb n B -> Qr A B = Qr B A.
Proof.
  intros HA HB. unfold Qr. rewrite (K_symmetric facr 2 ltac:(lra) facr_w A B) by auto.
  destruct coul_ls as (_ & HS). rewrite (HS (csum nb A) (csum nb B)) by (apply csum_sym; auto). reflexivity.
Qed.
Lemma Er_quadratic P : Er s P = Lr P + Qr P P + fst (xc1 s P).
Proof. unfold Er, Lr, Qr. rewrite (ctr_comm (Kof s facr P) P). ring. Qed.

Definition crv := curve cline.
Lemma restricted_curve P D1 D2 D3 x : csym nb n P -> csym nb n D1 -> csym nb n D2 -> csym nb n D3 ->
  derivable_pt_lim (fun t => fst (xc1 s (crv P D1 D2 D3 t))) 0 x ->
  x = ctr nb n D1 (snd (xc1 s P)) ->
  derivable_pt_lim (fun t => Er s (crv P D1 D2 D3 t)) 0
    (sum nb (fun l => tr n (D1 l) (fao s (coul s (csum nb P)) (snd (xc1 s P)) (Kof s facr P) l))).
Proof.
  intros HP H1 H2 H3 Hx Ex.
  replace (sum nb _) with ((Lr D1 + 2 * Qr D1 P) + x).
  2:{ rewrite Ex. unfold Lr, Qr, ctr. rewrite tr_csum, Rmult_plus_distr_l, <- !Rmult_assoc. replace (2 * / 2) with 1 by field. rewrite !Rmult_1_l.
      rewrite <- !sum_plus. apply sum_ext. intros l Hl. unfold fao. rewrite !tr_add_r. ring. }
  replace (fun t => Er s (crv P D1 D2 D3 t)) with (fun t => (Lr (crv P D1 D2 D3 t) + Qr (crv P D1 D2 D3 t) (crv P D1 D2 D3 t)) + fst (xc1 s (crv P D1 D2 D3 t)))
    by (apply functional_extensionality; intros; now rewrite Er_quadratic).
  apply (derivable_pt_lim_plus (fun t => Lr (crv P D1 D2 D3 t) + Qr (crv P D1 D2 D3 t) (crv P D1 D2 D3 t)) (fun t => fst (xc1 s (crv P D1 D2 D3 t)))); auto.
  apply (quadratic_curve cline (csym nb n) Lr Qr); auto.
  - intros. apply csym_line; auto.
  - intros. apply Lr_line.
  - intros. apply Qr_line; auto.
  - intros. apply Qr_sym; auto.
Qed.

(* ---------- spin-polarised ---------- *)

Definition cc : Type := cube * cube.
Definition lu (x : cc) (t : R) (y : cc) : cc := (cline (fst x) t (fst y), cline (snd x) t (snd y)).
Definition oku (x : cc) : Prop := csym nb n (fst x) /\ csym nb n (snd x).
Definition Lu (x : cc) : R := Lr (fst x) + Lr (snd x).
Definition tot (x : cc) : mat := madd (csum nb (fst x)) (csum nb (snd x)).
Definition Qu (x y : cc) : R := / 2 * tr n (tot x) (coul s (tot y)) + / 2 * (ctr nb n (fst x) (Kof s facu (fst y)) + ctr nb n (snd x) (Kof s facu (snd y))).
Lemma tot_line x t y : tot (lu x t y) = madd (tot x) (mscal t (tot y)).
Proof. unfold tot, lu. cbn [fst snd]. rewrite !csum_line. fext. unfold madd, mscal. ring. Qed.
Lemma tot_sym x : oku x -> symmetric n (tot x).
Proof. intros [H1 H2]. apply sym_add; apply csum_sym; auto. Qed.
Lemma Eu_quadratic beta Pa Pb : Eu s beta Pa Pb = Lu (Pa, Pb) + Qu (Pa, Pb) (Pa, Pb) + fst (xc2 s beta Pa Pb).
Proof. unfold Eu, Lu, Lr, Qu, tot. cbn [fst snd]. rewrite sum_plus, (ctr_comm (Kof s facu Pa) Pa), (ctr_comm (Kof s facu Pb) Pb). ring. Qed.

Lemma unrestricted_curve beta Pa A1 A2 A3 Pb B1 B2 B3 x :
  csym nb n Pa -> csym nb n A1 -> csym nb n A2 -> csym nb n A3 -> csym nb n Pb -> csym nb n B1 -> csym nb n B2 -> csym nb n B3 ->
  derivable_pt_lim (fun t => fst (xc2 s beta (crv Pa A1 A2 A3 t) (crv Pb B1 B2 B3 t))) 0 x ->
  x = ctr nb n A1 (fst (snd (xc2 s beta Pa Pb))) + ctr nb n B1 (snd (snd (xc2 s beta Pa Pb))) ->
  let J := coul s (madd (csum nb Pa) (csum nb Pb)) in
  derivable_pt_lim (fun t => Eu s beta (crv Pa A1 A2 A3 t) (crv Pb B1 B2 B3 t)) 0
    (sum nb (fun l => tr n (A1 l) (fao s J (fst (snd (xc2 s beta Pa Pb))) (Kof s facu Pa) l)) +
     sum nb (fun l => tr n (B1 l) (fao s J (snd (snd (xc2 s beta Pa Pb))) (Kof s facu Pb) l))).
Proof.
  intros HPa HA1 HA2 HA3 HPb HB1 HB2 HB3 Hx Ex J.
  replace (_ + _) with ((Lu (A1, B1) + 2 * Qu (A1, B1) (Pa, Pb)) + x).
  2:{ rewrite Ex. unfold Lu, Lr, Qu, ctr, tot. cbn [fst snd]. fold J. rewrite tr_add, !tr_csum, Rmult_plus_distr_l, <- !Rmult_assoc.
      replace (2 * / 2) with 1 by field. rewrite !Rmult_1_l.
      transitivity ((sum nb (fun l => tr n (A1 l) (ham s l)) + sum nb (fun l => tr n (A1 l) J) + sum nb (fun l => tr n (A1 l) (fst (snd (xc2 s beta Pa Pb)) l)) +
         sum nb (fun l => tr n (A1 l) (Kof s facu Pa l))) +
        (sum nb (fun l => tr n (B1 l) (ham s l)) + sum nb (fun l => tr n (B1 l) J) + sum nb (fun l => tr n (B1 l) (snd (snd (xc2 s beta Pa Pb)) l)) +
         sum nb (fun l => tr n (B1 l) (Kof s facu Pb l)))); [ring|].
      rewrite <- !sum_plus. apply sum_ext; intros l Hl; unfold fao; rewrite !tr_add_r; ring. }
  set (c := curve lu (Pa, Pb) (A1, B1) (A2, B2) (A3, B3)).
  replace (fun t => Eu s beta (crv Pa A1 A2 A3 t) (crv Pb B1 B2 B3 t)) with
    (fun t => (Lu (c t) + Qu (c t) (c t)) + fst (xc2 s beta (crv Pa A1 A2 A3 t) (crv Pb B1 B2 B3 t)))
    by (apply functional_extensionality; intros; now rewrite Eu_quadratic).
  apply (derivable_pt_lim_plus (fun t => Lu (c t) + Qu (c t) (c t)) (fun t => fst (xc2 s beta (crv Pa A1 A2 A3 t) (crv Pb B1 B2 B3 t)))); auto.
  apply (quadratic_curve lu oku Lu Qu); try (split; assumption).
  - intros u t v [] []. split; apply csym_line; auto.
  - intros u t v _ _. unfold Lu, lu. cbn [fst snd]. rewrite !Lr_line. ring.
  - intros u t v z [] [] _. unfold Qu. rewrite tot_line, tr_add, tr_scal. unfold lu. cbn [fst snd]. rewrite !QK_line by auto. ring.
  - intros u v Hu Hv. destruct coul_ls as (_ & HS). unfold Qu. rewrite (HS (tot u) (tot v)) by (apply tot_sym; auto).
    destruct Hu, Hv. rewrite (K_symmetric facu 1 ltac:(lra) facu_w (fst u) (fst v)), (K_symmetric facu 1 ltac:(lra) facu_w (snd u) (snd v)) by auto. reflexivity.
Qed.

(* ---------- moving the orbitals ---------- *)

Definition mv (b : block) (dC : mat) (dn : vec) (t : R) : block :=
  mkBlock (b_m b) (fun p i => b_orb b p i + t * dC p i) (fun i => b_occ b i + t * dn i).
Section Move.
Variables (b : block) (dC : mat) (dn : vec).
Let C := mmul n (sa_X s) (b_orb b).
Let c := mmul n (sa_X s) dC.
Let o := b_occ b.
Definition M1 : mat := fun p q => sum (b_m b) (fun i => mmul n (sa_X s) dC p i * b_occ b i * mmul n (sa_X s) (b_orb b) q i +
  mmul n (sa_X s) (b_orb b) p i * dn i * mmul n (sa_X s) (b_orb b) q i + mmul n (sa_X s) (b_orb b) p i * b_occ b i * mmul n (sa_X s) dC q i).
Definition M2 : mat := fun p q => sum (b_m b) (fun i => mmul n (sa_X s) dC p i * b_occ b i * mmul n (sa_X s) dC q i +
  mmul n (sa_X s) dC p i * dn i * mmul n (sa_X s) (b_orb b) q i + mmul n (sa_X s) (b_orb b) p i * dn i * mmul n (sa_X s) dC q i).
Definition M3 : mat := fun p q => sum (b_m b) (fun i => mmul n (sa_X s) dC p i * dn i * mmul n (sa_X s) dC q i).
Lemma move_density t : block_P s (mv b dC dn t) =
  madd (block_P s b) (mscal t (madd M1 (mscal t (madd M2 (mscal t M3))))).
Proof.
  fext. rename x into p, x0 into q. unfold block_P, block_density, mv, madd, mscal, M1, M2, M3. cbn [b_m b_orb b_occ].
  assert (E : forall r i, mmul n (sa_X s) (fun p i => b_orb b p i + t * dC p i) r i = C r i + t * c r i).
  { intros r i. unfold C, c, mmul. rewrite <- sum_scal, <- sum_plus. apply sum_ext. intros; ring. }
  rewrite (sum_ext (b_m b) _ (fun i => (C p i + t * c p i) * (b_occ b i + t * dn i) * (C q i + t * c q i))) by (intros; now rewrite !E).
  fold C c. rewrite <- sum_scal, <- sum_plus, <- sum_scal, <- sum_plus, <- sum_scal, <- sum_plus. apply sum_ext. intros; ring.
Qed.
Lemma M1_sym k : symmetric k M1.
Proof. intros i j _ _. unfold M1. apply sum_ext. intros; ring. Qed.
Lemma M2_sym k : symmetric k M2.
Proof. intros i j _ _. unfold M2. apply sum_ext. intros; ring. Qed.
Lemma M3_sym k : symmetric k M3.
Proof. intros i j _ _. unfold M3. apply sum_ext. intros; ring. Qed.
Lemma bil_ao F u v : element n (sandw s F) u v = bil n F (fun a => sum n (fun p => sa_X s a p * u p)) (fun a => sum n (fun p => sa_X s a p * v p)).
Proof. exact (bil_transform n F (sa_X s) u v). Qed.
Lemma tr_outer m (f g : nat -> vec) (o' : vec) F :
  tr n (fun p q => sum m (fun i => f i p * o' i * g i q)) F = sum m (fun i => o' i * bil n F (g i) (f i)).
Proof.
  unfold tr, bil.
  rewrite (sum_ext n _ (fun p => sum m (fun i => sum n (fun q => f i p * o' i * g i q * F q p)))).
  2:{ intros p Hp. rewrite (sum_swap m n). apply sum_ext. intros q Hq. rewrite <- sum_scal_r. reflexivity. }
  rewrite (sum_swap n m). apply sum_ext. intros i Hi. rewrite (sum_swap n n), <- sum_scal. apply sum_ext. intros q Hq.
  rewrite <- sum_scal. apply sum_ext. intros. ring.
Qed.
Lemma M1_trace F : tr n M1 F = sum (b_m b) (fun i =>
    dn i * element n (sandw s F) (col (b_orb b) i) (col (b_orb b) i) +
    b_occ b i * (element n (sandw s F) (col dC i) (col (b_orb b) i) + element n (sandw s F) (col (b_orb b) i) (col dC i))).
Proof.
  assert (E : M1 = madd (madd (fun p q => sum (b_m b) (fun i => c p i * b_occ b i * C q i)) (fun p q => sum (b_m b) (fun i => C p i * dn i * C q i)))
    (fun p q => sum (b_m b) (fun i => C p i * b_occ b i * c q i))).
  { fext. unfold M1, madd. fold C c. now rewrite <- !sum_plus. }
  rewrite E, !tr_add.
  rewrite (tr_outer _ (fun i p => c p i) (fun i q => C q i)), (tr_outer _ (fun i p => C p i) (fun i q => C q i)), (tr_outer _ (fun i p => C p i) (fun i q => c q i)).
  rewrite <- !sum_plus. apply sum_ext. intros i Hi. rewrite !bil_ao. unfold C, c, mmul, col. ring.
Qed.
End Move.

Lemma block_P_sym b k : symmetric k (block_P s b).
Proof. intros i j _ _. apply block_density_sym. Qed.
Lemma upto_sym (f : cube) : (forall l, symmetric n (f l)) -> csym nb n (upto nb f).
Proof. intros H l Hl. unfold upto. destruct (Nat.ltb_spec l nb); [apply H|lia]. Qed.

Definition N1 (blk : nat -> block) dC dn off : cube := upto nb (fun l => M1 (blk (off + l)%nat) (dC (off + l)%nat) (dn (off + l)%nat)).
Definition N2 (blk : nat -> block) dC dn off : cube := upto nb (fun l => M2 (blk (off + l)%nat) (dC (off + l)%nat) (dn (off + l)%nat)).
Definition N3 (blk : nat -> block) dC dn off : cube := upto nb (fun l => M3 (blk (off + l)%nat) (dC (off + l)%nat) (dn (off + l)%nat)).
Lemma dens_move blk dC dn off t : upto nb (dens s off (move blk dC dn t)) =
  crv (upto nb (dens s off blk)) (N1 blk dC dn off) (N2 blk dC dn off) (N3 blk dC dn off) t.
Proof.
  apply functional_extensionality; intros l. unfold crv, curve, cline, cadd, cscal, N1, N2, N3, upto, dens.
  destruct (Nat.ltb l nb).
  - exact (move_density (blk (off + l)%nat) (dC (off + l)%nat) (dn (off + l)%nat) t).
  - fext. unfold madd, mscal, mzero. ring.
Qed.
Lemma N1_trace blk dC dn off (F : nat -> mat) : sum nb (fun l => tr n (N1 blk dC dn off l) (F l)) =
  sum nb (fun l => sum (b_m (blk (off + l)%nat)) (fun i =>
    dn (off + l)%nat i * element n (sandw s (F l)) (col (b_orb (blk (off + l)%nat)) i) (col (b_orb (blk (off + l)%nat)) i) +
    b_occ (blk (off + l)%nat) i * (element n (sandw s (F l)) (col (dC (off + l)%nat) i) (col (b_orb (blk (off + l)%nat)) i) +
      element n (sandw s (F l)) (col (b_orb (blk (off + l)%nat)) i) (col (dC (off + l)%nat) i)))).
Proof. unfold N1. rewrite (upto_sum s (fun A l => tr n A (F l))). apply sum_ext. intros l Hl. apply M1_trace. Qed.
End Grad.

