(** Gradients, closed shells and guesses of spherically averaged atoms. *)
Require Import Reals ZArith List Bool Arith Lia Lra Permutation FunctionalExtensionality.
Require Import Verif.Prelude Verif.FEModel Verif.AngModel Verif.JKModel Verif.ScfModel Verif.ScfSpec Verif.ScfProofs Verif.SgProofs
  Verif.RsModel Verif.RsSpec Verif.RsProofs Verif.RsGrad.
Import ListNotations.
Local Open Scope R_scope.

Lemma lsum_seq_sum k : forall a (f : nat -> R), lsum (seq a k) f = sum k (fun i => f (a + i)%nat).
Proof.
  induction k; intros a f; [reflexivity|]. cbn [seq lsum]. rewrite IHk, sum_shift. rewrite Nat.add_0_r. f_equal.
  apply sum_ext. intros i _. f_equal. lia.
Qed.

Lemma div_crv P A B C f t : divided_cube (crv P A B C t) f = crv (divided_cube P f) (divided_cube A f) (divided_cube B f) (divided_cube C f) t.
Proof. unfold crv, curve. now rewrite !div_line. Qed.
Lemma ctr_div nb n A B f : ctr nb n (divided_cube A (fun _ => f)) B = ctr nb n A (divided_cube B (fun _ => f)).
Proof.
  unfold ctr. apply sum_ext. intros l _. unfold tr, divided_cube. apply sum_ext. intros i _. apply sum_ext. intros j _. unfold Rdiv. ring.
Qed.
Lemma crv_direction nb n P A B C : direction nb n (crv P A B C) A.
Proof.
  intros l a b _ _ _. unfold crv, curve, cline, cadd, cscal, madd, mscal.
  replace (fun t => P l a b + t * (A l a b + t * (B l a b + t * C l a b))) with
    (fun t => P l a b + t * (A l a b + t * (B l a b + t * (C l a b + t * (0 + t * (0 + t * 0)))))) by (apply functional_extensionality; intros; ring).
  apply deriv_poly.
Qed.
Lemma crv_sym nb n P A B C t : csym nb n P -> csym nb n A -> csym nb n B -> csym nb n C -> csym nb n (crv P A B C t).
Proof. intros. unfold crv, curve. repeat apply csym_line; auto. Qed.
Lemma crv_line P A t : crv P A czero czero t = cadd P (cscal t A).
Proof. fext. unfold crv, curve, cline, cadd, cscal, madd, mscal, czero, mzero. ring. Qed.
Lemma crv_0 P A B C : crv P A B C 0 = P.
Proof. fext. unfold crv, curve, cline, cadd, cscal, madd, mscal. ring. Qed.
Lemma czero_sym nb n : csym nb n czero.
Proof. intros l _ i j _ _. reflexivity. Qed.

Section Main.
Variable s : satom.
Notation n := (sa_n s).
Notation nb := (sa_nb s).
Hypothesis Hs : atom_ok s.
Variables (blk : nat -> block).

Lemma xc1_line P A : csym nb n P -> csym nb n A -> (sa_have_xc s = true -> xc_line1 nb n (sa_xc1 s)) ->
  derivable_pt_lim (fun t => fst (xc1 s (crv P A czero czero t))) 0 (ctr nb n A (snd (xc1 s P))).
Proof.
  intros HP HA HX. unfold xc1. destruct (sa_have_xc s).
  - cbn [fst snd]. rewrite <- ctr_div.
    replace (fun t => fst (sa_xc1 s (divided_cube (crv P A czero czero t) (fun _ => angfac)))) with
      (fun t => fst (sa_xc1 s (cadd (divided_cube P (fun _ => angfac)) (cscal t (divided_cube A (fun _ => angfac)))))).
    + apply HX; auto using csym_div.
    + apply functional_extensionality; intros t. rewrite crv_line. change (cadd P (cscal t A)) with (cline P t A). now rewrite div_line.
  - cbn [fst snd]. unfold ctr. rewrite sum_zero' by (intros; rewrite tr_comm; apply tr_zero). apply derivable_pt_lim_const.
Qed.
Lemma xc1_curve P A B C : csym nb n P -> csym nb n A -> csym nb n B -> csym nb n C -> (sa_have_xc s = true -> xc_curve1 nb n (sa_xc1 s)) ->
  derivable_pt_lim (fun t => fst (xc1 s (crv P A B C t))) 0 (ctr nb n A (snd (xc1 s P))).
Proof.
  intros HP HA HB HC HX. unfold xc1. destruct (sa_have_xc s).
  - cbn [fst snd]. rewrite <- ctr_div. set (f := fun _ : nat => angfac).
    pose proof (HX eq_refl (crv (divided_cube P f) (divided_cube A f) (divided_cube B f) (divided_cube C f)) (divided_cube A f)) as H.
    rewrite crv_0 in H.
    replace (fun t => fst (sa_xc1 s (divided_cube (crv P A B C t) f))) with
      (fun t => fst (sa_xc1 s (crv (divided_cube P f) (divided_cube A f) (divided_cube B f) (divided_cube C f) t)))
      by (apply functional_extensionality; intros t; now rewrite div_crv).
    apply H; [intros; apply crv_sym; auto using csym_div|auto using csym_div|apply crv_direction].
  - cbn [fst snd]. unfold ctr. rewrite sum_zero' by (intros; rewrite tr_comm; apply tr_zero). apply derivable_pt_lim_const.
Qed.
Lemma xc2_line Pa A Pb B : csym nb n Pa -> csym nb n A -> csym nb n Pb -> csym nb n B -> (sa_have_xc s = true -> xc_line2 nb n (sa_xc2 s true)) ->
  derivable_pt_lim (fun t => fst (xc2 s true (crv Pa A czero czero t) (crv Pb B czero czero t))) 0
    (ctr nb n A (fst (snd (xc2 s true Pa Pb))) + ctr nb n B (snd (snd (xc2 s true Pa Pb)))).
Proof.
  intros HPa HA HPb HB HX. unfold xc2. destruct (sa_have_xc s).
  - cbn [fst snd]. rewrite <- !ctr_div.
    replace (fun t => fst (sa_xc2 s true (divided_cube (crv Pa A czero czero t) (fun _ => angfac)) (divided_cube (crv Pb B czero czero t) (fun _ => angfac)))) with
      (fun t => fst (sa_xc2 s true (cadd (divided_cube Pa (fun _ => angfac)) (cscal t (divided_cube A (fun _ => angfac))))
                              (cadd (divided_cube Pb (fun _ => angfac)) (cscal t (divided_cube B (fun _ => angfac)))))).
    + apply HX; auto using csym_div.
    + apply functional_extensionality; intros t. rewrite !crv_line. change (cadd Pa (cscal t A)) with (cline Pa t A).
      change (cadd Pb (cscal t B)) with (cline Pb t B). now rewrite !div_line.
  - cbn [fst snd]. unfold ctr. rewrite !sum_zero' by (intros; rewrite tr_comm; apply tr_zero). rewrite Rplus_0_r. apply derivable_pt_lim_const.
Qed.
Lemma xc2_curve Pa A A2 A3 Pb B B2 B3 : csym nb n Pa -> csym nb n A -> csym nb n A2 -> csym nb n A3 ->
  csym nb n Pb -> csym nb n B -> csym nb n B2 -> csym nb n B3 -> (sa_have_xc s = true -> xc_curve2 nb n (sa_xc2 s true)) ->
  derivable_pt_lim (fun t => fst (xc2 s true (crv Pa A A2 A3 t) (crv Pb B B2 B3 t))) 0
    (ctr nb n A (fst (snd (xc2 s true Pa Pb))) + ctr nb n B (snd (snd (xc2 s true Pa Pb)))).
Proof.
  intros HPa HA HA2 HA3 HPb HB HB2 HB3 HX. unfold xc2. destruct (sa_have_xc s).
  - cbn [fst snd]. rewrite <- !ctr_div. set (f := fun _ : nat => angfac).
    pose proof (HX eq_refl (crv (divided_cube Pa f) (divided_cube A f) (divided_cube A2 f) (divided_cube A3 f))
      (crv (divided_cube Pb f) (divided_cube B f) (divided_cube B2 f) (divided_cube B3 f)) (divided_cube A f) (divided_cube B f)) as H.
    rewrite !crv_0 in H.
    replace (fun t => fst (sa_xc2 s true (divided_cube (crv Pa A A2 A3 t) f) (divided_cube (crv Pb B B2 B3 t) f))) with
      (fun t => fst (sa_xc2 s true (crv (divided_cube Pa f) (divided_cube A f) (divided_cube A2 f) (divided_cube A3 f) t)
          (crv (divided_cube Pb f) (divided_cube B f) (divided_cube B2 f) (divided_cube B3 f) t)))
      by (apply functional_extensionality; intros t; now rewrite !div_crv).
    apply H; [intros; apply crv_sym; auto using csym_div|intros; apply crv_sym; auto using csym_div|auto using csym_div|auto using csym_div|apply crv_direction|apply crv_direction].
  - cbn [fst snd]. unfold ctr. rewrite !sum_zero' by (intros; rewrite tr_comm; apply tr_zero). rewrite Rplus_0_r. apply derivable_pt_lim_const.
Qed.

Lemma dens_csym off : csym nb n (upto nb (dens s off blk)).
Proof. apply upto_sym. intros l. apply block_P_sym. Qed.
Lemma N1_csym dC dn off : csym nb n (N1 s blk dC dn off).
Proof. apply upto_sym. intros l. apply M1_sym. Qed.
Lemma N2_csym dC dn off : csym nb n (N2 s blk dC dn off).
Proof. apply upto_sym. intros l. apply M2_sym. Qed.
Lemma N3_csym dC dn off : csym nb n (N3 s blk dC dn off).
Proof. apply upto_sym. intros l. apply M3_sym. Qed.
Definition still : nat -> mat := fun _ => mzero.
Lemma mmul_zero A : mmul n A mzero = mzero.
Proof. fext. unfold mmul, mzero. apply sum_zero'. intros; ring. Qed.
Lemma N2_still dn off : N2 s blk still dn off = czero.
Proof.
  fext. unfold N2, upto, M2, still, czero, mzero. destruct (Nat.ltb x nb); auto. apply sum_zero'. intros i _.
  change (fun _ _ : nat => 0) with mzero. rewrite mmul_zero. unfold mzero. ring.
Qed.
Lemma N3_still dn off : N3 s blk still dn off = czero.
Proof.
  fext. unfold N3, upto, M3, still, czero, mzero. destruct (Nat.ltb x nb); auto. apply sum_zero'. intros i _.
  change (fun _ _ : nat => 0) with mzero. rewrite mmul_zero. unfold mzero. ring.
Qed.
Lemma move_still dn t : move_occ blk dn t = move blk still dn t.
Proof.
  apply functional_extensionality; intros k. unfold move_occ, move, still. f_equal. fext. unfold mzero. ring.
Qed.
Lemma element_zero F u v : (forall p, u p = 0) \/ (forall p, v p = 0) -> element n F u v = 0.
Proof. intros H. unfold element. apply sum_zero'. intros i _. apply sum_zero'. intros j _. destruct H as [H|H]; rewrite H; ring. Qed.
Lemma predicted_still F dn ks : predicted s F blk still dn ks = orbital_energies s F blk dn ks.
Proof.
  unfold predicted, orbital_energies. apply lsum_ext. intros k _. apply sum_ext. intros i _.
  rewrite !(element_zero _ (col (still k) i)), !(element_zero _ _ (col (still k) i)) by (auto; left + right; intros; reflexivity). ring.
Qed.

(* ---------- restricted ---------- *)
Section Restricted.
Hypothesis Hr : sa_restricted s = true.
Hypothesis Hf : blocks_filled s blk.
Lemma filled_r l : (l < nb)%nat -> (0 < b_m (blk l))%nat.
Proof. intros Hl. apply Hf. unfold nblocks, nparttype. rewrite Hr. lia. Qed.

Lemma restricted_general dC dn : 
  derivable_pt_lim (fun t => fst (xc1 s (crv (upto nb (dens s 0 blk)) (N1 s blk dC dn 0) (N2 s blk dC dn 0) (N3 s blk dC dn 0) t))) 0
    (ctr nb n (N1 s blk dC dn 0) (snd (xc1 s (upto nb (dens s 0 blk))))) ->
  gradient_along s blk (move blk dC dn) (fun F => predicted s F blk dC dn (seq 0 (nblocks s))).
Proof.
  intros HX. exists (fun t => Er s (densr s (move blk dC dn t))), (fun l => Fr s (densr s blk) l).
  assert (E0 : densr s (move blk dC dn 0) = densr s blk).
  { unfold densr. rewrite dens_move. apply crv_0. }
  split; [|split].
  - unfold build_fock. rewrite Hr, E0. apply build_restricted_eval. apply filled_r.
  - intros t. eexists. unfold build_fock. rewrite Hr. apply build_restricted_eval. intros l Hl. cbn [move b_m]. now apply filled_r.
  - pose proof (restricted_curve s Hs (densr s blk) (N1 s blk dC dn 0) (N2 s blk dC dn 0) (N3 s blk dC dn 0) _
      (dens_csym 0) (N1_csym dC dn 0) (N2_csym dC dn 0) (N3_csym dC dn 0) HX eq_refl) as H.
    replace (fun t => Er s (densr s (move blk dC dn t))) with
      (fun t => Er s (crv (densr s blk) (N1 s blk dC dn 0) (N2 s blk dC dn 0) (N3 s blk dC dn 0) t)).
    2:{ apply functional_extensionality; intros t. unfold densr. now rewrite dens_move. }
    rewrite N1_trace in H. unfold predicted. rewrite lsum_seq_sum. unfold nblocks, nparttype. rewrite Hr, Nat.mul_1_l. exact H.
Qed.
Lemma restricted_orbitals dC dn : (sa_have_xc s = true -> xc_curve1 nb n (sa_xc1 s)) ->
  gradient_along s blk (move blk dC dn) (fun F => predicted s F blk dC dn (seq 0 (nblocks s))).
Proof. intros HX. apply restricted_general. apply xc1_curve; auto using dens_csym, N1_csym, N2_csym, N3_csym. Qed.
Lemma restricted_occupations dn : (sa_have_xc s = true -> xc_line1 nb n (sa_xc1 s)) ->
  gradient_along s blk (move_occ blk dn) (fun F => orbital_energies s F blk dn (seq 0 (nblocks s))).
Proof.
  intros HX. replace (move_occ blk dn) with (move blk still dn) by (apply functional_extensionality; intros; now rewrite move_still).
  destruct (restricted_general still dn) as (E & F & H1 & H2 & H3).
  - rewrite N2_still, N3_still. apply xc1_line; auto using dens_csym, N1_csym.
  - exists E, F. split; [exact H1|]. split; [exact H2|]. now rewrite predicted_still in H3.
Qed.
End Restricted.

(* ---------- spin-polarised ---------- *)
Section Unrestricted.
Hypothesis Hr : sa_restricted s = false.
Hypothesis Hf : blocks_filled s blk.
Hypothesis Hb : (0 < sa_nelb s)%nat.
Lemma filled_u l : (l < nb)%nat -> (0 < b_m (blk l))%nat /\ (0 < b_m (blk (nb + l)%nat))%nat.
Proof. intros Hl. split; apply Hf; unfold nblocks, nparttype; rewrite Hr; lia. Qed.
Lemma betat : Nat.ltb 0 (sa_nelb s) = true.
Proof. now apply Nat.ltb_lt. Qed.

Lemma unrestricted_general dC dn :
  derivable_pt_lim (fun t => fst (xc2 s true (crv (densr s blk) (N1 s blk dC dn 0) (N2 s blk dC dn 0) (N3 s blk dC dn 0) t)
      (crv (densb s blk) (N1 s blk dC dn nb) (N2 s blk dC dn nb) (N3 s blk dC dn nb) t))) 0
    (ctr nb n (N1 s blk dC dn 0) (fst (snd (xc2 s true (densr s blk) (densb s blk)))) +
     ctr nb n (N1 s blk dC dn nb) (snd (snd (xc2 s true (densr s blk) (densb s blk))))) ->
  gradient_along s blk (move blk dC dn) (fun F => predicted s F blk dC dn (seq 0 (nblocks s))).
Proof.
  intros HX. exists (fun t => Eu s true (densr s (move blk dC dn t)) (densb s (move blk dC dn t))), (fun k => Fu s true (densr s blk) (densb s blk) k).
  assert (E0 : densr s (move blk dC dn 0) = densr s blk) by (unfold densr; rewrite dens_move; apply crv_0).
  assert (E1 : densb s (move blk dC dn 0) = densb s blk) by (unfold densb; rewrite dens_move; apply crv_0).
  split; [|split].
  - unfold build_fock. rewrite Hr, E0, E1. rewrite build_unrestricted_eval by apply filled_u. now rewrite betat.
  - intros t. eexists. unfold build_fock. rewrite Hr, build_unrestricted_eval, betat by (intros l Hl; cbn [move b_m]; now apply filled_u). reflexivity.
  - pose proof (unrestricted_curve s Hs true (densr s blk) (N1 s blk dC dn 0) (N2 s blk dC dn 0) (N3 s blk dC dn 0)
      (densb s blk) (N1 s blk dC dn nb) (N2 s blk dC dn nb) (N3 s blk dC dn nb) _
      (dens_csym 0) (N1_csym dC dn 0) (N2_csym dC dn 0) (N3_csym dC dn 0) (dens_csym nb) (N1_csym dC dn nb) (N2_csym dC dn nb) (N3_csym dC dn nb) HX eq_refl) as H.
    cbv zeta in H.
    replace (fun t => Eu s true (densr s (move blk dC dn t)) (densb s (move blk dC dn t))) with
      (fun t => Eu s true (crv (densr s blk) (N1 s blk dC dn 0) (N2 s blk dC dn 0) (N3 s blk dC dn 0) t)
         (crv (densb s blk) (N1 s blk dC dn nb) (N2 s blk dC dn nb) (N3 s blk dC dn nb) t)).
    2:{ apply functional_extensionality; intros t. unfold densr, densb. now rewrite !dens_move. }
    rewrite !N1_trace in H. unfold predicted. rewrite lsum_seq_sum. unfold nblocks, nparttype. rewrite Hr.
    replace (2 * nb)%nat with (nb + nb)%nat by lia. rewrite sum_split. cbn [plus].
    match goal with |- derivable_pt_lim _ _ (?x + ?y) => match type of H with derivable_pt_lim _ _ (?x' + ?y') =>
      replace x with x'; [replace y with y'; [exact H|]|] end end.
    + apply sum_ext. intros l Hl. unfold Fu. destruct (Nat.ltb_spec (nb + l) nb); [lia|]. replace (nb + l - nb)%nat with l by lia. reflexivity.
    + apply sum_ext. intros l Hl. unfold Fu. destruct (Nat.ltb_spec l nb); [reflexivity|lia].
Qed.
Lemma unrestricted_orbitals dC dn : (sa_have_xc s = true -> xc_curve2 nb n (sa_xc2 s true)) ->
  gradient_along s blk (move blk dC dn) (fun F => predicted s F blk dC dn (seq 0 (nblocks s))).
Proof. intros HX. apply unrestricted_general. apply xc2_curve; unfold densr, densb; auto using dens_csym, N1_csym, N2_csym, N3_csym. Qed.
Lemma unrestricted_occupations dn : (sa_have_xc s = true -> xc_line2 nb n (sa_xc2 s true)) ->
  gradient_along s blk (move_occ blk dn) (fun F => orbital_energies s F blk dn (seq 0 (nblocks s))).
Proof.
  intros HX. replace (move_occ blk dn) with (move blk still dn) by (apply functional_extensionality; intros; now rewrite move_still).
  destruct (unrestricted_general still dn) as (E & F & H1 & H2 & H3).
  - rewrite !N2_still, !N3_still. apply xc2_line; unfold densr, densb; auto using dens_csym, N1_csym.
  - exists E, F. split; [exact H1|]. split; [exact H2|]. now rewrite predicted_still in H3.
Qed.
End Unrestricted.
End Main.

