(** Alpha-only atoms, closed shells, guesses, frozen occupations, saving and loading. *)
Require Import Reals ZArith List Bool Arith Lia Lra Permutation FunctionalExtensionality.
Require Import Verif.Prelude Verif.FEModel Verif.AngModel Verif.JKModel Verif.ScfModel Verif.ScfSpec Verif.ScfProofs Verif.SgProofs
  Verif.RsModel Verif.RsSpec Verif.RsProofs Verif.RsGrad Verif.RsMain.
Import ListNotations.
Local Open Scope R_scope.

Lemma div_zero f : divided_cube czero f = czero.
Proof. fext. unfold divided_cube, czero, mzero, Rdiv. ring. Qed.

(* ---------- no beta electrons ---------- *)
Section Alpha.
Variable s : satom.
Notation n := (sa_n s).
Notation nb := (sa_nb s).
Hypothesis Hs : atom_ok s.
Variables (blk : nat -> block) (dC : nat -> mat) (dn : nat -> vec).
Hypothesis Hr : sa_restricted s = false.
Hypothesis Hf : blocks_filled s blk.
Hypothesis Hb : sa_nelb s = 0%nat.
Hypothesis Hz : forall k i, (nb <= k)%nat -> b_occ (blk k) i = 0 /\ dn k i = 0.
Lemma densb_zero : densb s blk = czero.
Proof.
  apply functional_extensionality; intros l. unfold densb, upto, dens. destruct (Nat.ltb l nb); [|reflexivity].
  apply density_zero. intros i _. apply Hz. lia.
Qed.
Lemma N1b : N1 s blk dC dn nb = czero.
Proof.
  fext. unfold N1, upto, M1, czero, mzero. destruct (Nat.ltb x nb); [|reflexivity]. apply sum_zero'. intros i _.
  destruct (Hz (nb + x) i ltac:(lia)) as [-> ->]. ring.
Qed.
Lemma N2b : N2 s blk dC dn nb = czero.
Proof.
  fext. unfold N2, upto, M2, czero, mzero. destruct (Nat.ltb x nb); [|reflexivity]. apply sum_zero'. intros i _.
  destruct (Hz (nb + x) i ltac:(lia)) as [-> ->]. ring.
Qed.
Lemma N3b : N3 s blk dC dn nb = czero.
Proof.
  fext. unfold N3, upto, M3, czero, mzero. destruct (Nat.ltb x nb); [|reflexivity]. apply sum_zero'. intros i _.
  destruct (Hz (nb + x)%nat i ltac:(lia)) as [_ ->]. ring.
Qed.
Lemma alpha_orbitals : (sa_have_xc s = true -> xc_curve1 nb n (alpha_xc (sa_xc2 s))) ->
  gradient_along s blk (move blk dC dn) (fun F => predicted s F blk dC dn (seq 0 nb)).
Proof.
  intros HXC.
  assert (Hbt : Nat.ltb 0 (sa_nelb s) = false) by now rewrite Hb.
  assert (Hfl : forall l, (l < nb)%nat -> (0 < b_m (blk l))%nat /\ (0 < b_m (blk (nb + l)%nat))%nat)
    by (intros l Hl; split; apply Hf; unfold nblocks, nparttype; rewrite Hr; lia).
  exists (fun t => Eu s false (densr s (move blk dC dn t)) czero), (fun k => Fu s false (densr s blk) czero k).
  assert (E0 : densr s (move blk dC dn 0) = densr s blk) by (unfold densr; rewrite dens_move; apply crv_0).
  assert (E1 : forall t, densb s (move blk dC dn t) = czero).
  { intros t. unfold densb. rewrite dens_move, N1b, N2b, N3b. fold (densb s blk). rewrite densb_zero.
    fext. unfold crv, curve, cline, cadd, cscal, madd, mscal, czero, mzero. ring. }
  split; [|split].
  - unfold build_fock. rewrite Hr, E0, build_unrestricted_eval, Hbt, densb_zero by apply Hfl. reflexivity.
  - intros t. eexists. unfold build_fock. rewrite Hr, build_unrestricted_eval, Hbt, E1 by (intros l Hl; cbn [move b_m]; now apply Hfl). reflexivity.
  - set (A1 := N1 s blk dC dn 0). set (A2 := N2 s blk dC dn 0). set (A3 := N3 s blk dC dn 0).
    assert (S0 : csym nb n (densr s blk)) by apply dens_csym.
    assert (S1 : csym nb n A1) by apply N1_csym. assert (S2 : csym nb n A2) by apply N2_csym. assert (S3 : csym nb n A3) by apply N3_csym.
    assert (C0 : forall t, crv czero czero czero czero t = czero) by (intros t; fext; unfold crv, curve, cline, cadd, cscal, madd, mscal, czero, mzero; ring).
    assert (HX : derivable_pt_lim (fun t => fst (xc2 s false (crv (densr s blk) A1 A2 A3 t) (crv czero czero czero czero t))) 0
        (ctr nb n A1 (fst (snd (xc2 s false (densr s blk) czero))) + ctr nb n czero (snd (snd (xc2 s false (densr s blk) czero))))).
    { replace (ctr nb n czero _) with 0 by (symmetry; unfold ctr; apply sum_zero'; intros; apply tr_zero).
      rewrite Rplus_0_r. unfold xc2. destruct (sa_have_xc s).
      - cbn [fst snd]. rewrite div_zero, <- ctr_div. set (f := fun _ : nat => angfac).
        pose proof (HXC eq_refl (crv (divided_cube (densr s blk) f) (divided_cube A1 f) (divided_cube A2 f) (divided_cube A3 f)) (divided_cube A1 f)) as H.
        rewrite crv_0 in H.
        replace (fun t => fst (sa_xc2 s false (divided_cube (crv (densr s blk) A1 A2 A3 t) f) (divided_cube (crv czero czero czero czero t) f))) with
          (fun t => fst (alpha_xc (sa_xc2 s) (crv (divided_cube (densr s blk) f) (divided_cube A1 f) (divided_cube A2 f) (divided_cube A3 f) t)))
          by (apply functional_extensionality; intros t; rewrite C0, div_zero, div_crv; reflexivity).
        apply H; [intros; apply crv_sym; auto using csym_div|auto using csym_div|apply crv_direction].
      - cbn [fst snd]. unfold ctr. rewrite sum_zero' by (intros; rewrite tr_comm; apply tr_zero). apply derivable_pt_lim_const. }
    pose proof (unrestricted_curve s Hs false (densr s blk) A1 A2 A3 czero czero czero czero _
      S0 S1 S2 S3 (czero_sym _ _) (czero_sym _ _) (czero_sym _ _) (czero_sym _ _) HX eq_refl) as H.
    cbv zeta in H.
    replace (fun t => Eu s false (densr s (move blk dC dn t)) czero) with
      (fun t => Eu s false (crv (densr s blk) A1 A2 A3 t) (crv czero czero czero czero t)).
    2:{ apply functional_extensionality; intros t. rewrite C0. unfold densr. now rewrite dens_move. }
    unfold A1 in H. rewrite N1_trace in H.
    rewrite (sum_zero' nb (fun l => tr n (czero l) _)) in H by (intros; apply tr_zero). rewrite Rplus_0_r in H.
    unfold predicted. rewrite lsum_seq_sum. cbn [plus].
    match goal with |- derivable_pt_lim _ _ ?x => match type of H with derivable_pt_lim _ _ ?x' => replace x with x'; [exact H|] end end.
    apply sum_ext. intros l Hl. unfold Fu. destruct (Nat.ltb_spec l nb); [reflexivity|lia].
Qed.
End Alpha.

(* ---------- closed shells ---------- *)
Section Closed.
Variables s u : satom.
Hypothesis Hsu : same_atom s u.
Variable blk : nat -> block.
Notation n := (sa_n s).
Notation nb := (sa_nb s).
Hypothesis Hf : blocks_filled s blk.
Hypothesis Hnb : (0 < sa_nelb u)%nat.
Hypothesis Hxc : sa_have_xc s = true -> xc_closed nb n (sa_xc1 s) (sa_xc2 u true).
Definition halfc (P : cube) : cube := cscal (/ 2) P.
Lemma half_block b : block_P u (mkBlock (b_m b) (b_orb b) (fun i => b_occ b i / 2)) = mscal (/ 2) (block_P s b).
Proof.
  destruct Hsu as (_ & _ & E1 & _ & E2 & _). fext. unfold block_P, block_density, mscal. cbn [b_m b_orb b_occ]. rewrite E1, E2, <- sum_scal.
  apply sum_ext. intros. unfold Rdiv. ring.
Qed.
Lemma half_a : densr u (halves nb blk) = halfc (densr s blk).
Proof.
  destruct Hsu as (_ & _ & _ & E & _). apply functional_extensionality; intros l. unfold densr, upto, halfc, cscal, dens. rewrite E.
  destruct (Nat.ltb_spec l nb) as [H|H].
  - unfold halves. cbn [plus]. destruct (Nat.ltb_spec l nb); [|lia]. apply half_block.
  - fext. unfold mscal, mzero. ring.
Qed.
Lemma half_b : densb u (halves nb blk) = halfc (densr s blk).
Proof.
  destruct Hsu as (_ & _ & _ & E & _). apply functional_extensionality; intros l. unfold densr, densb, upto, halfc, cscal, dens. rewrite E.
  destruct (Nat.ltb_spec l nb) as [H|H].
  - unfold halves. cbn [plus]. destruct (Nat.ltb_spec (nb + l) nb); [lia|]. replace (nb + l - nb)%nat with l by lia. apply half_block.
  - fext. unfold mscal, mzero. ring.
Qed.
Lemma half_K P : Kof u facu (halfc P) = Kof s facr P.
Proof.
  destruct Hsu as (_ & _ & _ & _ & _ & _ & _ & _ & _ & E1 & E2 & _ & _ & E3 & E4). unfold Kof, have_exx, hf_exchange. rewrite E1, E2, E3, E4.
  replace (divided_cube (halfc P) facu) with (divided_cube P facr); [reflexivity|].
  fext. unfold divided_cube, halfc, cscal, mscal, facr, facu. field. apply not_0_INR. lia.
Qed.
Lemma half_sum P : madd (csum nb (halfc P)) (csum nb (halfc P)) = csum nb P.
Proof. fext. unfold madd, csum, halfc, cscal, mscal. rewrite sum_scal. field. Qed.
Lemma half_ctr K P : ctr nb n K (halfc P) + ctr nb n K (halfc P) = ctr nb n K P.
Proof.
  unfold ctr, halfc, cscal. rewrite <- sum_plus. apply sum_ext. intros. rewrite tr_scal_r. field.
Qed.
Lemma half_xc P : csym nb n P -> fst (xc2 u true (halfc P) (halfc P)) = fst (xc1 s P) /\
  forall l, (l < nb)%nat -> meq n n (fst (snd (xc2 u true (halfc P) (halfc P))) l) (snd (xc1 s P) l) /\
    meq n n (snd (snd (xc2 u true (halfc P) (halfc P))) l) (snd (xc1 s P) l).
Proof.
  intros HP. destruct Hsu as (_ & _ & _ & _ & _ & _ & _ & _ & _ & _ & _ & E & _). unfold xc1, xc2. rewrite E.
  destruct (sa_have_xc s).
  - cbn [fst snd]. replace (divided_cube (halfc P) (fun _ => angfac)) with (cscal (/ 2) (divided_cube P (fun _ => angfac)))
      by (fext; unfold divided_cube, halfc, cscal, mscal, Rdiv; ring).
    destruct (Hxc eq_refl (divided_cube P (fun _ => angfac)) (csym_div _ _ _ _ HP)) as [H1 H2]. split; [exact H1|].
    intros l Hl. destruct (H2 l Hl) as [H3 H4]. split; intros i j Hi Hj; unfold divided_cube at 1 4; [rewrite H3 by auto|rewrite H4 by auto]; reflexivity.
  - cbn [fst snd]. split; [reflexivity|]. intros l _. split; intros i j _ _; reflexivity.
Qed.
Lemma closed_shells : exists E F F', build_fock s blk = Ok (E, F) /\ build_fock u (halves nb blk) = Ok (E, F') /\
  forall l, (l < nb)%nat -> meq n n (F' l) (F l) /\ meq n n (F' (nb + l)%nat) (F l).
Proof.
  pose proof half_a as Ha. pose proof half_b as Hb'. pose proof half_K as HK. pose proof half_xc as HX.
  destruct Hsu as (R1 & R2 & E1 & E2 & E3 & E4 & E5 & E6 & E7 & E8 & E9 & E10 & E11 & E12 & E13).
  exists (Er s (densr s blk)), (Fr s (densr s blk)), (Fu u true (halfc (densr s blk)) (halfc (densr s blk))).
  assert (HP : csym nb n (densr s blk)) by apply dens_csym.
  destruct (HX _ HP) as [X1 X2].
  split; [|split].
  - unfold build_fock. rewrite R1. apply build_restricted_eval. intros l Hl. apply Hf. unfold nblocks, nparttype. rewrite R1. lia.
  - unfold build_fock. rewrite R2, build_unrestricted_eval.
    + apply Nat.ltb_lt in Hnb. rewrite Hnb, Ha, Hb'. f_equal. f_equal. unfold Eu, Er. rewrite X1, HK, E1, E2, half_sum.
      assert (Hham : forall l, ham u l = ham s l) by (intros; unfold ham, kin, confm; now rewrite E4, E5, E6, E7).
      assert (Hc : coul u = coul s) by (unfold coul; now rewrite E11). rewrite Hc, half_ctr.
      rewrite (sum_ext nb (fun l => tr n (halfc (densr s blk) l) (ham u l) + tr n (halfc (densr s blk) l) (ham u l)) (fun l => tr n (densr s blk l) (ham s l))); [reflexivity|].
      intros l _. rewrite Hham. unfold halfc, cscal. rewrite tr_scal. field.
    + rewrite E2. intros l Hl. unfold halves. destruct (Nat.ltb_spec l nb); [|lia]. destruct (Nat.ltb_spec (nb + l) nb); [lia|]. cbn [b_m].
      replace (nb + l - nb)%nat with l by lia. split; apply Hf; unfold nblocks, nparttype; rewrite R1; lia.
  - intros l Hl. destruct (X2 l Hl) as [X3 X4].
    assert (SW : forall A B, meq n n A B -> meq n n (sandw u A) (sandw s B)).
    { intros A B HAB i j Hi Hj. unfold sandw. rewrite E1, E3. apply mmul_l. intros k Hk. apply mmul_r. intros r Hr'. now apply HAB. }
    assert (Hham : forall l, ham u l = ham s l) by (intros; unfold ham, kin, confm; now rewrite E4, E5, E6, E7).
    assert (Hc : coul u = coul s) by (unfold coul; now rewrite E11).
    unfold Fu, Fr. rewrite E2, half_sum, HK, Hc. destruct (Nat.ltb_spec l nb); [|lia]. destruct (Nat.ltb_spec (nb + l) nb); [lia|].
    replace (nb + l - nb)%nat with l by lia. split; apply SW; intros i j Hi Hj; unfold fao, madd; rewrite Hham; [rewrite X3|rewrite X4]; auto.
Qed.
End Closed.
