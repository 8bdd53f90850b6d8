(** The overlap of two diatomic bases. *)
Require Import Reals ZArith List Bool Arith Lia Lra Permutation.
Require Import Verif.Prelude Verif.AngModel Verif.AngSpec Verif.AngProofs Verif.JKModel Verif.JKSpec Verif.GauntModel Verif.GauntSpec Verif.GauntProofs
  Verif.TwoDModel Verif.TwoDSpec Verif.TwoDProofs Verif.DiaModel Verif.DiaSpec Verif.DiaProofs Verif.OeModel Verif.OeSpec Verif.OeBlocks Verif.OeAng Verif.OeDia.
Import ListNotations.
Local Open Scope R_scope.

Lemma dia_table_sizes sh leg : shells_ok sh -> let '(lr, mid, mc) := diatomic_gaunt sh leg in
  (zmax_list (map fst sh) + 2 <= lr /\ 5 <= mid /\
   mc = 2 * Z.max (Z.abs (zmax_list (map snd sh))) (Z.abs (zmin_list (map snd sh))))%Z.
Proof. intros _. unfold diatomic_gaunt. destruct leg; lia. Qed.

(** The table of one basis answers the cos^2 coupling to any shell of another. *)
Lemma cross_table sh leg eval : shells_ok sh -> generator_ok eval ->
  let '(lr, mid, mc) := diatomic_gaunt sh leg in
  exists g, gaunt_table eval lr mid lr mc = Ok g /\
  forall li lj m, In (li, m) sh -> (Z.abs m <= lj)%Z ->
    coupling cos2_terms g lj m li m = Ok (exact_coupling eval cos2_terms lj m li m).
Proof.
  intros Hsh Hg. pose proof (dia_table_sizes sh leg Hsh) as Hs. destruct (diatomic_gaunt sh leg) as [[lr mid] mc].
  destruct Hs as (S1 & S2 & S3). destruct Hsh as [Hne Hin].
  assert (H0 : (0 <= zmax_list (map fst sh))%Z).
  { destruct sh as [|[l m] r]; [congruence|]. pose proof (Hin l m (or_introl eq_refl)).
    pose proof (zmax_list_ge (map fst ((l, m) :: r)) l (or_introl eq_refl)). lia. }
  destruct (gaunt_exact_ok eval lr mid lr mc Hg) as (g & E & Hex); try lia. exists g. split; [exact E|].
  intros li lj m Hi Hj.
  assert (B : (li <= zmax_list (map fst sh))%Z) by (apply zmax_list_ge; now apply (in_map fst) in Hi).
  assert (Bm : (Z.abs m <= Z.max (Z.abs (zmax_list (map snd sh))) (Z.abs (zmin_list (map snd sh))))%Z).
  { apply mabs_ge. now apply (in_map snd) in Hi. }
  pose proof (Hin li m Hi) as Hm.
  assert (C : forall L, (0 <= L <= 2)%Z -> coeff g lj m L 0 li = Ok (gaunt_coefficient eval lj m L 0 li m)).
  { intros L HL. destruct (Z_le_gt_dec lj lr) as [Hl|Hl].
    - rewrite Hex; [f_equal; f_equal; lia|unfold in_range; lia|lia|lia|unfold within_cap; lia|lia].
    - destruct (gaunt_total_ok eval lr mid lr mc g lj m L 0 li Hg) as (_ & _ & _ & Hz); try lia; auto.
      rewrite Hz by (unfold in_range; lia). f_equal. symmetry. apply gaunt_zero; auto. lia. }
  unfold coupling. rewrite Z.eqb_refl. cbn [negb]. unfold cos2_terms. cbn [fold_left fst snd].
  rewrite !C by lia. rewrite !rscal_ok, radd_ok. f_equal. unfold exact_coupling. cbn [lsum fst snd]. ring.
Qed.

Lemma pure_lt b r : In r (pure_indices (db_sh b) (lnbf (db_lay b))) -> (r < length (db_sh b) * lnbf (db_lay b))%nat.
Proof. rewrite pure_indices_positions. apply surv_lt. Qed.

Section Cross.
Variables (b rh : done) (okr : (R -> R) -> Prop) (rad : nat -> nat -> (R -> R) -> R) (E : integral_of) (cross : nat -> res dmat).
Hypothesis Hb : done_ok b.
Hypothesis Hrh : done_ok rh.
Hypothesis HE : one_electron_integrals (db_eval (do_b b)) (do_sh b) (do_sh rh) (do_N b) (do_N rh) okr rad E.
Hypothesis Hr : forall q, q = 0%nat \/ q = 2%nat -> okr (sinh_cosh 1 q) /\
  is_dmat (cross q) (do_N b) (do_N rh) (fun a c => rad a c (sinh_cosh 1 q)).

Let Rh := db_Rhalf (do_b b).
Let l := l_of (do_sh b).
Let m := m_of (do_sh b).
Let l' := l_of (do_sh rh).
Let m' := m_of (do_sh rh).

Theorem cross_overlap_ok : is_dmat (do_cross_overlap b rh cross) (dia_size (do_b b)) (dia_size (do_b rh)) (fun u v =>
  E (sh_ix (do_b b) u) (rad_ix (do_b b) u) (sh_ix (do_b rh) v) (rad_ix (do_b rh) v) (volume Rh)).
Proof.
  unfold do_cross_overlap.
  destruct (Hr 0%nat (or_introl eq_refl)) as (K0 & I10 & -> & R10 & C10 & V10).
  destruct (Hr 2%nat (or_intror eq_refl)) as (K2 & I12 & -> & R12 & C12 & V12). cbn [bind].
  destruct Hb as (Hsh & Hg & _ & _ & HN). destruct Hrh as (Hsh' & _ & _ & _ & HN').
  pose proof (cross_table (do_sh b) (do_legendre b) (db_eval (do_b b)) Hsh Hg) as Ht. unfold do_gaunt.
  destruct (diatomic_gaunt (do_sh b) (do_legendre b)) as [[lr mid] mc]. destruct Ht as (g & -> & Hc). cbn [bind].
  set (X := fun i j => exact_coupling (db_eval (do_b b)) cos2_terms (l' j) (m' j) (l i) (m i)).
  destruct (pairs_fold (do_n b) (do_N b) (do_n rh) (do_N rh) (fun S p => let '(iang, jang) := p in
    let '(li, mi) := shell (do_sh b) iang in let '(lj, mj) := shell (do_sh rh) jang in
    if (mi =? mj)%Z then
      bind (if (li =? lj)%Z then block_set S (iang * do_N b) (jang * do_N rh) (do_N b) (do_N rh) I12 else Ok S) (fun S =>
      bind (coupling cos2_terms g lj mj li mi) (fun cpl =>
      when_nonzero cpl S (fun S => block_add S (iang * do_N b) (jang * do_N rh) (do_N b) (do_N rh) (dscale (- cpl) I10))))
    else Ok S)
    (fun i j a c v => if (m i =? m' j)%Z then (if (l i =? l' j)%Z then dent I12 a c else v) + X i j * (-1 * dent I10 a c) else v)
    (shell_pairs (do_n b) (do_n rh)) (Permutation_refl _)) with (M := dzero (do_n b * do_N b) (do_n rh * do_N rh)) as (M & EM & [D1 D2] & V).
  - intros i j Hi Hj. rewrite !shell_eq. fold (l i) (m i) (l' j) (m' j).
    destruct (Z.eqb_spec (m i) (m' j)) as [Em|Em]; [|apply op_id].
    eapply op_seq.
    + apply (op_if _ _ _ _ i j (l i =? l' j)%Z (fun S => block_set S (i * do_N b) (j * do_N rh) (do_N b) (do_N rh) I12)); [now apply op_set|apply op_id].
    + eapply op_eq.
      * intros M. rewrite Em. rewrite Hc; [cbn [bind]; reflexivity| |].
        -- rewrite <- Em. apply shell_in. exact Hi.
        -- unfold m', l'. apply (shell_bounds (do_sh rh) Hsh' j Hj).
      * apply op_when. eapply op_ext; [apply op_add; auto|]. intros. cbn [dent dscale]. unfold mscal. cbn beta. instantiate (1 := fun a c => -1 * dent I10 a c). cbn beta. ring.
    + intros. cbn beta. unfold X. rewrite Em. destruct (l i =? l' j)%Z; reflexivity.
  - apply dims_zero.
  - rewrite EM. cbn [bind]. cbv zeta. cbn [drows dcols dscale]. rewrite D1, D2.
    assert (F1 : forallb (fun r => Nat.ltb r (do_n b * do_N b)) (pure_indices (do_sh b) (do_N b)) = true).
    { apply forallb_forall. intros r Hin. apply Nat.ltb_lt. now apply (pure_lt (do_b b)). }
    assert (F2 : forallb (fun r => Nat.ltb r (do_n rh * do_N rh)) (pure_indices (do_sh rh) (do_N rh)) = true).
    { apply forallb_forall. intros r Hin. apply Nat.ltb_lt. now apply (pure_lt (do_b rh)). }
    rewrite F1, F2. cbn [andb]. eexists. split; [reflexivity|]. cbn [drows dcols dent]. rewrite !pure_indices_positions.
    split; [reflexivity|]. split; [reflexivity|]. intros u v Hu Hv.
    destruct (sh_rad (do_b b) u HN Hu) as (A1 & A2 & A3). destruct (sh_rad (do_b rh) v HN' Hv) as (B1 & B2 & B3).
    change (positions survives (all_functions (do_sh b) (do_N b))) with (survivors (do_b b)).
    change (positions survives (all_functions (do_sh rh) (do_N rh))) with (survivors (do_b rh)).
    rewrite A3, B3. cbn [dent dscale]. unfold mscal. change (lnbf (db_lay (do_b b))) with (do_N b) in *. change (lnbf (db_lay (do_b rh))) with (do_N rh) in *. rewrite V by auto.
    set (i := sh_ix (do_b b) u) in *. set (j := sh_ix (do_b rh) v) in *. set (a := rad_ix (do_b b) u) in *. set (c := rad_ix (do_b rh) v) in *.
    destruct (HE i j A1 B1) as (ang & Hang & Hsep). fold (l i) (m i) (l' j) (m' j) in Hang.
    rewrite (Hsep a c A2 B2 [(Rh ^ 3, (sinh_cosh 1 2, fun _ => 1)); (- Rh ^ 3, (sinh_cosh 1 0, fun x => x ^ 2))]).
    + cbn [lsum fst snd]. rewrite (ang_one _ _ _ _ _ ang Hang).
      rewrite (ang_coupling _ _ _ _ _ ang Hang cos2_terms (fun x => x ^ 2) one_electron_2) by (intros x; now rewrite (proj1 (proj2 (expansions x)))).
      cbn [dent dzero]. unfold mzero. fold Rh. rewrite V10, V12 by auto. unfold X.
      destruct (Z.eqb_spec (m i) (m' j)); [|rewrite andb_false_r; ring]. rewrite andb_true_r. destruct (Z.eqb_spec (l i) (l' j)); ring.
    + intros k q h [Et|[Et|[]]]; inversion Et; subst; split; auto; [apply (poly_const 1)|apply (poly_pow 2)].
    + intros mu x _ _. cbn [lsum fst snd]. rewrite !sc1. unfold volume. ring.
Qed.
End Cross.
