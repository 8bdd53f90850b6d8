(** The one-electron matrices of the atomic basis. *)
Require Import Reals ZArith List Bool Arith Lia Lra Permutation.
Require Import Verif.Prelude Verif.AngModel Verif.AngSpec Verif.AngProofs Verif.JKModel Verif.JKSpec Verif.JKProofs Verif.GauntModel Verif.GauntSpec Verif.GauntProofs
  Verif.TwoDModel Verif.TwoDSpec Verif.TwoDProofs Verif.DiaModel Verif.DiaProofs Verif.OeModel Verif.OeSpec Verif.OeBlocks Verif.OeAng Verif.OeDia.
Import ListNotations.
Local Open Scope R_scope.

Lemma same_index sh i j : NoDup sh -> (i < length sh)%nat -> (j < length sh)%nat -> same_shell sh sh i j = Nat.eqb i j.
Proof.
  intros ND Hi Hj. unfold same_shell. destruct (Nat.eqb_spec i j) as [->|Hne]; [now rewrite !Z.eqb_refl|].
  destruct (Z.eqb_spec (l_of sh i) (l_of sh j)) as [El|]; [|reflexivity].
  destruct (Z.eqb_spec (m_of sh i) (m_of sh j)) as [Em|]; [|reflexivity]. exfalso. apply Hne.
  apply (proj1 (NoDup_nth sh (0, 0)%Z) ND i j Hi Hj).
  unfold l_of in El. unfold m_of in Em. rewrite (surjective_pairing (nth i _ _)), (surjective_pairing (nth j _ _)). congruence.
Qed.

Lemma diagonal_ok n N Mrad : drows Mrad = N -> dcols Mrad = N ->
  is_shell_matrix (diagonal_blocks n N Mrad) n N (fun i a j c => if Nat.eqb i j then dent Mrad a c else 0).
Proof.
  intros RM CM. unfold diagonal_blocks.
  destruct (diag_fold n N (fun M i => set_sub N M i i Mrad) (fun _ a c _ => dent Mrad a c)) with (M := dzero (n * N) (n * N)) as (M & E & [D1 D2] & V).
  - intros i Hi. now apply op_set.
  - apply dims_zero.
  - exists M. split; [exact E|]. split; [exact D1|]. split; [exact D2|]. intros. now rewrite V by auto.
Qed.

Lemma set_scaled n N i j k X : (i < n)%nat -> (j < n)%nat -> drows X = N -> dcols X = N ->
  op_at n N n N i j (fun M => set_sub N M i j (dscale k X)) (fun a c _ => k * dent X a c).
Proof. intros Hi Hj RX CX. exact (op_set n N n N i j (dscale k X) Hi Hj RX CX). Qed.
Lemma add_scaled n N i j k X : (i < n)%nat -> (j < n)%nat -> drows X = N -> dcols X = N ->
  op_at n N n N i j (fun M => add_sub N M i j (dscale k X)) (fun a c v => v + k * dent X a c).
Proof. intros Hi Hj RX CX. exact (op_add n N n N i j (dscale k X) Hi Hj RX CX). Qed.

Section At.
Variable b : aone.
Hypothesis Hb : aone_ok b.
Let n := ao_n b.
Let N := ao_N b.
Let l := l_of (ao_sh b).
Let m := m_of (ao_sh b).

Lemma radial_ready acc f : adds_up (ao_lay b) acc f ->
  exists M, assemble_radial_diagonal (ao_lay b) acc = Ok M /\ drows M = N /\ dcols M = N /\
  forall a c, (a < N)%nat -> (c < N)%nat -> dent M a c = f a c.
Proof. intros H. destruct Hb as (_ & _ & Hf). exact (assemble_radial_ok (ao_lay b) acc f Hf H). Qed.

(* ---------- operators that do not depend on the angles ---------- *)

Theorem model_potential_ok acc f : NoDup (ao_sh b) -> adds_up (ao_lay b) acc f ->
  is_shell_matrix (ao_model_potential b acc) n N (fun i a j c => if same_shell (ao_sh b) (ao_sh b) i j then f a c else 0).
Proof.
  intros ND H. unfold ao_model_potential. destruct (radial_ready acc f H) as (M & -> & RM & CM & VM). cbn [bind].
  destruct (diagonal_ok n N M RM CM) as (V & E & R1 & C1 & VV). exists V. split; [exact E|]. split; [exact R1|]. split; [exact C1|].
  intros i a j c Hi Ha Hj Hc. rewrite VV by auto. rewrite same_index by auto. destruct (Nat.eqb i j); auto.
Qed.

Theorem confinement_ok iconf acc f : NoDup (ao_sh b) -> (iconf <> 0%Z -> adds_up (ao_lay b) acc f) ->
  is_shell_matrix (ao_confinement b iconf acc) n N
    (fun i a j c => if (negb (iconf =? 0)%Z && same_shell (ao_sh b) (ao_sh b) i j)%bool then f a c else 0).
Proof.
  intros ND H. unfold ao_confinement. destruct (Z.eqb_spec iconf 0) as [E|E]; cbn [negb andb].
  - exists (ao_zero b). split; [reflexivity|]. split; [reflexivity|]. split; reflexivity.
  - exact (model_potential_ok acc f ND (H E)).
Qed.

Theorem kinetic_at_ok K C : NoDup (ao_sh b) -> adds_up (ao_lay b) (ao_kin b) K -> adds_up (ao_lay b) (ao_kinl b) C ->
  is_shell_matrix (ao_kinetic b) n N (fun i a j c =>
    if same_shell (ao_sh b) (ao_sh b) i j then K a c + IZR (l i * (l i + 1)) * C a c else 0).
Proof.
  intros ND HK HC. unfold ao_kinetic. destruct (radial_ready _ _ HK) as (Tr & -> & R1 & C1 & V1). cbn [bind].
  destruct (radial_ready _ _ HC) as (Tl & -> & R2 & C2 & V2). cbn [bind].
  destruct (diag_fold n N (fun Tm iang => let '(l, _) := shell (ao_sh b) iang in
      bind (set_sub (ao_N b) Tm iang iang Tr) (fun Tm =>
      if (0 <? l)%Z then add_sub (ao_N b) Tm iang iang (dscale (IZR (l * (l + 1))) Tl) else Ok Tm))
    (fun i a c _ => dent Tr a c + IZR (l i * (l i + 1)) * dent Tl a c)) with (M := ao_zero b) as (M & E & [D1 D2] & V).
  - intros i Hi. rewrite shell_eq. fold (l i).
    apply (op_seq n N n N i i (fun Tm => set_sub N Tm i i Tr) _ (fun a c _ => dent Tr a c)
      (fun a c v => v + IZR (l i * (l i + 1)) * dent Tl a c)); [now apply op_set| |reflexivity].
    destruct (Z.ltb_spec 0 (l i)) as [Hl|Hl]; [now apply op_add|].
    apply (op_ext n N n N i i _ (fun _ _ v => v)); [apply op_id|]. intros.
    destruct Hb as (Hsh & _). pose proof (shell_bounds (ao_sh b) Hsh i Hi) as (B & _). fold (l i) in B.
    replace (l i) with 0%Z by lia. simpl Z.mul. ring.
  - apply dims_zero.
  - exists M. split; [exact E|]. split; [exact D1|]. split; [exact D2|]. intros i a j c Hi Ha Hj Hc. rewrite V by auto.
    rewrite same_index by auto. destruct (Nat.eqb i j); [|reflexivity]. now rewrite V1, V2 by auto.
Qed.

Theorem cross_at_ok rh Sr f : is_dmat Sr (ao_N b) (ao_N rh) f ->
  exists M, ao_cross_overlap b rh Sr = Ok M /\ drows M = (n * N)%nat /\ dcols M = (ao_n rh * ao_N rh)%nat /\
  forall i a j c, (i < n)%nat -> (a < N)%nat -> (j < ao_n rh)%nat -> (c < ao_N rh)%nat ->
    dent M (fn N i a) (fn (ao_N rh) j c) = if same_shell (ao_sh b) (ao_sh rh) i j then f a c else 0.
Proof.
  intros (S & -> & RS & CS & VS). unfold ao_cross_overlap. cbn [bind].
  destruct (pairs_fold n N (ao_n rh) (ao_N rh) (fun S0 p => let '(iang, jang) := p in
    let '(li, mi) := shell (ao_sh b) iang in let '(lj, mj) := shell (ao_sh rh) jang in
    if ((li =? lj) && (mi =? mj))%bool%Z
    then block_set S0 (iang * ao_N b) (jang * ao_N rh) (ao_N b) (ao_N rh) S else Ok S0)
    (fun i j a c v => if same_shell (ao_sh b) (ao_sh rh) i j then dent S a c else v)
    (shell_pairs n (ao_n rh)) (Permutation_refl _)) with (M := dzero (n * N) (ao_n rh * ao_N rh)) as (M & E & [D1 D2] & V).
  - intros i j Hi Hj. rewrite !shell_eq. fold (same_shell (ao_sh b) (ao_sh rh) i j).
    destruct (same_shell (ao_sh b) (ao_sh rh) i j); [now apply op_set|apply op_id].
  - apply dims_zero.
  - exists M. split; [exact E|]. split; [exact D1|]. split; [exact D2|]. intros i a j c Hi Ha Hj Hc. rewrite V by auto.
    destruct (same_shell _ _ i j); [now apply VS|reflexivity].
Qed.

(* ---------- operators with an angular part ---------- *)

Variables (Rh : R) (okr : (R -> R) -> Prop) (rad : nat -> nat -> (R -> R) -> R) (E : integral_of).
Hypothesis HE : one_electron_integrals (ao_eval b) (ao_sh b) (ao_sh b) (ao_N b) (ao_N b) okr rad E.
Hypothesis Hr : atomic_radial b Rh okr rad.

Lemma power_ready k : (-1 <= k <= 2)%Z -> okr (fun r => powerRZ r k) /\
  exists M, assemble_radial_diagonal (ao_lay b) (ao_int b k) = Ok M /\ drows M = N /\ dcols M = N /\
  forall a c, (a < N)%nat -> (c < N)%nat -> dent M a c = rad a c (fun r => powerRZ r k).
Proof. intros Hk. destruct (proj1 Hr k Hk) as [H1 H2]. split; [exact H1|]. now apply radial_ready. Qed.

Lemma ao_gaunt_ready k : (0 <= k)%Z -> exists g, ao_gaunt b k = Ok g /\
  (forall i j L, (i < n)%nat -> (j < n)%nat -> (0 <= L <= k)%Z -> m i = m j ->
     coeff g (l j) (m j) L 0 (l i) = Ok (gaunt_coefficient (ao_eval b) (l j) (m j) L 0 (l i) (m i))) /\
  (forall terms i j, one_electron terms -> (forall t, In t terms -> (snd t <= k)%Z) -> (i < n)%nat -> (j < n)%nat ->
     coupling terms g (l j) (m j) (l i) (m i) = Ok (if (m i =? m j)%Z then exact_coupling (ao_eval b) terms (l j) (m j) (l i) (m i) else 0)).
Proof.
  intros Hk. destruct Hb as (Hsh & Hg & _). destruct (atomic_couplings_ok (ao_eval b) (ao_sh b) k Hg Hsh Hk) as (g & Eg & H1 & H2).
  exists g. split; [exact Eg|]. split.
  - intros i j L Hi Hj HL Hm. pose proof (H1 _ _ _ _ L (shell_in _ i Hi) (shell_in _ j Hj) HL) as Hc.
    fold (l i) (m i) (l j) (m j) in Hc. rewrite Hm, Z.sub_diag in Hc. rewrite Hm. apply Hc. simpl. lia.
  - intros terms i j Ht Hk' Hi Hj. apply H2; auto; now apply shell_in.
Qed.

Lemma pairs_shell (f : dmat -> nat * nat -> res dmat) (tr : nat -> nat -> nat -> nat -> R -> R) (F : nat -> nat -> nat -> nat -> R) :
  (forall i j, (i < n)%nat -> (j < n)%nat -> op_at n N n N i j (fun M => f M (i, j)) (tr i j)) ->
  (forall i a j c, (i < n)%nat -> (a < N)%nat -> (j < n)%nat -> (c < N)%nat -> tr i j a c 0 = F i a j c) ->
  is_shell_matrix (fold_res f (shell_pairs (ao_n b) (ao_n b)) (ao_zero b)) n N F.
Proof.
  intros H1 H2. destruct (pairs_fold n N n N f tr (shell_pairs n n) (Permutation_refl _) H1 (ao_zero b) (dims_zero n N n N)) as (M & EM & [D1 D2] & V).
  exists M. split; [exact EM|]. split; [exact D1|]. split; [exact D2|]. intros. rewrite V by auto. now apply H2.
Qed.

Lemma E_one k f i a j c g h q : (i < n)%nat -> (a < N)%nat -> (j < n)%nat -> (c < N)%nat -> okr g ->
  (forall r x, 0 < r -> -1 <= x <= 1 -> f r x = k * (g r * h x)) -> polynomial h ->
  (forall ang, angular_integral (ao_eval b) (l i) (m i) (l j) (m j) ang -> ang h = q) ->
  E i a j c f = k * (rad a c g * q).
Proof.
  intros Hi Ha Hj Hc Hg Hf Hp Hq. destruct (HE i j Hi Hj) as (ang & Hang & Hsep). rewrite (Hsep a c Ha Hc [(k, (g, h))]).
  - cbn [lsum fst snd]. rewrite (Hq ang Hang). ring.
  - intros k' g' h' [Et|[]]. inversion Et; subst. auto.
  - intros r x Hr' Hx. cbn [lsum fst snd]. rewrite Hf by auto. ring.
Qed.

Theorem overlap_at_ok : NoDup (ao_sh b) -> is_shell_matrix (ao_overlap b) n N (fun i a j c => E i a j c (fun _ _ => 1)).
Proof.
  intros ND. unfold ao_overlap. destruct (power_ready 0 ltac:(lia)) as (H0 & M & -> & RM & CM & VM). cbn [bind].
  destruct (diagonal_ok n N M RM CM) as (V & EV & R1 & C1 & VV). exists V. split; [exact EV|]. split; [exact R1|]. split; [exact C1|].
  intros i a j c Hi Ha Hj Hc. rewrite VV by auto.
  rewrite (E_one 1 _ i a j c (fun r => powerRZ r 0) (fun _ => 1) (if same_shell (ao_sh b) (ao_sh b) i j then 1 else 0)); auto.
  - rewrite same_index by auto. destruct (Nat.eqb i j); [rewrite VM by auto|]; ring.
  - intros. rewrite powerRZ_O. ring.
  - apply (poly_const 1).
  - intros ang Hang. exact (ang_one _ _ _ _ _ ang Hang).
Qed.

Theorem dipole_at_ok : is_shell_matrix (ao_dipole_z b) n N (fun i a j c => E i a j c (fun r x => r * x)).
Proof.
  unfold ao_dipole_z. destruct (power_ready 1 ltac:(lia)) as (H1 & M & -> & RM & CM & VM). cbn [bind].
  destruct (ao_gaunt_ready 1 ltac:(lia)) as (g & -> & _ & Hg). cbn [bind].
  apply pairs_shell with (tr := fun i j a c v => let cpl := if (m i =? m j)%Z then exact_coupling (ao_eval b) cos1_terms (l j) (m j) (l i) (m i) else 0 in
     if Reqb cpl 0 then v else cpl * dent M a c).
  - intros i j Hi Hj. cbv zeta. rewrite !shell_eq. fold (l i) (m i) (l j) (m j). rewrite Hg; auto using one_electron_1.
    2:{ intros t [<-|[]]. simpl. lia. }
    cbn [bind]. unfold when_nonzero. destruct (Reqb _ 0); [apply op_id|]. exact (set_scaled n N i j _ M Hi Hj RM CM).
  - intros i a j c Hi Ha Hj Hc. cbv zeta.
    rewrite (E_one 1 _ i a j c (fun r => powerRZ r 1) (fun x => x) (if (m i =? m j)%Z then exact_coupling (ao_eval b) cos1_terms (l j) (m j) (l i) (m i) else 0)); auto.
    + rewrite <- VM by auto. destruct (Reqb_spec (if (m i =? m j)%Z then exact_coupling (ao_eval b) cos1_terms (l j) (m j) (l i) (m i) else 0) 0) as [->|_]; ring.
    + intros. rewrite powerRZ_1. ring.
    + apply (poly_ext (fun x => x ^ 1)); [intros; simpl; ring|apply poly_pow].
    + intros ang Hang. apply (ang_coupling _ _ _ _ _ ang Hang cos1_terms); [apply one_electron_1|]. intros x. now rewrite (proj1 (expansions x)).
Qed.

Lemma Y2_factor x : 2 / 5 * sqrt (5 * PI) * Y_ 2 x = P_ 2 x.
Proof.
  unfold Y_. rewrite <- Rmult_assoc. replace (2 / 5 * sqrt (5 * PI) * sqrt ((2 * INR 2 + 1) / (4 * PI))) with 1; [ring|].
  pose proof PI_RGT_0. rewrite Rmult_assoc, <- sqrt_mult_alt by lra.
  replace (5 * PI * ((2 * INR 2 + 1) / (4 * PI))) with ((5 / 2) * (5 / 2)) by (simpl; field; lra). rewrite sqrt_square by lra. field.
Qed.

Theorem quadrupole_at_ok : is_shell_matrix (ao_quadrupole_zz b) n N (fun i a j c => E i a j c (fun r x => r ^ 2 * ((3 * x ^ 2 - 1) / 2))).
Proof.
  unfold ao_quadrupole_zz. destruct (power_ready 2 ltac:(lia)) as (H1 & M & -> & RM & CM & VM). cbn [bind].
  destruct (ao_gaunt_ready 2 ltac:(lia)) as (g & -> & Hg & _). cbn [bind].
  apply pairs_shell with (tr := fun i j a c v => let cpl := if (m i =? m j)%Z then gaunt_coefficient (ao_eval b) (l j) (m j) 2 0 (l i) (m i) else 0 in
     if Reqb cpl 0 then v else cpl * (2 / 5 * sqrt (5 * PI)) * dent M a c).
  - intros i j Hi Hj. cbv zeta. rewrite !shell_eq. fold (l i) (m i) (l j) (m j). rewrite (Z.eqb_sym (m j)).
    destruct (Z.eqb_spec (m i) (m j)) as [Em|Em]; cbn [negb].
    + rewrite Hg by (auto; lia). cbn [bind]. unfold when_nonzero. destruct (Reqb _ 0); [apply op_id|]. exact (set_scaled n N i j _ M Hi Hj RM CM).
    + destruct (Reqb_spec 0 0); [apply op_id|lra].
  - intros i a j c Hi Ha Hj Hc. cbv zeta.
    rewrite (E_one (2 / 5 * sqrt (5 * PI)) _ i a j c (fun r => powerRZ r 2) (Y_ 2) (if (m i =? m j)%Z then gaunt_coefficient (ao_eval b) (l j) (m j) 2 0 (l i) (m i) else 0)); auto.
    + rewrite <- VM by auto. destruct (Reqb_spec (if (m i =? m j)%Z then gaunt_coefficient (ao_eval b) (l j) (m j) 2 0 (l i) (m i) else 0) 0) as [->|_]; ring.
    + intros r x _ _. replace (2 / 5 * sqrt (5 * PI) * (powerRZ r 2 * Y_ 2 x)) with (powerRZ r 2 * (2 / 5 * sqrt (5 * PI) * Y_ 2 x)) by ring. rewrite Y2_factor. change 2%Z with (Z.of_nat 2). rewrite <- pow_powerRZ.
      rewrite P_low by lia. cbn [Z.of_nat Pos.of_succ_nat Pos.succ GauntSpec.legendre]. ring.
    + apply Y_poly.
    + intros ang Hang. apply Hang.
Qed.

Theorem Bz_at_ok B : is_shell_matrix (ao_Bz_field b B) n N (fun i a j c => E i a j c
  (fun r x => B ^ 2 / 8 * (r ^ 2 * (1 - x ^ 2)) - B * IZR (m j) / 2)).
Proof.
  unfold ao_Bz_field. destruct (power_ready 0 ltac:(lia)) as (H0 & M0 & -> & R0 & C0 & V0). cbn [bind].
  destruct (power_ready 2 ltac:(lia)) as (H2 & M2 & -> & R2 & C2 & V2). cbn [bind].
  destruct (ao_gaunt_ready 4 ltac:(lia)) as (g & -> & _ & Hg). cbn [bind].
  apply pairs_shell with (tr := fun i j a c v => let cpl := if (m i =? m j)%Z then exact_coupling (ao_eval b) sin2_terms (l j) (m j) (l i) (m i) else 0 in
     let w := if Reqb cpl 0 then v else B * B / 8 * cpl * dent M2 a c in
     if same_shell (ao_sh b) (ao_sh b) i j then w + - (1 / 2) * B * IZR (m j) * dent M0 a c else w).
  - intros i j Hi Hj. cbv zeta. rewrite !shell_eq. fold (l i) (m i) (l j) (m j). rewrite Hg; auto using one_electron_s.
    2:{ intros t [<-|[<-|[]]]; simpl; lia. }
    cbn [bind]. eapply (op_seq n N n N i j _ _ _ (fun a c v => if same_shell (ao_sh b) (ao_sh b) i j then v + - (1 / 2) * B * IZR (m j) * dent M0 a c else v)).
    + unfold when_nonzero.
      apply (op_if n N n N i j (Reqb (if (m i =? m j)%Z then exact_coupling (ao_eval b) sin2_terms (l j) (m j) (l i) (m i) else 0) 0)
        (fun M => Ok M)
        (fun M => set_sub N M i j (dscale (B * B / 8 * (if (m i =? m j)%Z then exact_coupling (ao_eval b) sin2_terms (l j) (m j) (l i) (m i) else 0)) M2))
        (fun _ _ v => v)); [apply op_id|]. exact (set_scaled n N i j _ M2 Hi Hj R2 C2).
    + fold (same_shell (ao_sh b) (ao_sh b) i j). change ((l i =? l j)%Z && (m i =? m j)%Z)%bool with (same_shell (ao_sh b) (ao_sh b) i j).
      destruct (same_shell _ _ i j); [|apply op_id]. exact (add_scaled n N i j _ M0 Hi Hj R0 C0).
    + reflexivity.
  - intros i a j c Hi Ha Hj Hc. cbv zeta. destruct (HE i j Hi Hj) as (ang & Hang & Hsep).
    rewrite (Hsep a c Ha Hc [(B ^ 2 / 8, (fun r => powerRZ r 2, fun x => 1 - x ^ 2)); (- (B * IZR (m j) / 2), (fun r => powerRZ r 0, fun _ => 1))]).
    + cbn [lsum fst snd]. rewrite (ang_one _ _ _ _ _ ang Hang). rewrite (ang_coupling _ _ _ _ _ ang Hang sin2_terms (fun x => 1 - x ^ 2)).
      * fold (l i) (m i) (l j) (m j). change ((l i =? l j)%Z && (m i =? m j)%Z)%bool with (same_shell (ao_sh b) (ao_sh b) i j).
        rewrite <- V0, <- V2 by auto.
        destruct (Reqb_spec (if (m i =? m j)%Z then exact_coupling (ao_eval b) sin2_terms (l j) (m j) (l i) (m i) else 0) 0) as [Eq|_];
          [rewrite Eq|]; destruct (same_shell _ _ i j); field.
      * apply one_electron_s.
      * intros x. destruct (expansions x) as (_ & _ & _ & _ & _ & -> & _). reflexivity.
    + intros k g' h [Et|[Et|[]]].
      * inversion Et; subst. split; [exact H2|]. apply (poly_ext (fun x => 1 + (-1) * x ^ 2)); [intros; simpl; ring|]. apply (poly_add (fun _ => 1)); [apply (poly_const 1)|]. apply poly_scal. apply poly_pow.
      * inversion Et; subst. split; [exact H0|]. apply (poly_const 1).
    + intros r x _ _. cbn [lsum fst snd]. change 2%Z with (Z.of_nat 2). rewrite <- pow_powerRZ, powerRZ_O. ring.
Qed.

(* ---------- nuclear attraction ---------- *)

Lemma vaux_ok orderL k : (forall L, In L orderL -> (L < k)%nat) ->
  exists V, ao_vaux b orderL k = Ok V /\ forall L, In L orderL -> drows (V L) = N /\ dcols (V L) = N /\
    forall a c, (a < N)%nat -> (c < N)%nat -> dent (V L) a c = - sqrt (4 * PI / (2 * INR L + 1)) * rad a c (charge_multipole Rh L).
Proof.
  intros Hk. unfold ao_vaux.
  assert (G : forall l0 V0 done, (forall L, In L l0 -> (L < k)%nat) ->
    (forall L, In L done -> drows (V0 L) = N /\ dcols (V0 L) = N /\
      forall a c, (a < N)%nat -> (c < N)%nat -> dent (V0 L) a c = - sqrt (4 * PI / (2 * INR L + 1)) * rad a c (charge_multipole Rh L)) ->
    exists V, fold_res (fun V L => in_parallel (bind (assemble_radial_diagonal (ao_lay b) (ao_off b L)) (fun A =>
      if Nat.ltb L k then Ok (fun k => if Nat.eqb k L then A else V k) else UB))) l0 V0 = Ok V /\
    forall L, In L done \/ In L l0 -> drows (V L) = N /\ dcols (V L) = N /\
      forall a c, (a < N)%nat -> (c < N)%nat -> dent (V L) a c = - sqrt (4 * PI / (2 * INR L + 1)) * rad a c (charge_multipole Rh L)).
  { induction l0 as [|L l0 IH]; intros V0 done HB HD.
    - exists V0. split; [reflexivity|]. intros L [H|[]]; auto.
    - cbn [fold_res]. destruct (radial_ready _ _ (proj2 (proj2 Hr L))) as (A & EA & RA & CA & VA). rewrite EA. cbn [bind].
      destruct (Nat.ltb_spec L k) as [_|Hge]; [|specialize (HB L (or_introl eq_refl)); lia]. cbn [in_parallel bind].
      destruct (IH (fun k0 => if Nat.eqb k0 L then A else V0 k0) (L :: done)) as (V & EV & HV).
      + intros; apply HB; now right.
      + intros L' HL'. destruct (Nat.eqb_spec L' L) as [->|Hne]; [auto|]. destruct HL' as [->|H]; [congruence|auto].
      + exists V. split; [exact EV|]. intros L' HL'. apply HV. cbn [In] in *. tauto. }
  destruct (G orderL (fun _ => dempty) []) as (V & EV & HV); auto; [intros L []|]. exists V. split; [exact EV|]. intros L HL. apply HV. auto.
Qed.

Let F i j L := gaunt_coefficient (ao_eval b) (l i) (m i) L 0 (l j) (m j) *
   ((if Z.odd L then -1 else 1) * IZR (ao_Zl b) + IZR (ao_Zr b)).

Lemma off_block_ok g Vaux k : (forall L, (L < k)%nat -> drows (Vaux L) = N /\ dcols (Vaux L) = N) ->
  (forall i j L, (i < n)%nat -> (j < n)%nat -> (0 <= L < Z.of_nat k)%Z -> m i = m j ->
     coeff g (l j) (m j) L 0 (l i) = Ok (gaunt_coefficient (ao_eval b) (l j) (m j) L 0 (l i) (m i))) ->
  (forall i j, (i < n)%nat -> (j < n)%nat -> (l i + l j < Z.of_nat k)%Z) ->
  forall i j, (i < n)%nat -> (j < n)%nat ->
  op_at n N n N i j (fun V => ao_off_block b g Vaux k V (i, j)) (fun a c v =>
    v + (if (m i =? m j)%Z then lsum (zrange (Z.abs (l i - l j)) (l i + l j)) (fun L => F i j L * dent (Vaux (Z.to_nat L)) a c) else 0)).
Proof.
  intros HV Hg Hk i j Hi Hj. unfold ao_off_block. rewrite !shell_eq. fold (l i) (m i) (l j) (m j).
  destruct (Z.eqb_spec (m i) (m j)) as [Em|Em]; cbn [negb].
  2:{ apply (op_ext n N n N i j _ (fun _ _ v => v)); [apply op_id|]. intros. ring. }
  eapply op_ext.
  - apply (op_fold n N n N i j _ (fun L a c => F i j L * dent (Vaux (Z.to_nat L)) a c)).
    intros L HL. apply zrange_in in HL. specialize (Hk i j Hi Hj).
    rewrite (Hg j i L) by (auto; lia). cbn [bind]. fold (F i j L).
    destruct (HV (Z.to_nat L) ltac:(lia)) as [RV CV].
    apply (op_ext n N n N i j _ (fun a c v => v + gaunt_coefficient (ao_eval b) (l i) (m i) L 0 (l j) (m j) *
      (((if Z.odd L then -1 else 1) * IZR (ao_Zl b) + IZR (ao_Zr b)) * dent (Vaux (Z.to_nat L)) a c))); [|intros; unfold F; ring].
    apply op_when. cbv zeta. destruct (Nat.ltb_spec (Z.to_nat L) k) as [_|Hge]; [|lia].
    eapply op_ext; [apply (add_scaled n N i j _ (Vaux (Z.to_nat L)) Hi Hj RV CV)|]. intros. cbv beta. unfold F. ring.
  - intros. reflexivity.
Qed.

Lemma op_parallel i j op tr : op_at n N n N i j op tr -> op_at n N n N i j (fun M => in_parallel (op M)) tr.
Proof. intros H M HM. destruct (H M HM) as (M' & EM & R'). exists M'. rewrite EM. split; [reflexivity|exact R']. Qed.

Lemma multipole_norm L : sqrt (4 * PI / (2 * INR L + 1)) * sqrt ((2 * INR L + 1) / (4 * PI)) = 1.
Proof.
  pose proof (pos_INR L). pose proof PI_RGT_0. rewrite <- sqrt_mult_alt.
  - replace (4 * PI / (2 * INR L + 1) * ((2 * INR L + 1) / (4 * PI))) with 1 by (field; lra). apply sqrt_1.
  - apply Rlt_le. apply Rdiv_lt_0_compat; lra.
Qed.

Lemma parity_pow L : (-1) ^ L = if Z.odd (Z.of_nat L) then -1 else 1.
Proof.
  induction L as [|L IH]; [reflexivity|]. rewrite Nat2Z.inj_succ, Z.odd_succ, <- Z.negb_odd. cbn [pow]. rewrite IH.
  destruct (Z.odd (Z.of_nat L)); cbn [negb]; ring.
Qed.

Theorem nuclear_at_ok orderL order k : NoDup (ao_sh b) -> ao_point b = true -> orders_ok b orderL order ->
  (2 * lmax_of (ao_sh b) <= Z.of_nat k)%Z ->
  is_shell_matrix (ao_nuclear b orderL order) n N (fun i a j c =>
    E i a j c (atomic_attraction (ao_Z b) (ao_Zl b) (ao_Zr b) Rh k)).
Proof.
  intros ND Hp [HoL Ho] Hk. unfold ao_nuclear. rewrite Hp. cbn [negb].
  destruct Hb as (Hsh & Hgen & Hfit).
  assert (Hl : forall i, (i < n)%nat -> (0 <= l i <= lmax_of (ao_sh b))%Z).
  { intros i Hi. pose proof (shell_bounds (ao_sh b) Hsh i Hi) as (B1 & B2 & _). unfold l. lia. }
  (* the value of the integral *)
  assert (HV : forall i a j c, (i < n)%nat -> (a < N)%nat -> (j < n)%nat -> (c < N)%nat ->
    E i a j c (atomic_attraction (ao_Z b) (ao_Zl b) (ao_Zr b) Rh k) =
    (if Nat.eqb i j then IZR (- ao_Z b) * rad a c (fun r => powerRZ r (-1)) else 0) +
    (if (m i =? m j)%Z then lsum (zrange (Z.abs (l i - l j)) (l i + l j)) (fun L => F i j L *
       (- sqrt (4 * PI / (2 * INR (Z.to_nat L) + 1)) * rad a c (charge_multipole Rh (Z.to_nat L)))) else 0)).
  { intros i a j c Hi Ha Hj Hc. destruct (HE i j Hi Hj) as (ang & Hang & Hsep).
    set (q := fun L => - sqrt (4 * PI / (2 * INR L + 1)) * ((if Z.odd (Z.of_nat L) then -1 else 1) * IZR (ao_Zl b) + IZR (ao_Zr b))).
    rewrite (Hsep a c Ha Hc ((IZR (- ao_Z b), (fun r => powerRZ r (-1), fun _ => 1)) ::
      map (fun L => (q L, (charge_multipole Rh L, Y_ L))) (seq 0 (S k)))).
    - cbn [lsum fst snd]. rewrite lsum_map. cbn [fst snd]. rewrite (ang_one _ _ _ _ _ ang Hang). fold (l i) (l j) (m i) (m j).
      change ((l i =? l j)%Z && (m i =? m j)%Z)%bool with (same_shell (ao_sh b) (ao_sh b) i j). rewrite same_index by auto. f_equal.
      + destruct (Nat.eqb i j); ring.
      + rewrite lsum_seq0. destruct (Z.eqb_spec (m i) (m j)) as [Em|Em].
        * rewrite (lsum_zrange_seq _ _ k).
          -- apply sum_ext. intros L HL. destruct Hang as (_ & HY & _). rewrite HY. fold (l i) (l j) (m i) (m j).
             destruct (Z.eqb_spec (m i) (m j)); [|contradiction]. rewrite Nat2Z.id. unfold F, q. rewrite Em. rewrite (gaunt_swap (ao_eval b) (l i) (l j)) by auto. ring.
          -- lia.
          -- pose proof (Hl i Hi). pose proof (Hl j Hj). lia.
          -- intros L HL HLo. unfold F. rewrite gaunt_zero; [ring|exact Hgen|]. lia.
        * apply sum_zero'. intros L HL. destruct Hang as (_ & HY & _). rewrite HY. fold (l i) (l j) (m i) (m j).
          destruct (Z.eqb_spec (m i) (m j)); [contradiction|ring].
    - intros k' g' h [Et|Hin].
      + inversion Et; subst. split; [exact (proj1 (proj1 Hr (-1)%Z ltac:(lia)))|apply (poly_const 1)].
      + apply in_map_iff in Hin as (L & Et & _). inversion Et; subst. split; [exact (proj1 (proj2 Hr L))|apply Y_poly].
    - intros r x Hr0 Hx. cbn [lsum fst snd]. rewrite lsum_map. cbn [fst snd]. rewrite lsum_seq0. unfold atomic_attraction, charge_potential.
      rewrite opp_IZR. cbn [powerRZ Pos.to_nat Pos.iter_op]. rewrite <- !sum_scal.
      replace (- IZR (ao_Z b) / r - sum (S k) (fun L => IZR (ao_Zl b) * (charge_multipole Rh L r * P_ L (- x))) - sum (S k) (fun L => IZR (ao_Zr b) * (charge_multipole Rh L r * P_ L x)))
        with (- IZR (ao_Z b) * (/ r * 1) + - (sum (S k) (fun L => IZR (ao_Zl b) * (charge_multipole Rh L r * P_ L (- x))) + sum (S k) (fun L => IZR (ao_Zr b) * (charge_multipole Rh L r * P_ L x)))) by (unfold Rdiv; ring).
      f_equal; [rewrite Pos2Nat.inj_1, pow_1; reflexivity|]. rewrite <- sum_plus, <- sum_opp. apply sum_ext. intros L _. rewrite P_neg. unfold q, Y_. rewrite parity_pow.
      set (sg := if Z.odd (Z.of_nat L) then -1 else 1).
      replace (- sqrt (4 * PI / (2 * INR L + 1)) * (sg * IZR (ao_Zl b) + IZR (ao_Zr b)) * (charge_multipole Rh L r * (sqrt ((2 * INR L + 1) / (4 * PI)) * P_ L x)))
        with (- (sqrt (4 * PI / (2 * INR L + 1)) * sqrt ((2 * INR L + 1) / (4 * PI))) * (sg * IZR (ao_Zl b) + IZR (ao_Zr b)) * (charge_multipole Rh L r * P_ L x)) by ring.
      rewrite multipole_norm. ring. }
  (* the central nucleus *)
  assert (HC : is_shell_matrix (if (ao_Z b =? 0)%Z then Ok (ao_zero b) else
        bind (assemble_radial_diagonal (ao_lay b) (ao_int b (-1))) (fun Vrad =>
        fold_res (fun V iang => set_sub (ao_N b) V iang iang (dscale (IZR (- ao_Z b)) Vrad)) (seq 0 (ao_n b)) (ao_zero b))) n N
    (fun i a j c => if Nat.eqb i j then IZR (- ao_Z b) * rad a c (fun r => powerRZ r (-1)) else 0)).
  { destruct (Z.eqb_spec (ao_Z b) 0) as [Ez|Ez].
    - exists (ao_zero b). split; [reflexivity|]. split; [reflexivity|]. split; [reflexivity|]. intros. rewrite Ez.
      destruct (Nat.eqb i j); [|reflexivity]. cbn [dent ao_zero dzero Z.opp]. unfold mzero. ring.
    - destruct (power_ready (-1) ltac:(lia)) as (_ & M & -> & RM & CM & VM). cbn [bind].
      destruct (diagonal_ok n N (dscale (IZR (- ao_Z b)) M) RM CM) as (V & EV & R1 & C1 & VV). exists V. split; [exact EV|].
      split; [exact R1|]. split; [exact C1|]. intros i a j c Hi Ha Hj Hc. rewrite VV by auto. destruct (Nat.eqb i j); [|reflexivity].
      cbn [dent dscale]. unfold mscal. now rewrite VM by auto. }
  destruct HC as (V & -> & R1 & C1 & VV). cbn [bind].
  destruct ((ao_Zl b =? 0)%Z && (ao_Zr b =? 0)%Z)%bool eqn:Ez.
  - exists V. split; [reflexivity|]. split; [exact R1|]. split; [exact C1|]. intros i a j c Hi Ha Hj Hc. rewrite VV, HV by auto.
    apply andb_true_iff in Ez as [E1 E2]. apply Z.eqb_eq in E1, E2.
    destruct (Z.eqb_spec (m i) (m j)); [|ring]. rewrite lsum_zero; [ring|]. intros L _. unfold F. rewrite E1, E2. destruct (Z.odd L); ring.
  - cbv zeta. set (kk := Z.to_nat (2 * zmax_list (map fst (ao_sh b)) + 1)). fold (lmax_of (ao_sh b)) in kk.
    assert (Hnn : (0 <= lmax_of (ao_sh b))%Z).
    { assert (H0 : (0 < n)%nat) by (destruct Hsh as [Hne _]; unfold n, ao_n; destruct (ao_sh b); [congruence|simpl; lia]). pose proof (Hl 0%nat H0). lia. }
    destruct (vaux_ok orderL kk) as (Vaux & -> & HVx).
    { intros L HL. apply (Permutation_in _ HoL) in HL. apply in_seq in HL. exact (proj2 HL). }
    cbn [bind]. assert (Hin : forall L, (L < kk)%nat -> In L orderL).
    { intros L HL. apply (Permutation_in _ (Permutation_sym HoL)). apply in_seq. split; [lia|exact HL]. }
    assert (Hgm : (lmax_of (ao_sh b) <= atomic_gmax (ao_sh b))%Z) by (unfold atomic_gmax, lmax_of; lia).
    destruct (ao_gaunt_ready (2 * atomic_gmax (ao_sh b)) ltac:(lia)) as (g & -> & Hg & _). cbn [bind].
    destruct (pairs_fold n N n N (fun V p => in_parallel (ao_off_block b g Vaux kk V p))
      (fun i j a c v => v + (if (m i =? m j)%Z then lsum (zrange (Z.abs (l i - l j)) (l i + l j)) (fun L => F i j L * dent (Vaux (Z.to_nat L)) a c) else 0))
      order Ho) with (M := V) as (V' & EV' & [D1 D2] & VV').
    + intros i j Hi Hj. apply op_parallel. apply off_block_ok; auto.
      * intros L HL. destruct (HVx L (Hin L HL)) as (A1 & A2 & _). auto.
      * intros i' j' L Hi' Hj' HL Em. apply Hg; auto. subst kk. lia.
      * intros i' j' Hi' Hj'. pose proof (Hl i' Hi'). pose proof (Hl j' Hj'). subst kk. lia.
    + split; auto.
    + exists V'. split; [exact EV'|]. split; [exact D1|]. split; [exact D2|]. intros i a j c Hi Ha Hj Hc.
      rewrite VV', VV, HV by auto. f_equal. destruct (Z.eqb_spec (m i) (m j)); [|reflexivity]. apply lsum_ext. intros L HL. apply zrange_in in HL.
      f_equal. pose proof (Hl i Hi). pose proof (Hl j Hj). apply (HVx (Z.to_nat L)); auto. apply Hin. subst kk. lia.
Qed.
End At.
