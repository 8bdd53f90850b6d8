(** Symmetry of the computed matrices, and concrete cases. *)
Require Import Reals ZArith List Bool Arith Lia Lra Permutation.
Require Import Verif.Prelude Verif.AngModel Verif.AngProofs Verif.CholSpec Verif.JKModel Verif.JKSpec Verif.JKProofs Verif.GauntModel Verif.GauntSpec
  Verif.GauntProofs Verif.CholProofs Verif.TwoDModel Verif.TwoDSpec Verif.TwoDProofs Verif.SxModel Verif.SxSpec Verif.SxProofs Verif.SxMore Verif.SxAtom.
Import ListNotations.
Local Open Scope R_scope.

Lemma stored_fully b k L : 0 <= b_tol b -> good_kernel b k -> (L < N_L_of (b_sh b))%nat ->
  fully_symmetric (lnbf (b_lay b)) (stored_tensor (b_lay b) k (b_tol b) L).
Proof. intros Ht Hk HL x y z w _ _ _ _. split; [now apply stored_tensor_sym|apply stored_tensor_swap]. Qed.

Lemma cube_dot lmax N eval fac Rad P Q r r' : generator_ok eval ->
  (forall L, (L < 2 * lmax + 1)%nat -> fully_symmetric N (Rad L)) ->
  is_cube r (lmax + 1) N (averaged_exchange eval lmax N fac Rad (pick P)) ->
  is_cube r' (lmax + 1) N (averaged_exchange eval lmax N fac Rad (pick Q)) ->
  exists K K', r = Ok K /\ r' = Ok K' /\ shell_dot lmax N (pick K) (pick Q) = shell_dot lmax N (pick P) (pick K').
Proof.
  intros Hg HT (K & EK & _ & VK) (K' & EK' & _ & VK'). exists K, K'. split; [exact EK|]. split; [exact EK'|].
  transitivity (shell_dot lmax N (averaged_exchange eval lmax N fac Rad (pick P)) (pick Q)).
  - unfold shell_dot. apply sum_ext. intros l Hl. f_equal. apply mdot_ext; [|reflexivity]. intros a b Ha Hb.
    destruct (VK l Hl) as (_ & _ & V). now apply V.
  - rewrite averaged_exchange_adj by auto. unfold shell_dot. apply sum_ext. intros l Hl. f_equal. apply mdot_ext; [reflexivity|].
    intros a b Ha Hb. destruct (VK' l Hl) as (_ & _ & V). symmetry. now apply V.
Qed.

Lemma sad_symmetric_ok b lmax lam yuk calls s : sad_basis_ok b lmax calls -> history b calls (fresh lam yuk) = Ok s ->
  let N := lnbf (b_lay b) in
  (In CallTei calls -> forall P Q, density N P -> density N Q -> exists J J', sad_coulomb b s P = Ok J /\ sad_coulomb b s Q = Ok J' /\
     mdot N (dent J) (dent Q) = mdot N (dent P) (dent J')) /\
  forall order P Q, visits lmax order -> radial_densities lmax N P -> radial_densities lmax N Q ->
  (In CallTei calls -> exists K K', sad_exchange b s order P = Ok K /\ sad_exchange b s order Q = Ok K' /\
     shell_dot lmax N (pick K) (pick Q) = shell_dot lmax N (pick P) (pick K')) /\
  (forall l, last_screened calls = Some (CallYukawa l) ->
     exists K K', sad_rs_exchange b s order P = Ok K /\ sad_rs_exchange b s order Q = Ok K' /\
     shell_dot lmax N (pick K) (pick Q) = shell_dot lmax N (pick P) (pick K')) /\
  (forall m, last_screened calls = Some (CallErfc m) ->
     (forall L, (L < 2 * lmax + 1)%nat -> fully_symmetric N (erfc_tensor (b_lay b) (b_erfc b m) L)) ->
     exists K K', sad_rs_exchange b s order P = Ok K /\ sad_rs_exchange b s order Q = Ok K' /\
     shell_dot lmax N (pick K) (pick Q) = shell_dot lmax N (pick P) (pick K')).
Proof.
  intros Hb Es. destruct (sad_two_electron_ok b lmax lam yuk calls Hb) as (s' & Es' & SJ & SK & _).
  rewrite Es in Es'. injection Es' as <-. cbv zeta in *.
  pose proof Hb as [Esh (_ & Hgen & Hf & Hnel & Htol & Hbare & Hyuk & Herfc)].
  assert (HNL : N_L_of (b_sh b) = (2 * lmax + 1)%nat) by (rewrite Esh; apply sad_N_L).
  split.
  - intros Hin P Q HP HQ. destruct (SJ P HP Hin) as (J & EJ & _ & _ & VJ). destruct (SJ Q HQ Hin) as (J' & EJ' & _ & _ & VJ').
    exists J, J'. split; [exact EJ|]. split; [exact EJ'|].
    set (N := lnbf (b_lay b)) in *. set (T := stored_tensor (b_lay b) (b_bare b) (b_tol b) 0) in *.
    assert (HT : fully_symmetric N T) by (apply stored_fully; auto; lia).
    transitivity (4 * PI * mdot N (coulomb_of N T (dent P)) (dent Q)).
    + unfold mdot. rewrite <- sum_scal. apply sum_ext. intros a Ha. rewrite <- sum_scal. apply sum_ext. intros c Hc. rewrite VJ by auto. ring.
    + rewrite coulomb_of_adj by exact HT. unfold mdot. rewrite <- sum_scal. apply sum_ext. intros a Ha. rewrite <- sum_scal.
      apply sum_ext. intros c Hc. rewrite VJ' by auto. ring.
  - intros order P Q Ho HP HQ. destruct (SK order P Ho HP) as [P1 P2]. destruct (SK order Q Ho HQ) as [Q1 Q2].
    split; [|split].
    + intros Hin. eapply cube_dot; [exact Hgen| |now apply P1|now apply Q1]. intros L HL. apply stored_fully; auto; lia.
    + intros l EL. rewrite EL in P2, Q2. eapply cube_dot; [exact Hgen| |exact P2|exact Q2].
      intros L HL. apply stored_fully; auto; [|lia]. apply Hyuk. now apply last_screened_in.
    + intros m EL HT. rewrite EL in P2, Q2. now apply (cube_dot lmax (lnbf (b_lay b)) (b_eval b) _ _ P Q _ _ Hgen HT P2 Q2).
Qed.

(* ---------- a generator for s and p functions ---------- *)

Definition sp_eval : Z -> Z -> Z -> Z -> Z -> Z -> R := fun l1 m1 l2 m2 l3 m3 =>
  if negb (m1 + m2 + m3 =? 0)%Z then 0 else
  if ((l1 * l2 * l3 =? 0) && (l1 + l2 + l3 =? 2 * Z.max l1 (Z.max l2 l3)) && (0 <=? Z.min l1 (Z.min l2 l3)))%bool%Z
  then parity_sign (Z.max (Z.abs m1) (Z.max (Z.abs m2) (Z.abs m3)) / 2) / sqrt (4 * PI) else
  if ((l1 + l2 + l3 =? 8) && (l1 * l2 * l3 =? 16) && (0 <=? Z.min l1 (Z.min l2 l3)) && (l1 * m1 + l2 * m2 + l3 * m3 =? 0))%bool%Z
  then (if (Z.abs m1 + Z.abs m2 + Z.abs m3 =? 0)%Z then 2 else 1) else 0.

Lemma sp_eval_ok : generator_ok sp_eval.
Proof.
  unfold generator_ok, sp_eval. split; [|split; [|split]].
  - intros. replace (m2 + m1 + m3)%Z with (m1 + m2 + m3)%Z by lia. replace (l2 * l1 * l3)%Z with (l1 * l2 * l3)%Z by lia.
    replace (l2 + l1 + l3)%Z with (l1 + l2 + l3)%Z by lia.
    replace (Z.max l2 (Z.max l1 l3)) with (Z.max l1 (Z.max l2 l3)) by lia.
    replace (Z.min l2 (Z.min l1 l3)) with (Z.min l1 (Z.min l2 l3)) by lia.
    replace (Z.max (Z.abs m2) (Z.max (Z.abs m1) (Z.abs m3))) with (Z.max (Z.abs m1) (Z.max (Z.abs m2) (Z.abs m3))) by lia.
    replace (l2 * m2 + l1 * m1 + l3 * m3)%Z with (l1 * m1 + l2 * m2 + l3 * m3)%Z by lia.
    replace (Z.abs m2 + Z.abs m1 + Z.abs m3)%Z with (Z.abs m1 + Z.abs m2 + Z.abs m3)%Z by lia. reflexivity.
  - intros. replace (m1 + m3 + m2)%Z with (m1 + m2 + m3)%Z by lia. replace (l1 * l3 * l2)%Z with (l1 * l2 * l3)%Z by lia.
    replace (l1 + l3 + l2)%Z with (l1 + l2 + l3)%Z by lia.
    replace (Z.max l3 l2) with (Z.max l2 l3) by lia. replace (Z.min l3 l2) with (Z.min l2 l3) by lia.
    replace (Z.max (Z.abs m3) (Z.abs m2)) with (Z.max (Z.abs m2) (Z.abs m3)) by lia.
    replace (l1 * m1 + l3 * m3 + l2 * m2)%Z with (l1 * m1 + l2 * m2 + l3 * m3)%Z by lia.
    replace (Z.abs m1 + Z.abs m3 + Z.abs m2)%Z with (Z.abs m1 + Z.abs m2 + Z.abs m3)%Z by lia. reflexivity.
  - intros. rewrite !Z.abs_opp. replace (- m1 + - m2 + - m3)%Z with (- (m1 + m2 + m3))%Z by lia.
    replace (l1 * - m1 + l2 * - m2 + l3 * - m3)%Z with (- (l1 * m1 + l2 * m2 + l3 * m3))%Z by lia.
    assert (E : forall z, (- z =? 0)%Z = (z =? 0)%Z) by (intros z; destruct (Z.eqb_spec z 0), (Z.eqb_spec (- z) 0); lia).
    now rewrite !E.
  - intros l1 m1 l2 m2 l3 m3 H. destruct (negb _); [reflexivity|].
    destruct (_ && _ && _)%bool eqn:E1.
    { exfalso. rewrite !andb_true_iff, !Z.eqb_eq, Z.leb_le in E1. destruct E1 as [[A B] C]. unfold triangle in H.
      assert (Z.odd (l1 + l2 + l3) = false); [|destruct H; [|congruence]; apply H; nia].
      assert (l1 + l2 + l3 = 2 * Z.max l1 (Z.max l2 l3))%Z as -> by lia. now rewrite Z.odd_mul. }
    destruct (_ && _ && _ && _)%bool eqn:E2; [|reflexivity].
    exfalso. rewrite !andb_true_iff, !Z.eqb_eq, Z.leb_le in E2. destruct E2 as [[[A B] C] D]. unfold triangle in H.
    assert (HE : (l1 + l2 + l3 = 4)%Z) by lia. rewrite HE in H. destruct H as [H|H]; [|discriminate]. apply H. clear E1 D H.
    assert (l1 * l2 * l3 = 2)%Z by nia. assert (0 <= l1 /\ 0 <= l2 /\ 0 <= l3)%Z as (P1 & P2 & P3) by lia.
    assert (l1 <= 4 /\ l2 <= 4)%Z as [Q1 Q2] by lia.
    assert (l1 = 0 \/ l1 = 1 \/ l1 = 2 \/ l1 = 3 \/ l1 = 4)%Z as [->|[->|[->|[->| ->]]]] by lia;
    assert (l2 = 0 \/ l2 = 1 \/ l2 = 2 \/ l2 = 3 \/ l2 = 4)%Z as [->|[->|[->|[->| ->]]]] by lia; lia.
Qed.

Lemma sp_unsold : unsold sp_eval 1.
Proof.
  split.
  - intros l L Hl HL. assert (l = 0 \/ l = 1)%Z as [->| ->] by lia; assert (L = 1 \/ L = 2)%Z as [->| ->] by lia;
      try change (zrange (- (0)) 0) with [0%Z]; try change (zrange (- (1)) 1) with [-1; 0; 1]%Z; cbn [lsum fold_right];
      unfold gaunt_coefficient, sp_eval, parity_sign; cbn; ring.
  - intros l m Hl Hm. assert (HS : sqrt (4 * PI) <> 0) by (apply Rgt_not_eq, sqrt_lt_R0; pose proof PI_RGT_0; lra).
    assert (l = 0 \/ l = 1)%Z as [->| ->] by lia; assert (m = -1 \/ m = 0 \/ m = 1)%Z as [->|[->| ->]] by lia; try lia;
      unfold gaunt_coefficient, sp_eval, parity_sign; cbn; field; exact HS.
Qed.

Definition sp_sad : tbasis :=
  mkB (sad_shells 1) lay2 kernel2 (fun _ => kernel2) (fun _ _ _ _ => ones 4) 0 sp_eval 0.
Definition sp_atom : tbasis :=
  mkB [(1, 0); (0, 0); (1, -1); (1, 1)]%Z lay2 kernel2 (fun _ => kernel2) (fun _ _ _ _ => ones 4) 0 sp_eval (1 / 1000).

Lemma sp_kernel_good : good_kernel sp_sad kernel2.
Proof. intros L HL. split; [apply kernel2_ok|]. intros e He. exact (ones_psd 4). Qed.

Lemma sp_sad_ok calls : sad_basis_ok sp_sad 1 calls.
Proof.
  split; [reflexivity|].
  split; [|split; [exact sp_eval_ok|split; [exact lay2_fits|split; [cbn; lia|split; [cbn; lra|split; [exact sp_kernel_good|split]]]]]].
  - split; [discriminate|]. intros l m [E|[E|[]]]; injection E as <- <-; lia.
  - intros l _. exact sp_kernel_good.
  - intros m _ L _ i j _ _. repeat split.
Qed.

Lemma sp_same : same_radial sp_sad sp_atom.
Proof. repeat split. Qed.

Lemma sp_all : all_shells 1 (b_sh sp_atom).
Proof.
  unfold all_shells. cbn [b_sh sp_atom].
  replace (flat_map _ _) with [(0, 0); (1, -1); (1, 0); (1, 1)]%Z by reflexivity.
  apply NoDup_Permutation.
  - repeat constructor; cbn; intuition congruence.
  - repeat constructor; cbn; intuition congruence.
  - intros [l m]. cbn [In]. tauto.
Qed.

Definition sp_P : list dmat := [mkD 3 3 (fun _ _ => 1); mkD 3 3 (fun c d => INR (c + d))].
Definition sp_Pf : dmat := mkD 12 12 (fun r s =>
  if Nat.eqb (r / 3) (s / 3) then pick sp_P (Z.to_nat (l_of (b_sh sp_atom) (r / 3))) (r mod 3) (s mod 3) else 0).
Definition sp_Pt : dmat := mkD 3 3 (fun c d => (1 * 1 + 3 * INR (c + d)) / (4 * PI)).

Lemma sp_densities : radial_densities 1 3 sp_P /\ density (4 * 3) sp_Pf /\ spherical (b_sh sp_atom) 3 (pick sp_P) (dent sp_Pf) /\
  not_screened 1 3 (1 / 1000) (pick sp_P) /\ density 3 sp_Pt /\ total_density 1 3 (pick sp_P) (dent sp_Pt).
Proof.
  split; [|split; [|split; [|split; [|split]]]].
  - split; [reflexivity|]. intros X [<-|[<-|[]]]; split; reflexivity.
  - split; reflexivity.
  - intros i j c d Hi Hj Hc Hd. unfold sp_Pf. cbn [dent]. 
    assert (Hd' : forall i c, (c < 3)%nat -> (fn 3 i c / 3 = i)%nat) by (intros; unfold fn; rewrite Nat.add_comm, Nat.div_add by lia; rewrite Nat.div_small; lia).
    assert (Hm' : forall i c, (c < 3)%nat -> (fn 3 i c mod 3 = c)%nat) by (intros; unfold fn; rewrite Nat.add_comm, Nat.mod_add by lia; now apply Nat.mod_small).
    rewrite !Hd', !Hm' by auto. reflexivity.
  - intros l Hl. left. assert (Hm : 1 <= mdot 3 (pick sp_P l) (pick sp_P l)).
    { assert (l = 0 \/ l = 1)%nat as [->| ->] by lia; unfold mdot, pick, sp_P; cbn -[IZR]; lra. }
    apply Rle_trans with 1; [lra|]. rewrite <- sqrt_1. apply sqrt_le_1_alt. exact Hm.
  - split; reflexivity.
  - intros c d _ _. cbn [dent sp_Pt]. f_equal. cbn [sum Nat.add Nat.mul pick nth sp_P dent]. simpl (INR 1). replace (INR 3) with 3 by (simpl; ring).
    unfold pick. cbn [nth sp_P dent]. ring.
Qed.

(** A weight: s with p through the dipole. *)
Lemma sp_weight : averaged_weight sp_eval 0 1 1 = 3 / (4 * PI).
Proof.
  assert (HS : sqrt (4 * PI) <> 0) by (apply Rgt_not_eq, sqrt_lt_R0; pose proof PI_RGT_0; lra).
  assert (HH : sqrt (4 * PI) * sqrt (4 * PI) = 4 * PI) by (apply sqrt_sqrt; pose proof PI_RGT_0; lra).
  unfold averaged_weight. change (zrange (- (0)) 0) with [0%Z]. change (zrange (- (1)) 1) with [-1; 0; 1]%Z. cbn [lsum fold_right].
  unfold gaunt_coefficient, sp_eval, parity_sign. cbn. set (r := sqrt (4 * PI)) in *. rewrite <- HH. field. exact HS.
Qed.

(* ---------- a matrix of the wrong size ---------- *)

Definition sp_short : list dmat := [mkD 3 3 (fun _ _ => 0); mkD 1 1 (fun _ _ => 1)].

Lemma sp_short_ub : exists s, history sp_sad [CallTei] (fresh 0 false) = Ok s /\ sad_exchange sp_sad s [0; 1]%nat sp_short = UB.
Proof.
  destruct (sad_two_electron_ok sp_sad 1 0 false [CallTei] (sp_sad_ok _)) as (s & Es & SJ & _). exists s. split; [exact Es|].
  unfold sad_exchange. destruct (Nat.eqb_spec (csize (t_chol s)) 0) as [E0|_].
  { exfalso. destruct (SJ (dzero 3 3) ltac:(split; reflexivity) ltac:(now left)) as (J & EJ & _). unfold sad_coulomb in EJ. rewrite E0 in EJ. discriminate. }
  unfold sad_exchange_loop. destruct (sad_gaunt_ok sp_sad 1 eq_refl sp_eval_ok) as (g & Eg & Hg). rewrite Eg. cbn [bind].
  change (lmax_of (b_sh sp_sad)) with 1%Z. change (length sp_short) with 2%nat. cbn [Z.of_nat Pos.of_succ_nat Pos.succ Z.add Pos.add Z.eqb Pos.eqb negb].
  change (cube_at sp_short 0) with (Ok (mkD 3 3 (fun _ _ => 0))). cbn [bind]. change (lnbf (b_lay sp_sad)) with 3%nat. cbn [drows dcols Nat.eqb negb orb].
  cbn [fold_res].
  assert (EU : forall fac, sad_sums sp_sad g fac sp_short 0 = UB).
  { intros fac. unfold sad_sums. change (lmax_of (b_sh sp_sad)) with 1%Z. change (lnbf (b_lay sp_sad)) with 3%nat.
    change (Z.to_nat (1 + 1)) with 2%nat. cbn [seq fold_res].
    change (cube_at sp_short 0) with (Ok (mkD 3 3 (fun _ _ => 0))). change (cube_at sp_short 1) with (Ok (mkD 1 1 (fun _ _ : nat => 1))). cbn [bind].
    destruct (Reqb_spec (fnorm (mkD 3 3 (fun _ _ => 0))) 0) as [_|Hne].
    2:{ exfalso. apply Hne. unfold fnorm. cbn. rewrite !Rmult_0_l, !Rplus_0_l. apply sqrt_0. }
    cbn [bind].
    destruct (Reqb_spec (fnorm (mkD 1 1 (fun _ _ : nat => 1))) 0) as [Hz|_].
    { exfalso. unfold fnorm in Hz. cbn in Hz. rewrite !Rplus_0_l, Rmult_1_l, sqrt_1 in Hz. lra. }
    destruct (sad_totcoup_ok sp_sad 1 g 0 1 Hg) as (t & Et & Vt); try (cbn; lia). change (Z.of_nat 0) with 0%Z. change (Z.of_nat 1) with 1%Z.
    rewrite Et. cbn [bind]. change (zrange (Z.abs (1 - 0)) (1 + 0)) with [1%Z]. cbn [fold_res].
    rewrite Vt by lia. change (b_eval sp_sad) with sp_eval. rewrite sp_weight.
    destruct (Reqb_spec (3 / (4 * PI)) 0) as [Hz|_].
    { exfalso. pose proof PI_RGT_0. assert (0 < 3 / (4 * PI)) by (apply Rdiv_lt_0_compat; lra). lra. }
    reflexivity. }
  rewrite EU. reflexivity.
Qed.

Lemma sp_short_case : exists s, history sp_sad [CallTei] (fresh 0 false) = Ok s /\
  length sp_short = 2%nat /\ density 3 (nth 0 sp_short dempty) /\ ~ density 3 (nth 1 sp_short dempty) /\
  sad_exchange sp_sad s [0; 1]%nat sp_short = UB.
Proof.
  destruct sp_short_ub as (s & E & U). exists s. split; [exact E|]. split; [reflexivity|]. split; [split; reflexivity|].
  split; [intros [H _]; discriminate|exact U].
Qed.

Lemma sp_history_case : forall calls, sad_basis_ok sp_sad 1 calls /\ visits 1 [1; 0]%nat /\ radial_densities 1 3 sp_P /\
  averaged_weight (b_eval sp_sad) 0 1 1 = 3 / (4 * PI).
Proof.
  intros calls. split; [apply sp_sad_ok|]. split; [apply perm_swap|]. split; [apply sp_densities|exact sp_weight].
Qed.

Lemma sp_symmetric_case : (exists s, history sp_sad [CallTei; CallErfc 1] (fresh 0 false) = Ok s) /\
  sad_basis_ok sp_sad 1 [CallTei; CallErfc 1] /\ (forall L, fully_symmetric 3 (erfc_tensor (b_lay sp_sad) (b_erfc sp_sad 1) L)).
Proof.
  split.
  - destruct (sad_two_electron_ok sp_sad 1 0 false [CallTei; CallErfc 1] (sp_sad_ok _)) as (s & Es & _). now exists s.
  - split; [apply sp_sad_ok|]. intros L a b c d _ _ _ _. unfold erfc_tensor.
    assert (E : forall a b c d, tensor (b_lay sp_sad) (fun _ _ _ _ _ _ => 1) a b c d = tensor (b_lay sp_sad) (fun _ _ _ _ _ _ => 1) b a c d /\
      tensor (b_lay sp_sad) (fun _ _ _ _ _ _ => 1) a b c d = tensor (b_lay sp_sad) (fun _ _ _ _ _ _ => 1) c d a b).
    { intros. rewrite !ones_product. split; [|ring]. f_equal. apply sum_ext. intros i _. now rewrite andb_comm. }
    exact (E a b c d).
Qed.
