(** The matrices after any history of calls, their symmetry, and their agreement
    with the atomic basis on spherical densities. *)
Require Import Reals ZArith List Bool Arith Lia Lra Permutation.
Require Import Verif.Prelude Verif.AngModel Verif.AngProofs Verif.CholSpec Verif.JKModel Verif.JKSpec Verif.JKProofs Verif.GauntModel Verif.GauntSpec
  Verif.GauntProofs Verif.TwoDModel Verif.TwoDSpec Verif.TwoDProofs Verif.SxModel Verif.SxSpec Verif.SxProofs.
Import ListNotations.
Local Open Scope R_scope.

Lemma sad_two_electron_ok b lmax lam yuk calls : sad_basis_ok b lmax calls ->
  exists s, history b calls (fresh lam yuk) = Ok s /\
  let N := lnbf (b_lay b) in let Kx := averaged_exchange (b_eval b) lmax N in
  (forall P, density N P -> In CallTei calls ->
     is_matrix (sad_coulomb b s P) N (fun a c =>
       4 * PI * coulomb_of N (stored_tensor (b_lay b) (b_bare b) (b_tol b) 0) (dent P) a c)) /\
  (forall order P, visits lmax order -> radial_densities lmax N P ->
     (In CallTei calls -> is_cube (sad_exchange b s order P) (lmax + 1) N
        (Kx (fun L => 4 * PI / IZR (2 * L + 1)) (stored_tensor (b_lay b) (b_bare b) (b_tol b)) (pick P))) /\
     match last_screened calls with
     | Some (CallYukawa l) => is_cube (sad_rs_exchange b s order P) (lmax + 1) N
         (Kx (fun _ => 4 * PI * l) (stored_tensor (b_lay b) (b_yukawa b l) (b_tol b)) (pick P))
     | Some (CallErfc m) => is_cube (sad_rs_exchange b s order P) (lmax + 1) N
         (Kx (fun L => 4 * PI * m / IZR (2 * L + 1)) (erfc_tensor (b_lay b) (b_erfc b m)) (pick P))
     | _ => sad_rs_exchange b s order P = Throw LogicError
     end) /\
  (~ In CallTei calls -> (forall P, sad_coulomb b s P = Throw LogicError) /\
     forall order P, sad_exchange b s order P = Throw LogicError).
Proof.
  intros [Esh Hb]. destruct (history_ok b lam yuk calls Hb) as (s & E & I1 & I2 & I3). exists s. split; [exact E|].
  cbv zeta. pose proof (basis_nil b calls Hb) as Hn.
  pose proof Hb as (Hsh & Hgen & Hf & Hnel & Htol & Hbare & Hyuk & Herfc).
  assert (HNL : N_L_of (b_sh b) = (2 * lmax + 1)%nat) by (rewrite Esh; apply sad_N_L).
  destruct (sad_gaunt_ok b lmax Esh Hgen) as (g & Eg & Hg).
  split; [|split].
  - intros P HP Hin. specialize (I1 Hin). pose proof (stored_nonempty b _ _ _ _ Hn I1) as Hc.
    unfold sad_coulomb. destruct (Nat.eqb_spec (csize (t_chol s)) 0); [contradiction|].
    destruct (J_cached_ok b s Hn I1 0%nat P ltac:(lia) HP) as (J & EJ & RJ & CJ & VJ). unfold J_cached in EJ. rewrite EJ.
    cbn [bind]. eexists. split; [reflexivity|]. split; [exact RJ|]. split; [exact CJ|]. intros a c Ha Hc'.
    cbn [dent dscale]. unfold mscal. rewrite VJ by auto. simpl INR. field.
  - intros order P Ho HP. split.
    + intros Hin. specialize (I1 Hin). pose proof (stored_nonempty b _ _ _ _ Hn I1) as Hc.
      unfold sad_exchange. destruct (Nat.eqb_spec (csize (t_chol s)) 0); [contradiction|].
      apply (sad_exchange_loop_ok b lmax g); auto. intros L X HL HX. apply K_cached_ok; auto. lia.
    + destruct (last_screened calls) as [[|l|m]|] eqn:EL.
      * contradiction.
      * assert (Hin : In (CallYukawa l) calls) by (apply last_screened_in; exact EL).
        destruct I3 as (Hy & Hl & HS). unfold sad_rs_exchange. pose proof (stored_nonempty b _ _ _ _ Hn HS) as Hc.
        destruct (Nat.eqb_spec (csize (t_rschol s)) 0); [contradiction|]. rewrite andb_false_r, Hy, Hl.
        apply (sad_exchange_loop_ok b lmax g); auto. intros L X HL HX. apply K_cached_ok; auto. lia.
      * assert (Hin : In (CallErfc m) calls) by (apply last_screened_in; exact EL).
        destruct I3 as (Hy & Hl & HS1 & HS2). unfold sad_rs_exchange.
        destruct (Nat.eqb_spec (csize (t_rsktei s)) 0) as [H0|_].
        { exfalso. rewrite HS1, HNL in H0. clear - H0 Hnel. rewrite !Nat.mul_eq_0 in H0. lia. }
        cbn [andb]. rewrite Hy, Hl.
        apply (sad_exchange_loop_ok b lmax g); auto. intros L X HL HX. apply (K_pairwise_ok (b_lay b) _ (b_erfc b m L)); auto.
        intros i j Hi Hj. rewrite <- HNL in HL. destruct (Herfc m Hin L HL i j Hi Hj) as (A & B & C). split; [now apply HS2|]. auto.
      * destruct I3 as [H1 H2]. unfold sad_rs_exchange. now rewrite H1, H2.
  - intros Hin. unfold sad_coulomb, sad_exchange. rewrite (I2 Hin). split; reflexivity.
Qed.

Lemma sad_loop_rejects b lmax Krad Lfac order P : b_sh b = sad_shells lmax -> generator_ok (b_eval b) ->
  length P <> (lmax + 1)%nat \/ ~ density (lnbf (b_lay b)) (nth 0 P dempty) ->
  sad_exchange_loop b Krad Lfac order P = Throw LogicError.
Proof.
  intros Esh Hgen H. unfold sad_exchange_loop. destruct (sad_gaunt_ok b lmax Esh Hgen) as (g & Eg & _).
  rewrite Eg. cbn [bind]. rewrite Esh, sad_lmax.
  destruct (Z.eqb_spec (Z.of_nat (length P)) (Z.of_nat lmax + 1)) as [El|Ne]; cbn [negb]; [|reflexivity].
  assert (Hlt : (0 < length P)%nat) by lia.
  unfold cube_at. rewrite (nth_error_nth' P dempty Hlt). cbn [bind]. destruct H as [H|H]; [lia|].
  destruct (Nat.eqb_spec (drows (nth 0 P dempty)) (lnbf (b_lay b))) as [R1|]; [|reflexivity].
  destruct (Nat.eqb_spec (dcols (nth 0 P dempty)) (lnbf (b_lay b))) as [C1|]; [|reflexivity].
  exfalso. apply H. split; auto.
Qed.

Lemma sad_rejects_ok b lmax calls s order P : sad_basis_ok b lmax calls ->
  length P <> (lmax + 1)%nat \/ ~ density (lnbf (b_lay b)) (nth 0 P dempty) ->
  sad_exchange b s order P = Throw LogicError /\ sad_rs_exchange b s order P = Throw LogicError.
Proof.
  intros [Esh (_ & Hgen & _)] H. unfold sad_exchange, sad_rs_exchange. split.
  - destruct (Nat.eqb _ _); [reflexivity|]. now apply (sad_loop_rejects b lmax).
  - destruct (_ && _)%bool; [reflexivity|]. destruct (t_yukawa s); now apply (sad_loop_rejects b lmax).
Qed.

(* ---------- Slater integrals ---------- *)

Lemma slater_ok b k n c : fits (b_lay b) -> kernel_ok (b_lay b) (b_bare b) k ->
  (n = lnbf (b_lay b) -> slater_F b k n c = Ok (sum n (fun p => sum n (fun q => sum n (fun r => sum n (fun t =>
     kernel_tensor (b_lay b) (b_bare b) k p q r t * (c p * c q) * (c r * c t))))))) /\
  (n <> lnbf (b_lay b) -> slater_F b k n c = Throw LogicError).
Proof.
  intros Hf Hk. split; intros Hn; unfold slater_F.
  - rewrite Hn, Nat.eqb_refl. cbn [negb]. set (N := lnbf (b_lay b)) in *.
    set (P := mkD N N (fun i j => c i * c j)).
    destruct (proj1 (uncached_ok (b_lay b) (b_bare b) k P Hf (conj eq_refl eq_refl) Hk)) as (J & EJ & RJ & CJ & VJ).
    fold N in EJ, RJ, CJ, VJ. rewrite EJ. cbn [bind].
    rewrite dprod_ok by (cbn [dcols P]; congruence). cbn [bind]. f_equal. unfold dtrace. cbn [drows dcols dent P]. rewrite CJ, Nat.min_id.
    unfold mmul. apply sum_ext. intros i Hi.
    transitivity (sum N (fun q => c i * c q * coulomb_of N (kernel_tensor (b_lay b) (b_bare b) k) (dent P) q i)).
    + apply sum_ext. intros q Hq. now rewrite VJ.
    + apply sum_ext. intros q Hq. unfold coulomb_of. rewrite <- sum_scal. apply sum_ext. intros r Hr. rewrite <- sum_scal.
      apply sum_ext. intros t Ht. cbn [dent P].
      unfold kernel_tensor. rewrite (tensor_pair_sym (b_lay b) _) with (a := q) (b := i).
      * ring.
      * intros i0 j0 a' b' c' d' Hi0 Hj0 Ha Hb Hc Hd. destruct Hk as [K1 K2]. unfold element_pair.
        destruct (Nat.eqb_spec i0 j0) as [->|Hne].
        -- destruct (K1 j0 Hj0) as (_ & _ & _ & _ & _ & S1). apply S1; auto. now apply pair_ix_lt.
        -- destruct (Nat.ltb_spec i0 j0).
           ++ destruct (K1 i0 Hi0) as (_ & _ & S1 & _). now rewrite (S1 a' b').
           ++ destruct (K2 i0) as (_ & _ & S1); [lia|]. now rewrite (S1 a' b').
  - destruct (Nat.eqb_spec n (lnbf (b_lay b))); [contradiction|]. reflexivity.
Qed.

(* ---------- symmetry ---------- *)

Lemma gaunt_swap_sq eval lo m L M li m' : generator_ok eval ->
  gaunt_coefficient eval lo m L M li m' ^ 2 = gaunt_coefficient eval li m' L (- M) lo m ^ 2.
Proof.
  intros (H1 & H2 & H3 & _). unfold gaunt_coefficient.
  assert (E : eval (2 * lo)%Z (-2 * m)%Z (2 * L)%Z (2 * M)%Z (2 * li)%Z (2 * m')%Z =
              eval (2 * li)%Z (-2 * m')%Z (2 * L)%Z (2 * - M)%Z (2 * lo)%Z (2 * m)%Z).
  { rewrite H3, H1, H2, H1. f_equal; lia. }
  rewrite E. assert (Hs : forall z, (parity_sign z) ^ 2 = 1) by (intros z; unfold parity_sign; destruct (Z.odd z); ring).
  rewrite !Rpow_mult_distr, !Hs. reflexivity.
Qed.

Lemma lsum_lswap {A B} (l : list A) (r : list B) f : lsum l (fun a => lsum r (fun b => f a b)) = lsum r (fun b => lsum l (fun a => f a b)).
Proof.
  induction l as [|x l IH]; cbn [lsum]; [symmetry; now apply lsum_zero|]. rewrite IH, <- lsum_plus. reflexivity.
Qed.

Lemma weight_symmetric eval lo L li : generator_ok eval -> (0 <= lo)%Z -> (0 <= li)%Z ->
  IZR (2 * lo + 1) * averaged_weight eval lo L li = IZR (2 * li + 1) * averaged_weight eval li L lo.
Proof.
  intros Hg Ho Hi. unfold averaged_weight. rewrite <- !Rmult_assoc, !Rinv_r, !Rmult_1_l by (apply not_0_IZR; lia).
  rewrite lsum_lswap. apply lsum_ext. intros m' _. apply lsum_ext. intros m _.
  replace (Z.abs (m' - m)) with (Z.abs (m - m')) by lia. destruct (_ <=? _)%Z; [|reflexivity].
  rewrite (gaunt_swap_sq eval lo m L (m - m') li m' Hg). do 2 f_equal. lia.
Qed.

Lemma tensor_swap lay block :
  (forall i j a b c d, (i < lnel lay)%nat -> (j < lnel lay)%nat -> (a < count_of lay i)%nat -> (b < count_of lay i)%nat ->
     (c < count_of lay j)%nat -> (d < count_of lay j)%nat -> block i j a b c d = block j i c d a b) ->
  forall a b c d, tensor lay block a b c d = tensor lay block c d a b.
Proof.
  intros H a b c d. unfold tensor. rewrite sum_swap. apply sum_ext. intros j Hj. apply sum_ext. intros i Hi.
  rewrite (andb_comm (inside lay i a && inside lay i b)%bool).
  destruct (inside lay j c && inside lay j d && (inside lay i a && inside lay i b))%bool eqn:E; [|reflexivity].
  rewrite !andb_true_iff in E. destruct E as [[E1 E2] [E3 E4]].
  apply H; auto; now apply inside_lt.
Qed.

Lemma stored_tensor_swap lay k tol L a b c d : stored_tensor lay k tol L a b c d = stored_tensor lay k tol L c d a b.
Proof.
  apply tensor_swap. intros i j p q r t Hi Hj _ _ _ _. unfold element_pair.
  destruct (Nat.eqb_spec i j) as [->|Hne].
  - rewrite Nat.eqb_refl. unfold factor_tensor. apply sum_ext. intros; ring.
  - destruct (Nat.eqb_spec j i); [congruence|]. destruct (Nat.ltb_spec i j), (Nat.ltb_spec j i); try lia; ring.
Qed.

Lemma sum4_swap N (f : nat -> nat -> nat -> nat -> R) :
  sum N (fun a => sum N (fun b => sum N (fun c => sum N (fun d => f a b c d)))) =
  sum N (fun c => sum N (fun d => sum N (fun a => sum N (fun b => f a b c d)))).
Proof.
  transitivity (sum N (fun a => sum N (fun c => sum N (fun d => sum N (fun b => f a b c d))))).
  - apply sum_ext. intros a _. rewrite sum_swap. apply sum_ext. intros c _. apply sum_swap.
  - rewrite sum_swap. apply sum_ext. intros c _. apply sum_swap.
Qed.

Lemma exchange_of_adj N T X Y : fully_symmetric N T -> mdot N (exchange_of N T X) Y = mdot N X (exchange_of N T Y).
Proof.
  intros HT. unfold mdot, exchange_of.
  transitivity (sum N (fun a => sum N (fun b => sum N (fun c => sum N (fun d => T a c b d * X c d * Y a b))))).
  - apply sum_ext. intros a _. apply sum_ext. intros b _. rewrite <- sum_scal_r. apply sum_ext. intros c _.
    rewrite <- sum_scal_r. reflexivity.
  - rewrite sum4_swap. apply sum_ext. intros c Hc. apply sum_ext. intros d Hd. rewrite <- sum_scal.
    apply sum_ext. intros a Ha. rewrite <- sum_scal. apply sum_ext. intros b Hb.
    assert (E : T a c b d = T c a d b).
    { destruct (HT a c b d Ha Hc Hb Hd) as [-> _]. destruct (HT c a b d Hc Ha Hb Hd) as [_ ->].
      destruct (HT b d c a Hb Hd Hc Ha) as [-> _]. now destruct (HT d b c a Hd Hb Hc Ha) as [_ ->]. }
    rewrite E. ring.
Qed.

Lemma coulomb_of_adj N T X Y : fully_symmetric N T -> mdot N (coulomb_of N T X) Y = mdot N X (coulomb_of N T Y).
Proof.
  intros HT. unfold mdot, coulomb_of.
  transitivity (sum N (fun a => sum N (fun b => sum N (fun c => sum N (fun d => T a b c d * X c d * Y a b))))).
  - apply sum_ext. intros a _. apply sum_ext. intros b _. rewrite <- sum_scal_r. apply sum_ext. intros c _.
    rewrite <- sum_scal_r. reflexivity.
  - rewrite sum4_swap. apply sum_ext. intros c Hc. apply sum_ext. intros d Hd. rewrite <- sum_scal.
    apply sum_ext. intros a Ha. rewrite <- sum_scal. apply sum_ext. intros b Hb.
    destruct (HT a b c d Ha Hb Hc Hd) as [_ ->]. ring.
Qed.

Lemma mdot_sum_l N n (X : nat -> mat) (w : nat -> R) Y : mdot N (fun a b => sum n (fun k => w k * X k a b)) Y = sum n (fun k => w k * mdot N (X k) Y).
Proof.
  unfold mdot.
  transitivity (sum N (fun a => sum n (fun k => w k * sum N (fun b => X k a b * Y a b)))).
  - apply sum_ext. intros a _. transitivity (sum N (fun b => sum n (fun k => w k * (X k a b * Y a b)))).
    + apply sum_ext. intros b _. rewrite <- sum_scal_r. apply sum_ext. intros; ring.
    + rewrite sum_swap. apply sum_ext. intros; apply sum_scal.
  - rewrite sum_swap. apply sum_ext. intros; apply sum_scal.
Qed.
Lemma mdot_comm N X Y : mdot N X Y = mdot N Y X.
Proof. unfold mdot. apply sum_ext. intros. apply sum_ext. intros. ring. Qed.
Lemma mdot_ext N X X' Y Y' : (forall a b, (a < N)%nat -> (b < N)%nat -> X a b = X' a b) ->
  (forall a b, (a < N)%nat -> (b < N)%nat -> Y a b = Y' a b) -> mdot N X Y = mdot N X' Y'.
Proof. intros H1 H2. unfold mdot. apply sum_ext. intros. apply sum_ext. intros. now rewrite H1, H2. Qed.

Lemma averaged_exchange_dot eval lmax N fac Rad p q l :
  mdot N (averaged_exchange eval lmax N fac Rad p l) q =
  - sum (lmax + 1) (fun lin => sum (2 * lmax + 1) (fun L =>
      fac (Z.of_nat L) * averaged_weight eval (Z.of_nat l) (Z.of_nat L) (Z.of_nat lin) * mdot N (exchange_of N (Rad L) (p lin)) q)).
Proof.
  unfold averaged_exchange.
  transitivity (mdot N (fun a b => sum 1 (fun _ => (-1) * sum (lmax + 1) (fun lin => 1 * sum (2 * lmax + 1) (fun L =>
      fac (Z.of_nat L) * averaged_weight eval (Z.of_nat l) (Z.of_nat L) (Z.of_nat lin) * exchange_of N (Rad L) (p lin) a b)))) q).
  - apply mdot_ext; [|reflexivity]. intros a b _ _. cbn [sum]. rewrite Rplus_0_l. replace (-1) with (- (1)) by ring. rewrite Ropp_mult_distr_l_reverse, Rmult_1_l. f_equal.
    apply sum_ext. intros; ring.
  - rewrite (mdot_sum_l N 1 (fun _ a b => sum (lmax + 1) (fun lin => 1 * sum (2 * lmax + 1) (fun L =>
      fac (Z.of_nat L) * averaged_weight eval (Z.of_nat l) (Z.of_nat L) (Z.of_nat lin) * exchange_of N (Rad L) (p lin) a b))) (fun _ => -1)).
    cbn [sum]. rewrite Rplus_0_l. replace (-1) with (- (1)) by ring. rewrite Ropp_mult_distr_l_reverse, Rmult_1_l. f_equal.
    rewrite (mdot_sum_l N (lmax + 1) (fun lin a b => sum (2 * lmax + 1) (fun L =>
      fac (Z.of_nat L) * averaged_weight eval (Z.of_nat l) (Z.of_nat L) (Z.of_nat lin) * exchange_of N (Rad L) (p lin) a b)) (fun _ => 1)).
    apply sum_ext. intros lin _. rewrite Rmult_1_l.
    apply (mdot_sum_l N (2 * lmax + 1) (fun L => exchange_of N (Rad L) (p lin))).
Qed.

Lemma averaged_exchange_adj eval lmax N fac Rad p q : generator_ok eval ->
  (forall L, (L < 2 * lmax + 1)%nat -> fully_symmetric N (Rad L)) ->
  shell_dot lmax N (averaged_exchange eval lmax N fac Rad p) q = shell_dot lmax N p (averaged_exchange eval lmax N fac Rad q).
Proof.
  intros Hg HT. unfold shell_dot.
  transitivity (- sum (lmax + 1) (fun lo => sum (lmax + 1) (fun li => sum (2 * lmax + 1) (fun L =>
    fac (Z.of_nat L) * (INR (2 * lo + 1) * averaged_weight eval (Z.of_nat lo) (Z.of_nat L) (Z.of_nat li)) * mdot N (exchange_of N (Rad L) (p li)) (q lo))))).
  - rewrite <- sum_opp. apply sum_ext. intros lo _. rewrite averaged_exchange_dot. rewrite Ropp_mult_distr_r_reverse. f_equal.
    rewrite <- sum_scal. apply sum_ext. intros li _. rewrite <- sum_scal. apply sum_ext. intros; ring.
  - rewrite sum_swap, <- sum_opp. apply sum_ext. intros li _. rewrite (mdot_comm N (p li)), averaged_exchange_dot, Ropp_mult_distr_r_reverse. f_equal.
    rewrite <- sum_scal. apply sum_ext. intros lo _. rewrite <- sum_scal. apply sum_ext. intros L HL.
    rewrite exchange_of_adj by now apply HT. rewrite (mdot_comm N (p li)).
    pose proof (weight_symmetric eval (Z.of_nat lo) (Z.of_nat L) (Z.of_nat li) Hg ltac:(lia) ltac:(lia)) as HW.
    assert (EI : forall n, IZR (2 * Z.of_nat n + 1) = INR (2 * n + 1)) by (intros n; rewrite INR_IZR_INZ; f_equal; lia).
    rewrite !EI in HW. rewrite HW. ring.
Qed.
