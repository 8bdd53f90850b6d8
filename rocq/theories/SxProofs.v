(** Lemmas on the two-electron matrices of spherically averaged atoms. *)
Require Import Reals ZArith List Bool Arith Lia Lra Permutation.
Require Import Verif.Prelude Verif.AngModel Verif.AngProofs Verif.CholSpec Verif.JKModel Verif.JKSpec Verif.JKProofs Verif.GauntModel Verif.GauntSpec
  Verif.GauntProofs Verif.TwoDModel Verif.TwoDSpec Verif.TwoDProofs Verif.SxModel Verif.SxSpec.
Import ListNotations.
Local Open Scope R_scope.

(* ---------- the shells ---------- *)

Lemma zmax_in l : l <> [] -> In (zmax_list l) l.
Proof.
  destruct l as [|x r]; [congruence|]. intros _. unfold zmax_list. generalize x. clear x. induction r as [|y r IH]; intros x; [now left|].
  cbn [fold_left]. destruct (IH (Z.max x y)) as [H|H]; [|right; now right].
  rewrite <- H. destruct (Z.max_spec x y) as [[_ ->]|[_ ->]]; [right|]; now left.
Qed.

Lemma sum_nonneg_zero n f : (forall i, (i < n)%nat -> 0 <= f i) -> sum n f = 0 -> forall i, (i < n)%nat -> f i = 0.
Proof.
  induction n as [|n IH]; intros Hf H i Hi; [lia|]. cbn [sum] in H.
  assert (H1 : 0 <= sum n f) by (apply sum_nonneg; auto). assert (H2 : 0 <= f n) by auto.
  destruct (Nat.eq_dec i n) as [->|]; [lra|]. apply IH; auto; [lra|lia].
Qed.

Lemma zmax_seq l : (0 <= l)%Z -> forall n, Z.of_nat n = (l + 1)%Z ->
  zmax_list (map fst (map (fun l => (Z.of_nat l, 0%Z)) (seq 0 n))) = l.
Proof.
  intros Hl n Hn.
  assert (HI : In l (map fst (map (fun l => (Z.of_nat l, 0%Z)) (seq 0 n)))).
  { rewrite map_map. apply in_map_iff. exists (Z.to_nat l). cbn [fst]. split; [lia|]. apply in_seq. lia. }
  pose proof (zmax_list_ge _ _ HI).
  assert (HM := zmax_in _ ltac:(intros E; rewrite E in HI; destruct HI) : In _ (map fst (map (fun l => (Z.of_nat l, 0%Z)) (seq 0 n)))).
  set (z := zmax_list _) in *. clearbody z.
  rewrite map_map in HM. apply in_map_iff in HM. destruct HM as (k & E & Hk). apply in_seq in Hk. cbn [fst] in E. lia.
Qed.

Lemma sad_lmax lmax : lmax_of (sad_shells lmax) = Z.of_nat lmax.
Proof. unfold lmax_of, sad_shells. apply zmax_seq; lia. Qed.

Lemma sad_N_L lmax : N_L_of (sad_shells lmax) = (2 * lmax + 1)%nat.
Proof. unfold N_L_of. rewrite sad_lmax. lia. Qed.

(* ---------- the averaged couplings ---------- *)

Section Couplings.
Variables (b : tbasis) (lmax : nat).
Hypothesis Hsh : b_sh b = sad_shells lmax.
Hypothesis Hgen : generator_ok (b_eval b).

Definition answers (g : gtable) : Prop := forall lo m L li m',
  (0 <= lo <= Z.of_nat lmax)%Z -> (Z.abs m <= lo)%Z -> (0 <= L <= 2 * Z.of_nat lmax)%Z ->
  (0 <= li <= Z.of_nat lmax)%Z -> (Z.abs m' <= li)%Z ->
  coeff g lo m L (m - m') li =
    Ok (if (Z.abs (m - m') <=? L)%Z then gaunt_coefficient (b_eval b) lo m L (m - m') li m' else 0).

Lemma sad_gaunt_ok : exists g, sad_gaunt b = Ok g /\ answers g.
Proof.
  unfold sad_gaunt. rewrite Hsh, sad_lmax.
  destruct (gaunt_table_ok (b_eval b) (Z.of_nat lmax) (2 * Z.of_nat lmax) (Z.of_nat lmax) (-1) Hgen) as (g & E & Hg); try lia.
  exists g. split; [exact E|]. intros lo m L li m' H1 H2 H3 H4 H5.
  destruct (Hg lo m L (m - m')%Z li) as (A & _ & C & _).
  destruct (Z.leb_spec (Z.abs (m - m')) L) as [HL|HL].
  - rewrite A; unfold in_range, within_cap; try lia. f_equal. f_equal. lia.
  - apply C. right. right. exact HL.
Qed.

Lemma sad_totcoup_ok g lo li : answers g -> (0 <= lo <= Z.of_nat lmax)%Z -> (0 <= li <= Z.of_nat lmax)%Z ->
  exists t, sad_totcoup g lo li = Ok t /\
    forall L, (Z.abs (li - lo) <= L <= li + lo)%Z -> t L = averaged_weight (b_eval b) lo L li.
Proof.
  intros Hg Ho Hi. unfold sad_totcoup.
  set (ok := fun L : Z => (Z.abs (li - lo) <= L <= li + lo)%Z).
  set (w := fun m m' L => if (Z.abs (m - m') <=? L)%Z then gaunt_coefficient (b_eval b) lo m L (m - m') li m' else 0).
  set (f3 := fun m m' => fun t L => bind (coeff g lo m L (m - m') li) (fun c1 => bind (coeff g lo m L (m - m') li) (fun c2 =>
    Ok (zset t L (t L + c1 * c2))))).
  set (f2 := fun m => fun t m' => fold_res (f3 m m') (zrange (Z.abs (li - lo)) (li + lo)) t).
  set (f1 := fun t m => fold_res (f2 m) (zrange (- li) li) t).
  destruct (fold_res_obs f1 (fun _ => True) (fun t L => t L) ok
    (fun m L => lsum (zrange (- li) li) (fun m' => w m m' L ^ 2)) (zrange (- lo) lo)) with (s := fun _ : Z => 0) as (t & E & _ & V); auto.
  - intros t m Hm _. apply zrange_in in Hm. unfold f1.
    destruct (fold_res_obs (f2 m) (fun _ => True) (fun t L => t L) ok
      (fun m' L => w m m' L ^ 2) (zrange (- li) li)) with (s := t) as (t' & E & _ & V); auto.
    + intros t0 m' Hm' _. apply zrange_in in Hm'. unfold f2.
      destruct (fold_res_obs (f3 m m') (fun _ => True) (fun t L => t L) ok
        (fun L0 L => if (L0 =? L)%Z then w m m' L ^ 2 else 0) (zrange (Z.abs (li - lo)) (li + lo))) with (s := t0)
        as (t' & E & _ & V); auto.
      * intros t1 L HL _. apply zrange_in in HL. unfold f3. rewrite Hg by lia. fold (w m m' L). cbn [bind].
        eexists. split; [reflexivity|]. split; [exact I|]. intros L' _. unfold zset.
        rewrite (Z.eqb_sym L' L). destruct (Z.eqb_spec L L') as [->|]; ring.
      * exists t'. split; [exact E|]. split; [exact I|]. intros L HL. rewrite V by exact HL. f_equal.
        rewrite (lsum_zpick _ _ L (fun _ => w m m' L ^ 2)). unfold ok in HL.
        replace ((Z.abs (li - lo) <=? L) && (L <=? li + lo))%Z with true; [reflexivity|].
        symmetry. apply andb_true_intro. split; apply Z.leb_le; lia.
    + exists t'. split; [exact E|]. split; [exact I|]. intros L HL. now rewrite V.
  - exists (fun L => t L / IZR (2 * lo + 1)). split.
    { transitivity (bind (fold_res f1 (zrange (- lo) lo) (fun _ => 0)) (fun t => Ok (fun L : Z => t L / IZR (2 * lo + 1)))); [reflexivity|].
      rewrite E. reflexivity. }
    intros L HL. rewrite V by exact HL. unfold averaged_weight.
    rewrite Rplus_0_l. unfold Rdiv. rewrite Rmult_comm. f_equal. apply lsum_ext. intros m _. apply lsum_ext. intros m' _.
    unfold w. destruct (_ <=? _)%Z; ring.
Qed.

Lemma averaged_weight_zero lo L li : ~ (Z.abs (li - lo) <= L <= li + lo)%Z -> averaged_weight (b_eval b) lo L li = 0.
Proof.
  intros H. unfold averaged_weight. rewrite (lsum_ext _ _ (fun _ => 0)).
  - rewrite lsum_zero by reflexivity. ring.
  - intros m _. apply lsum_zero. intros m' _. destruct (_ <=? _)%Z; [|reflexivity].
    destruct Hgen as (_ & _ & _ & Hz). unfold gaunt_coefficient.
    replace (-2 * m)%Z with (2 * - m)%Z by lia. rewrite Hz; [ring|]. left. unfold triangle. lia.
Qed.
End Couplings.

Lemma fnorm_zero N X : density N X -> fnorm X = 0 -> forall c d, (c < N)%nat -> (d < N)%nat -> dent X c d = 0.
Proof.
  intros [R1 C1] H c d Hc Hd. unfold fnorm in H. rewrite R1, C1 in H.
  assert (Hr : forall i, (i < N)%nat -> 0 <= sum N (fun j => dent X i j * dent X i j)).
  { intros i _. apply sum_nonneg. intros j _. apply Rle_0_sqr. }
  apply sqrt_eq_0 in H; [|apply sum_nonneg; exact Hr].
  assert (H1 := sum_nonneg_zero N _ Hr H c Hc). cbv beta in H1.
  assert (H2 := sum_nonneg_zero N _ (fun j _ => Rle_0_sqr (dent X c j)) H1 d Hd). cbv beta in H2.
  apply Rmult_integral in H2. tauto.
Qed.

(* ---------- the loop over the input angular momenta ---------- *)

Section Exchange.
Variables (b : tbasis) (lmax : nat) (g : gtable) (Lfac : Z -> R) (P : list dmat).
Hypothesis Hsh : b_sh b = sad_shells lmax.
Hypothesis Hgen : generator_ok (b_eval b).
Hypothesis Hg : answers b lmax g.
Let N := lnbf (b_lay b).
Hypothesis HP : radial_densities lmax N P.

Lemma sx_add s L X : r_inv b s -> (0 <= L <= 2 * Z.of_nat lmax)%Z -> density N X ->
  exists s', r_add (2 * lmax + 1) s L X = Ok s' /\ r_inv b s' /\
    forall L' c d, dent (fst s' L') c d = dent (fst s L') c d + (if (L =? L')%Z then dent X c d else 0).
Proof.
  intros Hs HL [R1 C1]. rewrite <- sad_N_L, <- Hsh.
  apply (r_add_ok b (dzero (length (b_sh b) * N) (length (b_sh b) * N)) eq_refl eq_refl); auto.
  rewrite Hsh, sad_N_L. lia.
Qed.

Lemma cube_at_ok l : (l <= lmax)%nat -> cube_at P l = Ok (nth l P dempty) /\ density N (nth l P dempty).
Proof.
  intros Hl. destruct HP as [HL HX]. assert (Hlt : (l < length P)%nat) by lia. split.
  - unfold cube_at. now rewrite (nth_error_nth' P dempty Hlt).
  - apply HX. now apply nth_In.
Qed.

Definition sx_val (lout : nat) (L : Z) (c d : nat) : R :=
  sum (lmax + 1) (fun lin => Lfac L * averaged_weight (b_eval b) (Z.of_nat lout) L (Z.of_nat lin) * pick P lin c d).

Lemma sad_sums_ok lout : (lout <= lmax)%nat ->
  exists s, sad_sums b g Lfac P lout = Ok s /\ r_inv b s /\
    forall L c d, (0 <= L <= 2 * Z.of_nat lmax)%Z -> (c < N)%nat -> (d < N)%nat -> dent (fst s L) c d = sx_val lout L c d.
Proof.
  intros Hlo. unfold sad_sums. rewrite Hsh, sad_lmax.
  replace (Z.to_nat (Z.of_nat lmax + 1)) with (lmax + 1)%nat by lia.
  replace (Z.to_nat (2 * Z.of_nat lmax + 1)) with (2 * lmax + 1)%nat by lia. fold N.
  set (ok := fun i : Z * nat * nat => (0 <= fst (fst i) <= 2 * Z.of_nat lmax)%Z /\ (snd (fst i) < N)%nat /\ (snd i < N)%nat).
  set (obs := fun (s : (Z -> dmat) * (Z -> bool)) (i : Z * nat * nat) => dent (fst s (fst (fst i))) (snd (fst i)) (snd i)).
  match goal with |- exists s, fold_res ?f _ _ = _ /\ _ =>
    destruct (fold_res_obs f (r_inv b) obs ok
      (fun lin i => Lfac (fst (fst i)) * averaged_weight (b_eval b) (Z.of_nat lout) (fst (fst i)) (Z.of_nat lin) * pick P lin (snd (fst i)) (snd i))
      (seq 0 (lmax + 1))) with (s := (fun _ : Z => dzero N N, fun _ : Z => false)) as (s & E & Hs & V) end.
  - intros s lin Hlin Hs. apply in_seq in Hlin.
    destruct (cube_at_ok lin ltac:(lia)) as [EX HX]. rewrite EX. cbn [bind]. set (X := nth lin P dempty) in *.
    change (pick P lin) with (dent X).
    destruct (Reqb_spec (fnorm X) 0) as [E0|_].
    { exists s. split; [reflexivity|]. split; [exact Hs|]. intros i (_ & Hc & Hd).
      rewrite (fnorm_zero N X HX E0 _ _ Hc Hd). ring. }
    destruct (sad_totcoup_ok b lmax g (Z.of_nat lout) (Z.of_nat lin) Hg) as (t & Et & Vt); try lia.
    rewrite Et. cbn [bind].
    match goal with |- exists s', fold_res ?f _ _ = _ /\ _ =>
      destruct (fold_res_obs f (r_inv b) obs ok
        (fun L i => if (L =? fst (fst i))%Z then Lfac L * averaged_weight (b_eval b) (Z.of_nat lout) L (Z.of_nat lin) * dent X (snd (fst i)) (snd i) else 0)
        (zrange (Z.abs (Z.of_nat lin - Z.of_nat lout)) (Z.of_nat lin + Z.of_nat lout))) with (s := s) as (s' & E & Hs' & V) end; auto.
    + intros s0 L HL Hs0. apply zrange_in in HL. rewrite (Vt L HL).
      destruct (Reqb_spec (averaged_weight (b_eval b) (Z.of_nat lout) L (Z.of_nat lin)) 0) as [E0|_].
      * exists s0. split; [reflexivity|]. split; [exact Hs0|]. intros i _. rewrite E0. destruct (_ =? _)%Z; ring.
      * destruct (sx_add s0 L (dscale (Lfac L * averaged_weight (b_eval b) (Z.of_nat lout) L (Z.of_nat lin)) X) Hs0) as (s' & E & Hs' & V);
          [lia|exact HX|]. exists s'. split; [exact E|]. split; [exact Hs'|]. intros i _. unfold obs. rewrite V. reflexivity.
    + exists s'. split; [exact E|]. split; [exact Hs'|]. intros i Hi. rewrite V by exact Hi. f_equal.
      set (L := fst (fst i)).
      rewrite (lsum_zpick _ _ L (fun L => Lfac L * averaged_weight (b_eval b) (Z.of_nat lout) L (Z.of_nat lin) * dent X (snd (fst i)) (snd i))).
      destruct (Z.leb_spec (Z.abs (Z.of_nat lin - Z.of_nat lout)) L) as [H1|H1];
        [destruct (Z.leb_spec L (Z.of_nat lin + Z.of_nat lout)) as [H2|H2]|]; cbn [andb]; [reflexivity| |];
        rewrite averaged_weight_zero by (auto; lia); ring.
  - split; [intros L; split; reflexivity|intros; reflexivity].
  - exists s. split; [exact E|]. split; [exact Hs|]. intros L c d HL Hc Hd.
    specialize (V (L, c, d)). unfold obs in V. cbn [fst snd] in V. rewrite V by (unfold ok; cbn [fst snd]; auto).
    cbn [dent dzero]. unfold mzero. rewrite lsum_seq0. unfold sx_val. ring.
Qed.

Variables (Krad : nat -> dmat -> res dmat) (Rad : nat -> nat -> nat -> nat -> nat -> R).
Hypothesis HK : forall L X, (L < 2 * lmax + 1)%nat -> density N X ->
  is_matrix (Krad L X) N (exchange_of N (Rad L) (dent X)).

Lemma sx_block s (Kl : dmat) : r_inv b s -> density N Kl ->
  is_matrix (fold_res (fun Kl L => if negb (snd s (Z.of_nat L)) then Ok Kl else
            bind (Krad L (fst s (Z.of_nat L))) (fun X => dadd Kl (dscale (-1) X))) (seq 0 (2 * lmax + 1)) Kl) N
    (fun x y => dent Kl x y - sum (2 * lmax + 1) (fun L => exchange_of N (Rad L) (dent (fst s (Z.of_nat L))) x y)).
Proof.
  intros [H1 H2] [RK CK].
  match goal with |- is_matrix (fold_res ?f ?l0 _) _ _ =>
    destruct (fold_adds N N f (fun L x y => - exchange_of N (Rad L) (dent (fst s (Z.of_nat L))) x y) l0)
      with (M := Kl) as (B & E & R1 & C1 & V) end; auto.
  - intros L HL B RB CB. apply in_seq in HL. destruct (snd s (Z.of_nat L)) eqn:Es; cbn [negb].
    + destruct (HK L (fst s (Z.of_nat L))) as (X & EX & RX & CX & VX); [lia|apply H1|]. rewrite EX. cbn [bind].
      unfold dadd. cbn [drows dcols dscale]. rewrite RB, CB, RX, CX, !Nat.eqb_refl. cbn [andb]. eexists. split; [reflexivity|]. repeat split.
      intros x y Hx Hy. cbn [dent dscale]. unfold madd, mscal. rewrite VX by auto. ring.
    + exists B. repeat split; auto. intros x y _ _. unfold exchange_of. rewrite sum_zero'; [ring|].
      intros c _. apply sum_zero'. intros d _. rewrite H2 by auto. ring.
  - exists B. repeat split; auto. intros x y Hx Hy. rewrite V by auto. rewrite lsum_seq0.
    replace (sum (2 * lmax + 1) (fun L => - exchange_of N (Rad L) (dent (fst s (Z.of_nat L))) x y))
      with (- sum (2 * lmax + 1) (fun L => exchange_of N (Rad L) (dent (fst s (Z.of_nat L))) x y)); [ring|].
    rewrite <- (Rmult_1_l (sum _ _)), Ropp_mult_distr_l, <- sum_scal. apply sum_ext. intros; ring.
Qed.

Lemma exchange_of_lin n T f (w : nat -> R) (X : nat -> mat) a c :
  (forall i j, (i < N)%nat -> (j < N)%nat -> f i j = sum n (fun k => w k * X k i j)) ->
  exchange_of N T f a c = sum n (fun k => w k * exchange_of N T (X k) a c).
Proof.
  intros H. unfold exchange_of.
  transitivity (sum N (fun i => sum n (fun k => w k * sum N (fun j => T a i c j * X k i j)))).
  - apply sum_ext. intros i Hi.
    transitivity (sum N (fun j => sum n (fun k => w k * (T a i c j * X k i j)))).
    + apply sum_ext. intros j Hj. rewrite H by auto. rewrite <- sum_scal. apply sum_ext. intros; ring.
    + rewrite sum_swap. apply sum_ext. intros k _. apply sum_scal.
  - rewrite sum_swap. apply sum_ext. intros k _. apply sum_scal.
Qed.

Lemma sad_exchange_loop_ok order : visits lmax order -> sad_gaunt b = Ok g ->
  is_cube (sad_exchange_loop b Krad Lfac order P) (lmax + 1) N (averaged_exchange (b_eval b) lmax N Lfac Rad (pick P)).
Proof.
  intros Ho Eg. unfold sad_exchange_loop. rewrite Eg. cbn [bind]. rewrite Hsh, sad_lmax.
  replace (Z.to_nat (Z.of_nat lmax + 1)) with (lmax + 1)%nat by lia.
  replace (Z.to_nat (2 * Z.of_nat lmax + 1)) with (2 * lmax + 1)%nat by lia. fold N.
  assert (HlP := proj1 HP). destruct (Z.eqb_spec (Z.of_nat (length P)) (Z.of_nat lmax + 1)); [|lia]. cbn [negb].
  destruct (cube_at_ok 0 ltac:(lia)) as [E0 [R0 C0]]. rewrite E0. cbn [bind]. rewrite R0, C0, Nat.eqb_refl. cbn [negb orb].
  assert (Hnd : NoDup order) by (eapply Permutation_NoDup; [symmetry; exact Ho|apply seq_NoDup]).
  match goal with |- is_cube (bind (fold_res ?f _ ?s0) _) _ _ _ =>
    destruct (fold_res_inv (fun done (K : nat -> dmat) => (forall l, density N (K l)) /\
      (forall l x y, (x < N)%nat -> (y < N)%nat -> dent (K l) x y =
         if in_dec Nat.eq_dec l done then averaged_exchange (b_eval b) lmax N Lfac Rad (pick P) l x y else 0))
      f order s0) as (K & EK & HKd & HKv) end.
  - split; [intros l; split; reflexivity|]. intros l x y _ _. destruct (in_dec _ _ _) as [[]|]. reflexivity.
  - intros done lout K (rest & Er) [HKd HKv].
    assert (Hlo : (lout <= lmax)%nat).
    { assert (In lout order) as Hin by (rewrite Er; apply in_or_app; right; now left).
      apply (Permutation_in _ Ho) in Hin. apply in_seq in Hin. lia. }
    assert (Hni : ~ In lout done).
    { rewrite Er in Hnd. apply NoDup_remove_2 in Hnd. intros H. apply Hnd. apply in_or_app. now left. }
    destruct (sad_sums_ok lout Hlo) as (s & Es & Hs & Vs). rewrite Es. cbn [bind].
    destruct (sx_block s (K lout) Hs (HKd lout)) as (B & EB & RB & CB & VB). rewrite EB. cbn [bind].
    eexists. split; [reflexivity|]. split.
    + intros l. destruct (Nat.eqb l lout); [split; auto|apply HKd].
    + intros l x y Hx Hy. destruct (Nat.eqb_spec l lout) as [->|Hne].
      * destruct (in_dec _ _ _) as [_|Hno]; [|exfalso; apply Hno; apply in_or_app; right; now left].
        rewrite VB by auto. rewrite HKv by auto. destruct (in_dec Nat.eq_dec lout done); [contradiction|].
        unfold averaged_exchange. rewrite Rminus_0_l. f_equal. rewrite sum_swap. apply sum_ext. intros L HL.
        apply (exchange_of_lin (lmax + 1) (Rad L) (dent (fst s (Z.of_nat L)))
          (fun lin => Lfac (Z.of_nat L) * averaged_weight (b_eval b) (Z.of_nat lout) (Z.of_nat L) (Z.of_nat lin)) (pick P)).
        intros i j Hi Hj. apply Vs; auto. lia.
      * rewrite HKv by auto. destruct (in_dec Nat.eq_dec l done) as [H1|H1], (in_dec Nat.eq_dec l (done ++ [lout])) as [H2|H2]; auto.
        -- exfalso. apply H2. apply in_or_app. now left.
        -- exfalso. apply in_app_iff in H2. destruct H2 as [H2|[H2|[]]]; congruence.
  - rewrite EK. cbn [bind]. exists (map K (seq 0 (lmax + 1))). split; [reflexivity|]. split; [now rewrite map_length, seq_length|].
    intros l Hl. rewrite (nth_indep _ dempty (K 0%nat)) by (rewrite map_length, seq_length; exact Hl).
    rewrite (map_nth K), seq_nth by exact Hl. cbn [Nat.add].
    split; [apply HKd|]. split; [apply HKd|]. intros x y Hx Hy. rewrite HKv by auto.
    destruct (in_dec _ _ _) as [_|Hno]; [reflexivity|]. exfalso. apply Hno.
    apply (Permutation_in _ (Permutation_sym Ho)). apply in_seq. lia.
Qed.
End Exchange.
