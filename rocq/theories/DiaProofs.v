(** Proofs about the Coulomb matrix of a diatomic basis. *)
Require Import Reals ZArith List Bool Arith Lia Lra Permutation.
Require Import Verif.Prelude Verif.AngModel Verif.AngSpec Verif.AngProofs Verif.CholModel Verif.CholSpec Verif.CholProofs
  Verif.JKModel Verif.JKSpec Verif.JKProofs Verif.GauntModel Verif.GauntSpec Verif.GauntProofs
  Verif.TwoDModel Verif.TwoDSpec Verif.TwoDProofs Verif.TeiModel Verif.DiaModel Verif.DiaSpec.
Import ListNotations.
Local Open Scope R_scope.

(* ---------- couplings ---------- *)

Lemma gaunt_zero eval L M l m lp mp : generator_ok eval ->
  ~ (Z.abs (L - lp) <= l <= L + lp)%Z -> gaunt_coefficient eval L M l m lp mp = 0.
Proof.
  intros (H1 & H2 & _ & Hz) HL. unfold gaunt_coefficient.
  replace (-2 * M)%Z with (2 * - M)%Z by lia. rewrite Hz; [ring|].
  left. unfold triangle. lia.
Qed.

Lemma fold_plus_ext {A} (f : A -> R) l : forall s, fold_left (fun s x => s + f x) l s = s + lsum l f.
Proof. induction l as [|x l IH]; intros s; cbn [fold_left lsum]; [ring|]. rewrite IH. ring. Qed.

Lemma mod_zero eval lj mj L M li mi : generator_ok eval -> (0 <= li)%Z -> (0 <= lj)%Z -> (Z.abs M <= L)%Z ->
  ~ (Z.abs (lj - li) - 2 <= L <= lj + li + 2)%Z -> modified_gaunt_coefficient eval lj mj L M li mi = 0.
Proof.
  intros Hg Hi Hj HM HL. unfold modified_gaunt_coefficient.
  rewrite (fold_plus_ext (fun Lp => gaunt_coefficient eval Lp M 2 0 L M * gaunt_coefficient eval lj mj li mi Lp M)).
  rewrite (gaunt_zero eval lj mj li mi L M Hg) by lia.
  rewrite lsum_zero; [ring|]. intros Lp HLp. rewrite zrange_in in HLp.
  rewrite (gaunt_zero eval lj mj li mi Lp M Hg); [ring|]. lia.
Qed.

Definition Cc (b : dbasis) (ch i j : nat) (L : Z) : R :=
  channel_coupling (db_eval b) ch (l_of (db_sh b) j) (m_of (db_sh b) j) L (m_of (db_sh b) j - m_of (db_sh b) i)
    (l_of (db_sh b) i) (m_of (db_sh b) i).

Definition prange (sh : list (Z * Z)) (i j : nat) : Z * Z :=
  (Z.max (Z.abs (l_of sh j - l_of sh i) - 2) (Z.abs (m_of sh j - m_of sh i)), (l_of sh j + l_of sh i + 2)%Z).

Definition dcouples (b : dbasis) (g : gtable) : Prop :=
  forall i j L, (i < length (db_sh b))%nat -> (j < length (db_sh b))%nat ->
    (fst (prange (db_sh b) i j) <= L <= snd (prange (db_sh b) i j))%Z ->
    mod_coeff g (l_of (db_sh b) j) (m_of (db_sh b) j) L (m_of (db_sh b) j - m_of (db_sh b) i) (l_of (db_sh b) i) (m_of (db_sh b) i)
      = Ok (Cc b 0 i j L) /\
    coeff g (l_of (db_sh b) j) (m_of (db_sh b) j) L (m_of (db_sh b) j - m_of (db_sh b) i) (l_of (db_sh b) i) = Ok (Cc b 1 i j L).

Lemma dcouples_ok b : dbasis_ok b -> exists g, di_gaunt b = Ok g /\ dcouples b g.
Proof.
  intros (Hsh & Hgen & _). pose proof (diatomic_couplings_ok (db_eval b) (db_sh b) true Hgen Hsh) as H.
  unfold di_gaunt. destruct (diatomic_gaunt (db_sh b) true) as [[lr mid] cap]. destruct H as (g & E & _ & H).
  exists g. split; [exact E|]. intros i j L Hi Hj HL. unfold prange in HL. cbn [fst snd] in HL.
  destruct (H eq_refl (l_of (db_sh b) i) (m_of (db_sh b) i) (l_of (db_sh b) j) (m_of (db_sh b) j) L) as [H1 H2].
  - now apply shell_in.
  - now apply shell_in.
  - exact HL.
  - split; [exact H1|exact H2].
Qed.

Lemma Cc_zero b ch i j L : dbasis_ok b -> (i < length (db_sh b))%nat -> (j < length (db_sh b))%nat ->
  (Z.abs (m_of (db_sh b) j - m_of (db_sh b) i) <= L)%Z ->
  ~ (fst (prange (db_sh b) i j) <= L <= snd (prange (db_sh b) i j))%Z -> Cc b ch i j L = 0.
Proof.
  intros (Hsh & Hgen & _) Hi Hj HM HL. unfold prange in HL. cbn [fst snd] in HL.
  pose proof (shell_bounds (db_sh b) Hsh i Hi) as (A1 & _). pose proof (shell_bounds (db_sh b) Hsh j Hj) as (B1 & _).
  unfold Cc, channel_coupling. destruct (Nat.eqb ch 0).
  - apply mod_zero; auto; clear - A1 B1 HM HL; lia.
  - apply gaunt_zero; auto. clear - A1 B1 HM HL. lia.
Qed.

(* ---------- the prefactor ---------- *)

Lemma fold_mult_acc l : forall s, fold_left (fun fr p => fr * IZR p) l s = s * fold_left (fun fr p => fr * IZR p) l 1.
Proof.
  induction l as [|p l IH]; intros s; cbn [fold_left]; [ring|]. rewrite IH, (IH (1 * IZR p)). ring.
Qed.

Lemma fold_mult_app l l' : fold_left (fun fr p => fr * IZR p) (l ++ l') 1 =
  fold_left (fun fr p => fr * IZR p) l 1 * fold_left (fun fr p => fr * IZR p) l' 1.
Proof. now rewrite fold_left_app, fold_mult_acc. Qed.

Lemma fact_product n : forall k, (k <= n)%nat ->
  fold_left (fun fr p => fr * IZR p) (rev (zrange (Z.of_nat (n - k) + 1) (Z.of_nat n))) 1 * INR (fact (n - k)) = INR (fact n).
Proof.
  induction k as [|k IH]; intros Hk.
  - rewrite Nat.sub_0_r. unfold zrange. replace (Z.to_nat _) with 0%nat by lia. cbn [seq map rev fold_left]. ring.
  - rewrite <- (IH ltac:(lia)).
    assert (E : zrange (Z.of_nat (n - S k) + 1) (Z.of_nat n) = (Z.of_nat (n - S k) + 1)%Z :: zrange (Z.of_nat (n - k) + 1) (Z.of_nat n)).
    { unfold zrange. replace (Z.to_nat (Z.of_nat n - (Z.of_nat (n - S k) + 1) + 1)) with (S (Z.to_nat (Z.of_nat n - (Z.of_nat (n - k) + 1) + 1))) by lia.
      cbn [seq map]. f_equal; [lia|]. rewrite <- seq_shift, map_map. apply map_ext. intros; lia. }
    rewrite E. cbn [rev]. rewrite fold_mult_app. cbn [fold_left].
    replace (n - k)%nat with (S (n - S k)) by lia. rewrite fact_simpl, mult_INR.
    replace (IZR (Z.of_nat (n - S k) + 1)) with (INR (S (n - S k))) by (rewrite INR_IZR_INZ; f_equal; lia). ring.
Qed.

Lemma LMfac_ok Rhalf L M : (Z.abs M <= L)%Z ->
  (if Z.odd M then -1 else 1) * LMfac_entry Rhalf (L, Z.abs M) = multipole_factor Rhalf L M.
Proof.
  intros H. unfold LMfac_entry, multipole_factor. f_equal.
  pose proof (fact_product (Z.to_nat (L + Z.abs M)) (Z.to_nat (2 * Z.abs M)) ltac:(lia)) as E.
  replace (Z.to_nat (L + Z.abs M) - Z.to_nat (2 * Z.abs M))%nat with (Z.to_nat (L - Z.abs M)) in E by lia.
  replace (Z.of_nat (Z.to_nat (L - Z.abs M)) + 1)%Z with (L - Z.abs M + 1)%Z in E by lia.
  replace (Z.of_nat (Z.to_nat (L + Z.abs M))) with (L + Z.abs M)%Z in E by lia.
  pose proof (INR_fact_neq_0 (Z.to_nat (L - Z.abs M))) as N1. pose proof (INR_fact_neq_0 (Z.to_nat (L + Z.abs M))) as N2.
  set (F := fold_left _ _ _) in *. assert (F <> 0) by (intros HF; rewrite HF, Rmult_0_l in E; congruence).
  rewrite <- E. field. auto.
Qed.

Lemma signed_factor_ok Rhalf lm M ilm L : nth_error lm ilm = Some (L, Z.abs M) -> (Z.abs M <= L)%Z ->
  signed_factor (build_LMfac_abs Rhalf lm) M ilm = Ok (multipole_factor Rhalf L M).
Proof.
  intros H HM. unfold signed_factor, build_LMfac_abs. rewrite nth_error_map, H. cbn [option_map]. now rewrite LMfac_ok.
Qed.

(* ---------- the tables ---------- *)

Record tables (sh lm lM : list (Z * Z)) : Prop := mkTabs {
  tb_build : build_tables sh = Ok (lm, lM);
  tb_M : forall i j L, (i < length sh)%nat -> (j < length sh)%nat -> (fst (prange sh i j) <= L <= snd (prange sh i j))%Z ->
    exists n, LMind lM L (m_of sh j - m_of sh i) true = Ok n /\ nth_error lM n = Some (L, (m_of sh j - m_of sh i)%Z);
  tb_lm : forall L M, In (L, M) lM -> exists n, lmind lm L M true = Ok n /\ nth_error lm n = Some (L, Z.abs M);
  tb_le : forall L M, In (L, M) lM -> (Z.abs M <= L)%Z;
  tb_inv : forall L M, In (L, M) lM -> exists i j, (i < length sh)%nat /\ (j < length sh)%nat /\
     M = (m_of sh j - m_of sh i)%Z /\ (fst (prange sh i j) <= L <= snd (prange sh i j))%Z }.

Lemma tables_ok sh : exists lm lM, tables sh lm lM.
Proof.
  destruct (build_tables_ok sh) as (lm & lM & E & _ & _ & I1 & I2). exists lm, lM.
  destruct (tables_lookup sh lm lM E) as (T1 & _ & T3 & _).
  assert (HI : forall L M, In (L, M) lM -> exists i j, (i < length sh)%nat /\ (j < length sh)%nat /\
     M = (m_of sh j - m_of sh i)%Z /\ (fst (prange sh i j) <= L <= snd (prange sh i j))%Z).
  { intros L M H. apply I1 in H. destruct H as (i & j & Hi & Hj & EM & HL).
    destruct (In_nth sh i (0, 0)%Z Hi) as (ni & Hni & Ei). destruct (In_nth sh j (0, 0)%Z Hj) as (nj & Hnj & Ej).
    exists ni, nj. unfold prange, l_of, m_of. rewrite Ei, Ej. cbn [fst snd]. subst M. auto. }
  split; auto.
  - intros i j L Hi Hj HL. apply T1. apply I1. exists (nth i sh (0, 0)%Z), (nth j sh (0, 0)%Z).
    split; [now apply nth_In|]. split; [now apply nth_In|]. split; [reflexivity|]. exact HL.
  - intros L M H. apply T3. apply I2. exists M. auto.
  - intros L M H. apply I1 in H. destruct H as (i & j & _ & _ & EM & HL). lia.
Qed.

(* ---------- Coulomb: the ket ---------- *)

Lemma mem_put_same m a i v : mem_put m (a, i) v a i = v.
Proof. unfold mem_put. cbn [fst snd]. now rewrite !Nat.eqb_refl. Qed.
Lemma mem_put_other m a i v a' i' : (a', i') <> (a, i) -> mem_put m (a, i) v a' i' = m a' i'.
Proof.
  intros H. unfold mem_put. cbn [fst snd]. destruct (Nat.eqb_spec a' a); destruct (Nat.eqb_spec i' i); cbn [andb]; auto. congruence.
Qed.

Definition ch_inv (n Nrad : nat) (A : memory) : Prop :=
  forall a i, (i < n)%nat -> drows (A a i) = Nrad /\ dcols (A a i) = Nrad.

Lemma put_add_ok n Nrad A a i X : ch_inv n Nrad A -> (i < n)%nat -> drows X = Nrad -> dcols X = Nrad ->
  exists A', put_add n A (a, i) X = Ok A' /\ ch_inv n Nrad A' /\
    forall a' i' c d, dent (A' a' i') c d = dent (A a' i') c d + (if (Nat.eqb a a' && Nat.eqb i i')%bool then dent X c d else 0).
Proof.
  intros HA Hi RX CX. unfold put_add. cbn [fst snd]. destruct (Nat.ltb_spec i n); [|lia].
  destruct (HA a i Hi) as [R1 C1]. unfold dadd. rewrite R1, C1, RX, CX, !Nat.eqb_refl. cbn [andb bind].
  eexists. split; [reflexivity|]. split.
  - intros a' i' Hi'. destruct (Nat.eq_dec a' a) as [->|]; [destruct (Nat.eq_dec i' i) as [->|]|].
    + rewrite mem_put_same. auto.
    + rewrite mem_put_other by congruence. now apply HA.
    + rewrite mem_put_other by congruence. now apply HA.
  - intros a' i' c d. destruct (Nat.eqb_spec a a') as [<-|]; cbn [andb]; [destruct (Nat.eqb_spec i i') as [<-|]|].
    + rewrite mem_put_same. reflexivity.
    + rewrite mem_put_other by congruence. ring.
    + rewrite mem_put_other by congruence. ring.
Qed.

Section Coulomb.
Variables (b : dbasis) (g : gtable) (lm lM : list (Z * Z)).
Hypothesis Hb : dbasis_ok b.
Hypothesis Hco : dcouples b g.
Hypothesis Htb : tables (db_sh b) lm lM.
Let sh := db_sh b.
Let nsh := length sh.
Let Nrad := lnbf (db_lay b).

Lemma nth_shell i : nth i sh (0, 0)%Z = (l_of sh i, m_of sh i).
Proof. unfold l_of, m_of. now rewrite <- surjective_pairing. Qed.

Definition ket_val (P : mat) (ch : nat) (L M : Z) (c d : nat) : R :=
  sum nsh (fun k => sum nsh (fun l =>
    if ((fst (prange sh l k) <=? L) && (L <=? snd (prange sh l k)) && (m_of sh k - m_of sh l =? M))%bool%Z
    then Cc b ch l k L * P (fn Nrad k c) (fn Nrad l d) else 0)).

Lemma di_ket_ok P : drows P = (nsh * Nrad)%nat -> dcols P = (nsh * Nrad)%nat ->
  exists A, di_ket sh lM Nrad g P = Ok A /\ ch_inv (length lM) Nrad A /\
    forall ch n L M c d, (ch < 2)%nat -> nth_error lM n = Some (L, M) -> dent (A ch n) c d = ket_val (dent P) ch L M c d.
Proof.
  intros RP CP. unfold di_ket.
  set (okI := fun x : nat * nat * Z * Z * nat * nat => let '(ch, n, L, M, c, d) := x in (ch < 2)%nat /\ nth_error lM n = Some (L, M)).
  set (obs := fun (A : memory) (x : nat * nat * Z * Z * nat * nat) => let '(ch, n, L, M, c, d) := x in dent (A ch n) c d).
  set (dl := fun k l (x : nat * nat * Z * Z * nat * nat) => let '(ch, n, L, M, c, d) := x in
    if ((fst (prange sh l k) <=? L) && (L <=? snd (prange sh l k)) && (m_of sh k - m_of sh l =? M))%bool%Z
    then Cc b ch l k L * dent P (fn Nrad k c) (fn Nrad l d) else 0).
  match goal with |- exists A, fold_res ?f ?l0 ?s0 = _ /\ _ =>
    destruct (fold_res_obs f (ch_inv (length lM) Nrad) obs okI (fun k x => sum nsh (fun l => dl k l x)) l0) with (s := s0) as (A & E & HI & HO)
  end.
  - intros A k Hk HA. apply in_seq in Hk.
    match goal with |- exists s', fold_res ?f ?l0 ?s0 = _ /\ _ =>
      destruct (fold_res_obs f (ch_inv (length lM) Nrad) obs okI (fun l x => dl k l x) l0) with (s := s0) as (A' & E & HI & HO)
    end; [|exact HA|exists A'; split; [exact E|]; split; [exact HI|]; intros x Hx; rewrite HO, lsum_seq0 by auto; reflexivity].
    intros A0 l Hl HA0. apply in_seq in Hl. rewrite (nth_shell k), (nth_shell l).
    match goal with |- exists s', fold_res ?f ?l0 ?s0 = _ /\ _ =>
      destruct (fold_res_obs f (ch_inv (length lM) Nrad) obs okI (fun L' x => let '(ch, n, L, M, c, d) := x in
         if (L' =? L)%Z then (if (m_of sh k - m_of sh l =? M)%Z then Cc b ch l k L' * dent P (fn Nrad k c) (fn Nrad l d) else 0) else 0) l0)
         with (s := s0) as (A' & E & HI & HO)
    end; [|exact HA0|].
    + intros A1 L' HL' HA1. apply zrange_in in HL'.
      assert (Hlk : (l < length sh)%nat /\ (k < length sh)%nat) by (unfold nsh in *; lia). destruct Hlk as [Hl' Hk'].
      destruct (tb_M _ _ _ Htb l k L' Hl' Hk' HL') as (n0 & E1 & E2). fold sh in E1. rewrite E1. cbn [bind].
      destruct (Hco l k L' Hl' Hk' HL') as [C1 C2]. fold sh in C1, C2. rewrite C1. cbn [bind]. rewrite C2. cbn [bind].
      rewrite (ang_block_ok sh Nrad P k l RP CP) by (unfold nsh, sh in *; lia). cbn [bind].
      set (X := mkD Nrad Nrad (fun c d => dent P (fn Nrad k c) (fn Nrad l d))).
      assert (Hn0 : (n0 < length lM)%nat) by (apply nth_error_Some; congruence).
      assert (S1 : exists A2, (if Reqb (Cc b 0 l k L') 0 then Ok A1 else put_add (length lM) A1 (0%nat, n0) (dscale (Cc b 0 l k L') X)) = Ok A2 /\
        ch_inv (length lM) Nrad A2 /\ forall a i c d, dent (A2 a i) c d = dent (A1 a i) c d + (if (Nat.eqb 0 a && Nat.eqb n0 i)%bool then Cc b 0 l k L' * dent X c d else 0)).
      { destruct (Reqb_spec (Cc b 0 l k L') 0) as [Ez|].
        - exists A1. split; [reflexivity|]. split; [exact HA1|]. intros. rewrite Ez. destruct (_ && _)%bool; ring.
        - destruct (put_add_ok (length lM) Nrad A1 0 n0 (dscale (Cc b 0 l k L') X) HA1 Hn0 eq_refl eq_refl) as (A2 & EA & I2 & V2).
          exists A2. split; [exact EA|]. split; [exact I2|]. intros. rewrite V2. reflexivity. }
      destruct S1 as (A2 & EA2 & I2 & V2). rewrite EA2. cbn [bind].
      assert (S2 : exists A3, (if Reqb (Cc b 1 l k L') 0 then Ok A2 else put_add (length lM) A2 (1%nat, n0) (dscale (Cc b 1 l k L') X)) = Ok A3 /\
        ch_inv (length lM) Nrad A3 /\ forall a i c d, dent (A3 a i) c d = dent (A2 a i) c d + (if (Nat.eqb 1 a && Nat.eqb n0 i)%bool then Cc b 1 l k L' * dent X c d else 0)).
      { destruct (Reqb_spec (Cc b 1 l k L') 0) as [Ez|].
        - exists A2. split; [reflexivity|]. split; [exact I2|]. intros. rewrite Ez. destruct (_ && _)%bool; ring.
        - destruct (put_add_ok (length lM) Nrad A2 1 n0 (dscale (Cc b 1 l k L') X) I2 Hn0 eq_refl eq_refl) as (A3 & EA & I3 & V3).
          exists A3. split; [exact EA|]. split; [exact I3|]. intros. rewrite V3. reflexivity. }
      destruct S2 as (A3 & EA3 & I3 & V3). exists A3. split; [exact EA3|]. split; [exact I3|].
      intros [[[[[ch n] L] M] c] d] [Hch Hn]. unfold obs. rewrite V3, V2, Rplus_assoc. f_equal.
      assert (Hnn : Nat.eqb n0 n = ((L' =? L) && (m_of sh k - m_of sh l =? M))%bool%Z).
      { destruct (Nat.eqb_spec n0 n) as [->|Hne].
        - fold sh in E2. rewrite E2 in Hn. injection Hn as -> ->. now rewrite !Z.eqb_refl.
        - destruct (Z.eqb_spec L' L) as [->|]; cbn [andb]; auto.
          destruct (Z.eqb_spec (m_of sh k - m_of sh l) M) as [EM|]; auto.
          exfalso. apply Hne. fold sh in E2. rewrite EM in E2.
          destruct (tables_lookup _ _ _ (tb_build _ _ _ Htb)) as (T1 & _).
          destruct (build_tables_ok (db_sh b)) as (lm' & lM' & EB & _ & A2' & _).
          rewrite (tb_build _ _ _ Htb) in EB. injection EB as <- <-.
          clear - E2 Hn A2'. 
          assert (ND : NoDup lM).
          { clear - A2'. induction A2' as [|p l _ IH Hp]; constructor; auto. intros Hin. rewrite Forall_forall in Hp. specialize (Hp p Hin).
            unfold LM_less in Hp. rewrite !Z.ltb_irrefl in Hp. discriminate. }
          eapply (proj1 (NoDup_nth_error lM)); eauto; [apply nth_error_Some|]; congruence. }
      rewrite Hnn. subst X. cbn [dent].
      destruct (Z.eqb_spec L' L) as [->|]; cbn [andb]; [|rewrite !andb_false_r; ring].
      destruct (m_of sh k - m_of sh l =? M)%Z; [|rewrite !andb_false_r; ring]. rewrite !andb_true_r.
      destruct ch as [|[|ch]]; cbn [Nat.eqb]; [ring|ring|lia].
    + exists A'. split; [exact E|]. split; [exact HI|]. intros [[[[[ch n] L] M] c] d] Hx. rewrite HO by exact Hx.
      f_equal. rewrite lsum_zpick. unfold dl, prange. cbn [fst snd].
      destruct (_ && _)%bool; cbn [andb]; auto.
  - intros a i _. split; reflexivity.
  - exists A. split; [exact E|]. split; [exact HI|]. intros ch n L M c d Hch Hn.
    pose proof (HO (ch, n, L, M, c, d) (conj Hch Hn)) as H. unfold obs in H. rewrite H.
    rewrite lsum_seq0. cbn [zero_channels dent dzero]. unfold mzero, ket_val, dl. fold nsh. ring.
Qed.
End Coulomb.

(* ---------- Coulomb: the radial part ---------- *)

Section Radial.
Variables (lay : layout) (s : dstate) (I : integrals) (nlm : nat).
Hypothesis Hfit : fits lay.
Variables (ilm : nat) (L Ma : Z).
Hypothesis Hilm : (ilm < nlm)%nat.
Hypothesis Hsize : ds_size s = (lnel lay * nlm)%nat.

Definition stored_at : Prop := forall e, (e < lnel lay)%nat ->
  let at_ := (ilm * lnel lay + e)%nat in let n := count_of lay e in
  (forall ch, (ch < 2)%nat ->
     supplies (fun e => arr s ch (ilm * lnel lay + e)) e n n (in_P I L Ma ch e) /\ symmetric n (in_P I L Ma ch e) /\
     supplies (fun e => arr s (2 + ch) (ilm * lnel lay + e)) e n n (in_Q I L Ma ch e) /\ symmetric n (in_Q I L Ma ch e)) /\
  let B := ds_mem s 4%nat at_ in let sigma := ds_mem s 5%nat at_ in
  drows B = (2 * (n * n))%nat /\ drows sigma = dcols B /\ dcols sigma = 1%nat /\
  forall x y, (x < 2 * (n * n))%nat -> (y < 2 * (n * n))%nat ->
    in_W I L Ma e x y = sum (dcols B) (fun p => dent sigma p 0%nat * (dent B x p * dent B y p)).
Hypothesis Hst : stored_at.

Lemma arr_ok a e : (e < lnel lay)%nat -> arr s a (ilm * lnel lay + e) = Ok (ds_mem s a (ilm * lnel lay + e)%nat).
Proof. intros He. unfold arr. rewrite Hsize. destruct (Nat.ltb_spec (ilm * lnel lay + e) (lnel lay * nlm)); [reflexivity|nia]. Qed.

Definition trace_val (X P : mat) (e : nat) : R :=
  sum (count_of lay e) (fun c => sum (count_of lay e) (fun d => X c d * P (first_of lay e + c)%nat (first_of lay e + d)%nat)).

Lemma stored_trace_ok a e X P : (e < lnel lay)%nat ->
  supplies (fun e => arr s a (ilm * lnel lay + e)) e (count_of lay e) (count_of lay e) X -> symmetric (count_of lay e) X ->
  stored_trace s a (ilm * lnel lay + e)
    (mkD (count_of lay e) (count_of lay e) (fun c d => dent P (first_of lay e + c)%nat (first_of lay e + d)%nat)) =
  Ok (trace_val X (dent P) e).
Proof.
  intros He (A & EA & RA & CA & VA) Hs. unfold stored_trace. rewrite EA. cbn [bind].
  destruct (trace_ok lay P (fun e => arr s a (ilm * lnel lay + e)) X e A He EA RA CA VA Hs) as (AP & E1 & E2).
  rewrite E1. cbn [bind]. now rewrite E2.
Qed.

Definition two (J : dmat * dmat) (ch : nat) : dmat := if Nat.eqb ch 0 then fst J else snd J.
Definition two_inv (J : dmat * dmat) : Prop := forall ch, drows (two J ch) = lnbf lay /\ dcols (two J ch) = lnbf lay.
Definition two_obs (J : dmat * dmat) (x : nat * nat * nat) : R := let '(ch, a, b) := x in dent (two J ch) a b.
Definition two_in (x : nat * nat * nat) : Prop := let '(ch, a, b) := x in (ch < 2)%nat /\ (a < lnbf lay)%nat /\ (b < lnbf lay)%nat.

Lemma two_mk A B : drows A = lnbf lay -> dcols A = lnbf lay -> drows B = lnbf lay -> dcols B = lnbf lay -> two_inv (A, B).
Proof. intros. intros ch. unfold two. cbn [fst snd]. destruct (Nat.eqb ch 0); auto. Qed.
Lemma two_parts J : two_inv J -> drows (fst J) = lnbf lay /\ dcols (fst J) = lnbf lay /\ drows (snd J) = lnbf lay /\ dcols (snd J) = lnbf lay.
Proof. intros H. destruct (H 0%nat). destruct (H 1%nat). auto. Qed.

Lemma di_disjoint_ok k f0 f2 els (X : nat -> nat -> mat) J :
  (forall e, In e els -> (e < lnel lay)%nat /\ forall ch, (ch < 2)%nat ->
     supplies (fun e => arr s (k + ch) (ilm * lnel lay + e)) e (count_of lay e) (count_of lay e) (X ch e)) ->
  two_inv J -> exists J', di_disjoint lay s ilm k f0 f2 els J = Ok J' /\ two_inv J' /\
    forall x, two_in x -> two_obs J' x = two_obs J x + lsum els (fun e => let '(ch, a, b) := x in
      if (inside lay e a && inside lay e b)%bool
      then (if Nat.eqb ch 0 then f0 else f2) * X ch e (local lay e a) (local lay e b) else 0).
Proof.
  intros H HJ. unfold di_disjoint.
  apply (fold_res_obs _ two_inv two_obs two_in (fun e x => let '(ch, a, b) := x in
      if (inside lay e a && inside lay e b)%bool
      then (if Nat.eqb ch 0 then f0 else f2) * X ch e (local lay e a) (local lay e b) else 0) els); [|exact HJ].
  intros Y e He HY. destruct (H e He) as [Hlt HX]. destruct (two_parts Y HY) as (Y1 & Y2 & Y3 & Y4).
  rewrite (surjective_pairing (lidx lay e)). fold (first_of lay e) (count_of lay e).
  destruct (HX 0%nat ltac:(lia)) as (A & EA & RA & CA & VA). rewrite Nat.add_0_r in EA. rewrite EA. cbn [bind].
  destruct (HX 1%nat ltac:(lia)) as (B & EB & RB & CB & VB). rewrite EB. cbn [bind].
  destruct (block_add_ok (fst Y) (first_of lay e) (first_of lay e) (count_of lay e) (count_of lay e) (dscale f0 A)
    (lnbf lay) (lnbf lay) Y1 Y2 (Hfit e Hlt) (Hfit e Hlt) RA CA) as (J0 & E1 & R1 & C1 & V1). rewrite E1. cbn [bind].
  destruct (block_add_ok (snd Y) (first_of lay e) (first_of lay e) (count_of lay e) (count_of lay e) (dscale f2 B)
    (lnbf lay) (lnbf lay) Y3 Y4 (Hfit e Hlt) (Hfit e Hlt) RB CB) as (J2 & E2 & R2 & C2 & V2). rewrite E2. cbn [bind].
  exists (J0, J2). split; [reflexivity|]. split; [now apply two_mk|].
  intros [[ch a] b] (Hch & Ha & Hbb). unfold two_obs, two. cbn [fst snd].
  destruct ch as [|[|ch]]; [| |lia]; cbn [Nat.eqb]; rewrite ?V1, ?V2, win_square; f_equal; cbn [dscale dent];
  destruct (inside lay e a) eqn:I1; destruct (inside lay e b) eqn:I2; cbn [andb]; auto;
  unfold mscal; rewrite ?VA, ?VB; auto; now apply inside_lt.
Qed.

Lemma sum_double n f : sum (2 * n) f = sum 2 (fun ch => sum n (fun k => f (ch * n + k)%nat)).
Proof.
  replace (2 * n)%nat with (n + n)%nat by lia. rewrite sum_split. cbn [sum].
  replace (fun k => f (0 * n + k)%nat) with f by reflexivity. rewrite Nat.mul_1_l. ring.
Qed.

Definition local_J (f : R) (P : nat -> mat) (j ch i x y : nat) : R :=
  f * sum 2 (fun ch' => sum (count_of lay j) (fun c => sum (count_of lay j) (fun d =>
    two_block lay I L Ma ch ch' i j x y c d * P ch' (first_of lay j + c)%nat (first_of lay j + d)%nat))).

Lemma sum2_head f : sum 2 f = f 0%nat + f 1%nat.
Proof. cbn [sum]. ring. Qed.

Lemma di_in_element_ok f (P : nat -> mat) j J : (j < lnel lay)%nat -> two_inv J ->
  let Pl ch := mkD (count_of lay j) (count_of lay j) (fun c d => P ch (first_of lay j + c)%nat (first_of lay j + d)%nat) in
  exists J', di_in_element lay s ilm j f (Pl 0%nat) (Pl 1%nat) J = Ok J' /\ two_inv J' /\
    forall x, two_in x -> two_obs J' x = two_obs J x + (let '(ch, a, b) := x in
      if (inside lay j a && inside lay j b)%bool then local_J f P j ch j (local lay j a) (local lay j b) else 0).
Proof.
  intros Hj HJ Pl. destruct (Hst j Hj) as (_ & RB & RS & CS & HW).
  set (B := ds_mem s 4%nat (ilm * lnel lay + j)%nat) in *. set (sg := ds_mem s 5%nat (ilm * lnel lay + j)%nat) in *.
  unfold di_in_element. rewrite (surjective_pairing (lidx lay j)). fold (first_of lay j) (count_of lay j).
  set (n := count_of lay j) in *. rewrite !arr_ok by exact Hj. cbn [bind]. fold B. fold sg.
  set (p2 := stack (dvec (Pl 0%nat)) (dvec (Pl 1%nat))).
  assert (Rp : drows p2 = (2 * (n * n))%nat) by (subst p2 Pl; cbn [stack dvec drows dcols]; fold n; lia).
  assert (Cp : dcols p2 = 1%nat) by reflexivity.
  assert (Vp : forall ch k, (ch < 2)%nat -> (k < n * n)%nat -> dent p2 (ch * (n * n) + k)%nat 0%nat =
      P ch (first_of lay j + k mod n)%nat (first_of lay j + k / n)%nat).
  { intros ch k Hch Hk. subst p2 Pl. cbn [stack dvec drows dcols dent]. fold n.
    destruct ch as [|[|ch]]; [| |lia].
    - destruct (Nat.ltb_spec (0 * (n * n) + k) (n * n)); [reflexivity|lia].
    - destruct (Nat.ltb_spec (1 * (n * n) + k) (n * n)); [lia|]. replace (1 * (n * n) + k - n * n)%nat with k by lia. reflexivity. }
  clearbody p2.
  rewrite dprod_ok by (cbn [dT dcols]; lia). cbn [bind dT drows dcols dent].
  unfold array_mul. cbn [drows dcols dent]. rewrite RS, CS, Cp, !Nat.eqb_refl. cbn [andb bind].
  rewrite dprod_ok by reflexivity. cbn [bind]. unfold head, tail. cbn [dscale drows dcols dent].
  rewrite RB. destruct (Nat.leb_spec (n * n) (2 * (n * n))); [|lia]. cbn [bind].
  rewrite !reshape_ok by reflexivity. cbn [bind dent].
  assert (Val : forall ch k, (ch < 2)%nat -> (k < n * n)%nat ->
    f * mmul (dcols B) (dent B) (fun p j0 => mmul (2 * (n * n)) (mT (dent B)) (dent p2) p j0 * dent sg p j0) (ch * (n * n) + k)%nat 0%nat =
    f * sum 2 (fun ch' => sum n (fun c => sum n (fun d =>
       in_W I L Ma j (ch * (n * n) + k)%nat (ch' * (n * n) + pair_ix n c d)%nat * P ch' (first_of lay j + c)%nat (first_of lay j + d)%nat)))).
  { intros ch k Hch Hk. f_equal. unfold mmul, mT.
    transitivity (sum (2 * (n * n)) (fun y => in_W I L Ma j (ch * (n * n) + k)%nat y * dent p2 y 0%nat)).
    - rewrite (sum_ext (dcols B) _ (fun p => sum (2 * (n * n)) (fun y =>
         dent sg p 0%nat * (dent B (ch * (n * n) + k)%nat p * dent B y p) * dent p2 y 0%nat))).
      + rewrite sum_swap. apply sum_ext. intros y Hy. rewrite HW by nia. now rewrite sum_scal_r.
      + intros p Hp. rewrite Rmult_comm, Rmult_assoc, <- sum_scal_r. apply sum_ext. intros; ring.
    - rewrite sum_double. apply sum_ext. intros ch' Hch'.
      rewrite (sum_ext (n * n) _ (fun k' => in_W I L Ma j (ch * (n * n) + k)%nat (ch' * (n * n) + k')%nat *
         (fun c d => P ch' (first_of lay j + c)%nat (first_of lay j + d)%nat) (k' mod n)%nat (k' / n)%nat)).
      + apply (sum_vec n n (fun k' => in_W I L Ma j (ch * (n * n) + k)%nat (ch' * (n * n) + k')%nat)
          (fun c d => P ch' (first_of lay j + c)%nat (first_of lay j + d)%nat)).
      + intros k' Hk'. now rewrite Vp. }
  destruct (two_parts J HJ) as (Y1 & Y2 & Y3 & Y4).
  match goal with |- exists J', bind (block_add _ _ _ _ _ ?X) _ = _ /\ _ => set (X0 := X) end.
  destruct (block_add_ok (fst J) (first_of lay j) (first_of lay j) n n X0
    (lnbf lay) (lnbf lay) Y1 Y2 (Hfit j Hj) (Hfit j Hj) eq_refl eq_refl) as (J0 & E1 & R1 & C1 & V1). rewrite E1. cbn [bind].
  match goal with |- exists J', bind (block_add _ _ _ _ _ ?X) _ = _ /\ _ => set (X2 := X) end.
  destruct (block_add_ok (snd J) (first_of lay j) (first_of lay j) n n X2
    (lnbf lay) (lnbf lay) Y3 Y4 (Hfit j Hj) (Hfit j Hj) eq_refl eq_refl) as (J2 & E2 & R2 & C2 & V2). rewrite E2. cbn [bind].
  exists (J0, J2). split; [reflexivity|]. split; [now apply two_mk|].
  intros [[ch a] b] (Hch & Ha & Hbb). unfold two_obs, two. cbn [fst snd].
  assert (Fin : forall X, (forall x y, (x < n)%nat -> (y < n)%nat -> dent X x y = local_J f P j ch j x y) ->
    win (first_of lay j) n (first_of lay j) n (dent X) a b =
    if (inside lay j a && inside lay j b)%bool then local_J f P j ch j (local lay j a) (local lay j b) else 0).
  { intros X HX. subst n. rewrite win_square. destruct (inside lay j a) eqn:I1; destruct (inside lay j b) eqn:I2; cbn [andb]; auto.
    apply HX; now apply inside_lt. }
  destruct ch as [|[|ch]]; [| |lia]; cbn [Nat.eqb].
  - rewrite V1. f_equal. apply Fin. intros x y Hx Hy. subst X0. cbn [dent]. unfold mscal.
    pose proof (pair_ix_lt n n x y Hx Hy) as Hk. pose proof (Val 0%nat _ ltac:(lia) Hk) as HV. rewrite (Nat.mul_0_l (n * n)), Nat.add_0_l in HV.
    rewrite HV. unfold local_J, two_block. rewrite Nat.eqb_refl. reflexivity.
  - rewrite V2. f_equal. apply Fin. intros x y Hx Hy. subst X2. cbn [dent]. unfold mscal.
    pose proof (pair_ix_lt n n x y Hx Hy) as Hk. pose proof (Val 1%nat _ ltac:(lia) Hk) as HV.
    replace (2 * (n * n) - n * n + pair_ix n x y)%nat with (1 * (n * n) + pair_ix n x y)%nat by lia.
    rewrite HV. unfold local_J, two_block. rewrite Nat.eqb_refl. reflexivity.
Qed.

Lemma di_element_ok f P0 P2 j J : density (lnbf lay) P0 -> density (lnbf lay) P2 -> (j < lnel lay)%nat -> two_inv J ->
  let P := fun ch => dent (if Nat.eqb ch 0 then P0 else P2) in
  exists J', di_element lay s ilm f P0 P2 J j = Ok J' /\ two_inv J' /\
    forall x, two_in x -> two_obs J' x = two_obs J x + (let '(ch, a, b) := x in
      sum (lnel lay) (fun i => if (inside lay i a && inside lay i b)%bool then local_J f P j ch i (local lay i a) (local lay i b) else 0)).
Proof.
  intros [R0 C0] [R2 C2] Hj HJ P. unfold di_element.
  rewrite (surjective_pairing (lidx lay j)). fold (first_of lay j) (count_of lay j).
  pose proof (Hfit j Hj) as Hf. rewrite (get_block_ok P0) by lia. rewrite (get_block_ok P2) by lia. cbn [bind].
  destruct (Hst j Hj) as (HPQ & _).
  destruct (HPQ 0%nat ltac:(lia)) as (S0 & Y0 & T0 & Z0). destruct (HPQ 1%nat ltac:(lia)) as (S1 & Y1 & T1 & Z1).
  rewrite (stored_trace_ok 0 j _ P0 Hj S0 Y0). cbn [bind]. rewrite (stored_trace_ok 2 j _ P0 Hj T0 Z0). cbn [bind].
  rewrite (stored_trace_ok 1 j _ P2 Hj S1 Y1). cbn [bind]. rewrite (stored_trace_ok 3 j _ P2 Hj T1 Z1). cbn [bind].
  match goal with |- context [di_disjoint lay s ilm 0 ?f0 ?f2 (seq 0 j) J] =>
    destruct (di_disjoint_ok 0 f0 f2 (seq 0 j) (in_P I L Ma) J) as (J1 & E1 & I1 & V1); [|exact HJ|] end.
  { intros e He. apply in_seq in He. assert (He' : (e < lnel lay)%nat) by lia. split; [exact He'|]. intros ch Hch.
    destruct (Hst e He') as (H & _). apply (H ch Hch). }
  rewrite E1. cbn [bind].
  match goal with |- context [di_disjoint lay s ilm 2 ?f0 ?f2 ?l J1] =>
    destruct (di_disjoint_ok 2 f0 f2 l (in_Q I L Ma) J1) as (J2 & E2 & I2 & V2); [|exact I1|] end.
  { intros e He. apply in_seq in He. assert (He' : (e < lnel lay)%nat) by lia. split; [exact He'|]. intros ch Hch.
    destruct (Hst e He') as (H & _). apply (H ch Hch). }
  rewrite E2. cbn [bind].
  destruct (di_in_element_ok f P j J2 Hj I2) as (J3 & E3 & I3 & V3).
  exists J3. split; [exact E3|]. split; [exact I3|]. intros x Hx. rewrite V3, V2, V1 by exact Hx.
  destruct x as [[ch a] b]. destruct Hx as (Hch & Ha & Hbb).
  rewrite (sum_around (lnel lay) j) by exact Hj. rewrite !Rplus_assoc. f_equal. f_equal; [|f_equal].
  - apply lsum_ext. intros i Hi. apply in_seq in Hi. destruct (inside lay i a && inside lay i b)%bool; auto.
    unfold local_J. rewrite sum2_head. unfold two_block. destruct (Nat.eqb_spec i j); [lia|]. destruct (Nat.ltb_spec i j); [|lia].
    unfold trace_val, channel_sign. 
    assert (G : forall ch', sum (count_of lay j) (fun c => sum (count_of lay j) (fun d =>
       (if Nat.eqb ch ch' then 1 else -1) * (in_P I L Ma ch i (local lay i a) (local lay i b) * in_Q I L Ma ch' j c d) *
       P ch' (first_of lay j + c)%nat (first_of lay j + d)%nat)) =
       (if Nat.eqb ch ch' then 1 else -1) * in_P I L Ma ch i (local lay i a) (local lay i b) *
       sum (count_of lay j) (fun c => sum (count_of lay j) (fun d => in_Q I L Ma ch' j c d * P ch' (first_of lay j + c)%nat (first_of lay j + d)%nat))).
    { intros ch'. rewrite <- sum_scal. apply sum_ext. intros c _. rewrite <- sum_scal. apply sum_ext. intros d _. ring. }
    rewrite !G. destruct ch as [|[|ch]]; [| |lia]; cbn [Nat.eqb]; unfold P; cbn [Nat.eqb]; ring.
  - apply lsum_ext. intros i Hi. apply in_seq in Hi. destruct (inside lay i a && inside lay i b)%bool; auto.
    unfold local_J. rewrite sum2_head. unfold two_block. destruct (Nat.eqb_spec i j); [lia|]. destruct (Nat.ltb_spec i j); [lia|].
    unfold trace_val, channel_sign. 
    assert (G : forall ch', sum (count_of lay j) (fun c => sum (count_of lay j) (fun d =>
       (if Nat.eqb ch ch' then 1 else -1) * (in_Q I L Ma ch i (local lay i a) (local lay i b) * in_P I L Ma ch' j c d) *
       P ch' (first_of lay j + c)%nat (first_of lay j + d)%nat)) =
       (if Nat.eqb ch ch' then 1 else -1) * in_Q I L Ma ch i (local lay i a) (local lay i b) *
       sum (count_of lay j) (fun c => sum (count_of lay j) (fun d => in_P I L Ma ch' j c d * P ch' (first_of lay j + c)%nat (first_of lay j + d)%nat))).
    { intros ch'. rewrite <- sum_scal. apply sum_ext. intros c _. rewrite <- sum_scal. apply sum_ext. intros d _. ring. }
    rewrite !G. destruct ch as [|[|ch]]; [| |lia]; cbn [Nat.eqb]; unfold P; cbn [Nat.eqb]; ring.
Qed.

Lemma di_elements_ok f P0 P2 : density (lnbf lay) P0 -> density (lnbf lay) P2 ->
  let P := fun ch => dent (if Nat.eqb ch 0 then P0 else P2) in
  exists J, fold_res (di_element lay s ilm f P0 P2) (seq 0 (lnel lay)) (dzero (lnbf lay) (lnbf lay), dzero (lnbf lay) (lnbf lay)) = Ok J /\
    two_inv J /\ forall ch a b, (ch < 2)%nat -> (a < lnbf lay)%nat -> (b < lnbf lay)%nat ->
      dent (two J ch) a b = f * sum 2 (fun ch' => coulomb_of (lnbf lay) (radial_tensor lay I L Ma ch ch') (P ch') a b).
Proof.
  intros H0 H2 P.
  destruct (fold_res_obs (di_element lay s ilm f P0 P2) two_inv two_obs two_in (fun j x => let '(ch, a, b) := x in
      sum (lnel lay) (fun i => if (inside lay i a && inside lay i b)%bool then local_J f P j ch i (local lay i a) (local lay i b) else 0))
      (seq 0 (lnel lay))) with (s := (dzero (lnbf lay) (lnbf lay), dzero (lnbf lay) (lnbf lay))) as (J & E & HI & V).
  - intros J j Hj HJ. apply in_seq in Hj. apply di_element_ok; auto. lia.
  - now apply two_mk.
  - exists J. split; [exact E|]. split; [exact HI|]. intros ch a b Hch Ha Hbb.
    specialize (V (ch, a, b) (conj Hch (conj Ha Hbb))). unfold two_obs in V. rewrite V.
    replace (dent (two (dzero (lnbf lay) (lnbf lay), dzero (lnbf lay) (lnbf lay)) ch) a b) with 0
      by (unfold two; destruct (Nat.eqb ch 0); reflexivity).
    rewrite Rplus_0_l, lsum_seq0. unfold radial_tensor.
    rewrite (sum_ext 2 _ (fun ch' => sum (lnel lay) (fun j => sum (lnel lay) (fun i =>
      if (inside lay i a && inside lay i b)%bool then sum (count_of lay j) (fun c => sum (count_of lay j) (fun d =>
        two_block lay I L Ma ch ch' i j (local lay i a) (local lay i b) c d * P ch' (first_of lay j + c)%nat (first_of lay j + d)%nat)) else 0))))
      by (intros ch' _; apply coulomb_local; exact Hfit).
    rewrite (sum_swap 2 (lnel lay)), <- sum_scal. apply sum_ext. intros j _. rewrite (sum_swap 2 (lnel lay)), <- sum_scal. apply sum_ext. intros i _.
    unfold local_J. destruct (_ && _)%bool; [reflexivity|]. rewrite sum_zero'; [ring|auto].
Qed.
End Radial.

Lemma stores_at b s lm I ilm L Ma : stores b s lm I -> nth_error lm ilm = Some (L, Ma) -> stored_at (db_lay b) s I ilm L Ma.
Proof. intros [_ H] E e He. exact (H ilm e L Ma E He). Qed.

Lemma di_radial_ok b s lm lM I Paux : dbasis_ok b -> tables (db_sh b) lm lM -> stores b s lm I ->
  (forall ch n, (n < length lM)%nat -> density (lnbf (db_lay b)) (Paux ch n)) ->
  exists A, di_radial (db_lay b) s lm lM (build_LMfac_abs (db_Rhalf b) lm) Paux = Ok A /\ ch_inv (length lM) (lnbf (db_lay b)) A /\
    forall ch n L M x y, (ch < 2)%nat -> nth_error lM n = Some (L, M) -> (x < lnbf (db_lay b))%nat -> (y < lnbf (db_lay b))%nat ->
      dent (A ch n) x y = multipole_factor (db_Rhalf b) L M *
        sum 2 (fun ch' => coulomb_of (lnbf (db_lay b)) (radial_tensor (db_lay b) I L (Z.abs M) ch ch') (dent (Paux ch' n)) x y).
Proof.
  intros Hb Htb Hst HP. destruct Hb as (_ & _ & Hfit & _ & _). unfold di_radial.
  set (lay := db_lay b) in *. set (N := lnbf lay) in *.
  destruct (fold_res_inv (fun done A => ch_inv (length lM) N A /\
     forall ch n L M x y, In n done -> (ch < 2)%nat -> nth_error lM n = Some (L, M) -> (x < N)%nat -> (y < N)%nat ->
      dent (A ch n) x y = multipole_factor (db_Rhalf b) L M *
        sum 2 (fun ch' => coulomb_of N (radial_tensor lay I L (Z.abs M) ch ch') (dent (Paux ch' n)) x y))
     (fun A iLM =>
    let '(L, M) := nth iLM lM (0, 0)%Z in
    bind (lmind lm L M true) (fun ilm =>
    bind (signed_factor (build_LMfac_abs (db_Rhalf b) lm) M ilm) (fun LMfac =>
    bind (fold_res (di_element lay s ilm LMfac (Paux 0%nat iLM) (Paux 1%nat iLM)) (seq 0 (lnel lay))
            (dzero N N, dzero N N)) (fun J =>
    Ok (mem_put (mem_put A (0%nat, iLM) (fst J)) (1%nat, iLM) (snd J))))))
     (seq 0 (length lM)) (zero_channels N)) as (A & E & HI & HV).
  - split; [intros a i _; split; reflexivity|]. intros ch n L M x y [].
  - intros done i A Hd [HA HV]. apply seq_prefix in Hd. destruct Hd as [Hi _].
    assert (Hi' : (i < length lM)%nat) by lia.
    destruct (nth i lM (0, 0)%Z) as [L M] eqn:Ei.
    assert (En : nth_error lM i = Some (L, M)) by (rewrite <- Ei; now apply nth_error_nth').
    assert (HIn : In (L, M) lM) by (eapply nth_error_In; eauto).
    destruct (tb_lm _ _ _ Htb L M HIn) as (ilm & E1 & E2). rewrite E1. cbn [bind].
    rewrite (signed_factor_ok _ lm M ilm L E2 (tb_le _ _ _ Htb L M HIn)). cbn [bind].
    assert (Hilm : (ilm < length lm)%nat) by (apply nth_error_Some; congruence).
    destruct (di_elements_ok lay s I (length lm) Hfit ilm L (Z.abs M) Hilm (proj1 Hst) (stores_at b s lm I ilm L (Z.abs M) Hst E2)
       (multipole_factor (db_Rhalf b) L M) (Paux 0%nat i) (Paux 1%nat i)) as (J & EJ & IJ & VJ); [now apply HP|now apply HP|].
    fold N in EJ. rewrite EJ. cbn [bind]. eexists. split; [reflexivity|].
    destruct (two_parts lay J IJ) as (Y1 & Y2 & Y3 & Y4).
    assert (HG : forall ch n, mem_put (mem_put A (0%nat, i) (fst J)) (1%nat, i) (snd J) ch n =
       if Nat.eqb n i then (if Nat.eqb ch 1 then snd J else if Nat.eqb ch 0 then fst J else A ch n) else A ch n).
    { intros ch n. unfold mem_put. cbn [fst snd]. destruct (Nat.eqb n i); rewrite ?andb_true_r, ?andb_false_r; reflexivity. }
    split.
    + intros ch n Hn. rewrite HG. destruct (Nat.eqb n i); [|now apply HA].
      destruct (Nat.eqb ch 1); [auto|]. destruct (Nat.eqb ch 0); [auto|now apply HA].
    + intros ch n L' M' x y Hin Hch En' Hx Hy. rewrite HG. destruct (Nat.eqb_spec n i) as [->|Hne].
      * rewrite En in En'. injection En' as <- <-. pose proof (VJ ch x y Hch Hx Hy) as V. unfold two in V.
        destruct ch as [|[|ch]]; [| |lia]; cbn [Nat.eqb] in *; rewrite V; f_equal; rewrite !sum2_head; reflexivity.
      * apply HV; auto. apply in_app_or in Hin. destruct Hin as [|[|[]]]; auto. congruence.
  - exists A. split; [exact E|]. split; [exact HI|]. intros ch n L M x y Hch En Hx Hy. apply HV; auto. apply in_seq.
    assert (n < length lM)%nat by (apply nth_error_Some; congruence). lia.
Qed.

(* ---------- Coulomb: the bra ---------- *)

Section Bra.
Variables (b : dbasis) (g : gtable) (lm lM : list (Z * Z)).
Hypothesis Hco : dcouples b g.
Hypothesis Htb : tables (db_sh b) lm lM.
Let sh := db_sh b.
Let nsh := length sh.
Let Nrad := lnbf (db_lay b).

Lemma di_bra_ok A (JV : nat -> Z -> Z -> mat) : ch_inv (length lM) Nrad A ->
  (forall ch n L M x y, (ch < 2)%nat -> nth_error lM n = Some (L, M) -> (x < Nrad)%nat -> (y < Nrad)%nat ->
     dent (A ch n) x y = JV ch L M x y) ->
  is_shell_matrix (di_bra sh lM Nrad g A) nsh Nrad (fun i x j y =>
    lsum (zrange (fst (prange sh i j)) (snd (prange sh i j)))
      (fun L => sum 2 (fun ch => Cc b ch i j L * JV ch L (m_of sh j - m_of sh i)%Z x y))).
Proof.
  intros HA HV. unfold di_bra, is_shell_matrix, di_Ndummy. fold nsh.
  set (dl := fun i j x y => lsum (zrange (fst (prange sh i j)) (snd (prange sh i j)))
      (fun L => sum 2 (fun ch => Cc b ch i j L * JV ch L (m_of sh j - m_of sh i)%Z x y))).
  match goal with |- exists M, fold_res ?f ?l0 _ = _ /\ _ =>
    destruct (fold_adds (nsh * Nrad) (nsh * Nrad) f
      (fun i a b => sum nsh (fun j => win (i * Nrad) Nrad (j * Nrad) Nrad (dl i j) a b)) l0)
      with (M := dzero (nsh * Nrad) (nsh * Nrad)) as (J & EJ & RJ & CJ & VJ); auto end.
  - intros i Hi M0 R0 C0. apply in_seq in Hi. assert (Hi' : (i < length (db_sh b))%nat) by (unfold nsh, sh in *; lia).
    match goal with |- exists M', fold_res ?f ?l0 _ = _ /\ _ =>
      destruct (fold_adds (nsh * Nrad) (nsh * Nrad) f (fun j => win (i * Nrad) Nrad (j * Nrad) Nrad (dl i j)) l0)
        with (M := M0) as (M1 & E1 & R1 & C1 & V1); auto end.
    + intros j Hj M1 R1 C1. apply in_seq in Hj. assert (Hj' : (j < length (db_sh b))%nat) by (unfold nsh, sh in *; lia).
      unfold sh. rewrite (nth_shell b i), (nth_shell b j). fold sh.
      match goal with |- exists M', fold_res ?f ?l0 _ = _ /\ _ =>
        destruct (fold_adds (nsh * Nrad) (nsh * Nrad) f (fun L => win (i * Nrad) Nrad (j * Nrad) Nrad
          (fun x y => sum 2 (fun ch => Cc b ch i j L * JV ch L (m_of sh j - m_of sh i)%Z x y))) l0)
          with (M := M1) as (M2 & E2 & R2 & C2 & V2); auto end.
      * intros L HL J RJ CJ. apply zrange_in in HL.
        destruct (tb_M _ _ _ Htb i j L Hi' Hj' HL) as (n0 & E1' & E2'). fold sh in E1', E2'. rewrite E1'. cbn [bind].
        destruct (Hco i j L Hi' Hj' HL) as [K1 K2]. fold sh in K1, K2. rewrite K1. cbn [bind].
        assert (Hn0 : (n0 < length lM)%nat) by (apply nth_error_Some; congruence).
        assert (G : forall ch X, (ch < 2)%nat -> drows X = (nsh * Nrad)%nat -> dcols X = (nsh * Nrad)%nat ->
          exists X', (if Reqb (Cc b ch i j L) 0 then Ok X else
              block_add X (i * Nrad) (j * Nrad) Nrad Nrad (dscale (Cc b ch i j L) (A ch n0))) = Ok X' /\
            drows X' = (nsh * Nrad)%nat /\ dcols X' = (nsh * Nrad)%nat /\
            forall a c, dent X' a c = dent X a c + win (i * Nrad) Nrad (j * Nrad) Nrad
               (fun x y => Cc b ch i j L * JV ch L (m_of sh j - m_of sh i)%Z x y) a c).
        { intros ch X Hch RX CX. destruct (Reqb_spec (Cc b ch i j L) 0) as [Ez|_].
          - exists X. split; [reflexivity|]. split; [exact RX|]. split; [exact CX|]. intros a c. rewrite Ez. unfold win. destruct (_ && _)%bool; ring.
          - destruct (HA ch n0 Hn0) as [RA CA].
            destruct (block_add_ok X (i * Nrad) (j * Nrad) Nrad Nrad (dscale (Cc b ch i j L) (A ch n0)) (nsh * Nrad) (nsh * Nrad))
              as (X' & EX & RX' & CX' & VX'); auto; try (clear - Hi Hj; nia).
            exists X'. split; [exact EX|]. split; [exact RX'|]. split; [exact CX'|]. intros a c. rewrite VX'. f_equal.
            apply win_ext. intros x y Hx Hy. cbn [dscale dent]. unfold mscal. now rewrite (HV ch n0 L (m_of sh j - m_of sh i)%Z). }
        destruct (G 0%nat J ltac:(lia) RJ CJ) as (X1 & EX1 & RX1 & CX1 & VX1). rewrite EX1. cbn [bind].
        rewrite K2. cbn [bind].
        destruct (G 1%nat X1 ltac:(lia) RX1 CX1) as (X2 & EX2 & RX2 & CX2 & VX2).
        exists X2. split; [exact EX2|]. split; [exact RX2|]. split; [exact CX2|]. intros a c _ _. rewrite VX2, VX1.
        rewrite Rplus_assoc. f_equal. unfold win. destruct (_ && _)%bool; [rewrite sum2_head|]; ring.
      * exists M2. split; [exact E2|]. split; [exact R2|]. split; [exact C2|]. intros a c Ha Hc. rewrite V2 by auto. f_equal.
        unfold win, dl. destruct (_ && _)%bool; [reflexivity|]. now apply lsum_zero.
    + exists M1. split; [exact E1|]. split; [exact R1|]. split; [exact C1|]. intros a c Ha Hc. rewrite V1 by auto. now rewrite lsum_seq0.
  - exists J. split; [exact EJ|]. split; [exact RJ|]. split; [exact CJ|]. intros i a j c Hi Ha Hj Hc. unfold fn at 1 2.
    rewrite VJ by (clear - Hi Ha Hj Hc; nia). cbn [dent dzero]. unfold mzero. rewrite lsum_seq0.
    rewrite (sum_ext nsh _ (fun x => sum nsh (fun y => if (Nat.eqb x i && Nat.eqb y j)%bool then dl x y a c else 0))).
    + rewrite (sum_pick2 nsh nsh i j (fun x y => dl x y a c)) by auto. unfold dl. ring.
    + intros x _. apply sum_ext. intros y _. apply (win_fn Nrad i j x y a c); auto.
Qed.
End Bra.

(* ---------- from shells and radial functions to basis functions ---------- *)

Lemma lsum_eqpick (l : list nat) x (f : nat -> R) : NoDup l ->
  lsum l (fun y => if Nat.eqb x y then f y else 0) = if in_dec Nat.eq_dec x l then f x else 0.
Proof.
  induction l as [|y l IH]; intros Hn; [reflexivity|]. inversion Hn; subst. cbn [lsum]. rewrite IH by auto.
  destruct (Nat.eqb_spec x y) as [->|Hne].
  - destruct (in_dec Nat.eq_dec y l); [contradiction|].
    destruct (in_dec Nat.eq_dec y (y :: l)) as [|n0]; [ring|destruct n0; now left].
  - destruct (in_dec Nat.eq_dec x l) as [i|n0]; destruct (in_dec Nat.eq_dec x (y :: l)) as [i'|n']; try ring.
    + destruct n'; now right.
    + destruct i'; [congruence|contradiction].
Qed.

Lemma lsum_nth {A} (l : list A) d (f : A -> R) : lsum l f = sum (length l) (fun u => f (nth u l d)).
Proof.
  induction l as [|x l IH]; [reflexivity|]. cbn [lsum length]. rewrite sum_shift, IH. reflexivity.
Qed.

Lemma sum_surv D (l : list nat) (f : nat -> R) : NoDup l -> (forall x, In x l -> (x < D)%nat) ->
  (forall x, (x < D)%nat -> ~ In x l -> f x = 0) -> sum D f = sum (length l) (fun u => f (nth u l 0%nat)).
Proof.
  intros Hn Hl Hz. rewrite <- (lsum_nth l 0%nat f).
  transitivity (sum D (fun x => lsum l (fun y => if Nat.eqb x y then f y else 0))).
  - apply sum_ext. intros x Hx. rewrite lsum_eqpick by exact Hn. destruct (in_dec Nat.eq_dec x l); auto.
  - rewrite <- lsum_sum_swap. apply lsum_ext. intros y Hy. rewrite (sum_single D y); [now rewrite Nat.eqb_refl|now apply Hl|].
    intros x _ Hne. destruct (Nat.eqb_spec x y); [contradiction|reflexivity].
Qed.

Lemma all_functions_length sh N : length (all_functions sh N) = (length sh * N)%nat.
Proof. unfold all_functions. induction sh as [|x sh IH]; [reflexivity|]. cbn [flat_map length]. rewrite app_length, map_length, seq_length, IH. lia. Qed.

Lemma surv_nodup b : NoDup (survivors b).
Proof. apply positions_nodup. Qed.
Lemma surv_lt b x : In x (survivors b) -> (x < length (db_sh b) * lnbf (db_lay b))%nat.
Proof. intros H. apply positions_lt in H. now rewrite all_functions_length in H. Qed.
Lemma nth_surv b r : (r < dia_size b)%nat -> In (nth r (survivors b) 0%nat) (survivors b).
Proof. intros H. now apply nth_In. Qed.
Lemma sh_rad b r : (0 < lnbf (db_lay b))%nat -> (r < dia_size b)%nat ->
  (sh_ix b r < length (db_sh b))%nat /\ (rad_ix b r < lnbf (db_lay b))%nat /\
  nth r (survivors b) 0%nat = fn (lnbf (db_lay b)) (sh_ix b r) (rad_ix b r).
Proof.
  intros HN Hr. pose proof (surv_lt b _ (nth_surv b r Hr)) as Hl. unfold sh_ix, rad_ix, fn.
  split; [apply Nat.div_lt_upper_bound; lia|]. split; [apply Nat.mod_upper_bound; lia|].
  rewrite (Nat.div_mod (nth r (survivors b) 0%nat) (lnbf (db_lay b))) at 1 by lia. lia.
Qed.

Lemma sum_functions n N (f : nat -> nat -> R) : (0 < N)%nat ->
  sum n (fun k => sum N (fun c => f k c)) = sum (n * N) (fun x => f (x / N)%nat (x mod N)%nat).
Proof.
  intros HN. rewrite Nat.mul_comm, sum_pair. apply sum_ext. intros k _. apply sum_ext. intros c Hc.
  now rewrite pair_ix_mod, pair_ix_div.
Qed.

Lemma sum_basis b (f : nat -> nat -> R) : (0 < lnbf (db_lay b))%nat ->
  (forall k c, (k < length (db_sh b))%nat -> (c < lnbf (db_lay b))%nat -> ~ In (fn (lnbf (db_lay b)) k c) (survivors b) -> f k c = 0) ->
  sum (length (db_sh b)) (fun k => sum (lnbf (db_lay b)) (fun c => f k c)) =
  sum (dia_size b) (fun u => f (sh_ix b u) (rad_ix b u)).
Proof.
  intros HN Hz. rewrite sum_functions by exact HN. rewrite (sum_surv _ (survivors b)).
  - reflexivity.
  - apply surv_nodup.
  - apply surv_lt.
  - intros x Hx Hn. apply Hz.
    + apply Nat.div_lt_upper_bound; lia.
    + apply Nat.mod_upper_bound; lia.
    + unfold fn. replace (x / lnbf (db_lay b) * lnbf (db_lay b) + x mod lnbf (db_lay b))%nat with x; [exact Hn|].
      rewrite (Nat.div_mod x (lnbf (db_lay b))) at 1 by lia. lia.
Qed.

Definition expands (b : dbasis) (P Q : mat) : Prop :=
  (forall u v, (u < dia_size b)%nat -> (v < dia_size b)%nat -> Q (nth u (survivors b) 0%nat) (nth v (survivors b) 0%nat) = P u v) /\
  (forall x y, ~ In x (survivors b) \/ ~ In y (survivors b) -> Q x y = 0).

Lemma sum_basis2 b (P Q : mat) (V : nat -> nat -> nat -> nat -> R) : (0 < lnbf (db_lay b))%nat -> expands b P Q ->
  sum (length (db_sh b)) (fun k => sum (length (db_sh b)) (fun l => sum (lnbf (db_lay b)) (fun c => sum (lnbf (db_lay b)) (fun d =>
    V k l c d * Q (fn (lnbf (db_lay b)) k c) (fn (lnbf (db_lay b)) l d))))) =
  sum (dia_size b) (fun u => sum (dia_size b) (fun v => V (sh_ix b u) (sh_ix b v) (rad_ix b u) (rad_ix b v) * P u v)).
Proof.
  intros HN [HQ HZ].
  transitivity (sum (length (db_sh b)) (fun k => sum (lnbf (db_lay b)) (fun c =>
    sum (dia_size b) (fun v => V k (sh_ix b v) c (rad_ix b v) * Q (fn (lnbf (db_lay b)) k c) (nth v (survivors b) 0%nat))))).
  - apply sum_ext. intros k Hk. rewrite sum_swap. apply sum_ext. intros c Hc.
    rewrite (sum_basis b (fun l d => V k l c d * Q (fn (lnbf (db_lay b)) k c) (fn (lnbf (db_lay b)) l d)) HN).
    + apply sum_ext. intros v Hv. destruct (sh_rad b v HN Hv) as (_ & _ & ->). reflexivity.
    + intros l d _ _ Hn. rewrite HZ by auto. ring.
  - rewrite (sum_basis b (fun k c => sum (dia_size b) (fun v => V k (sh_ix b v) c (rad_ix b v) * Q (fn (lnbf (db_lay b)) k c) (nth v (survivors b) 0%nat))) HN).
    + apply sum_ext. intros u Hu. apply sum_ext. intros v Hv. destruct (sh_rad b u HN Hu) as (_ & _ & <-). now rewrite HQ.
    + intros k c _ _ Hn. apply sum_zero'. intros v _. rewrite HZ by auto. ring.
Qed.

Lemma expand_density b P : density (dia_size b) P ->
  exists Q, expand_boundaries (db_sh b) (lnbf (db_lay b)) P = Ok Q /\
    drows Q = (length (db_sh b) * lnbf (db_lay b))%nat /\ dcols Q = (length (db_sh b) * lnbf (db_lay b))%nat /\
    expands b (dent P) (dent Q).
Proof.
  intros [RP CP]. destruct (expand_ok (db_sh b) (lnbf (db_lay b)) P RP CP) as (Q & E & R1 & C1 & V1 & V2).
  exists Q. split; [exact E|]. split; [exact R1|]. split; [exact C1|]. split; [exact V1|exact V2].
Qed.

Lemma remove_shell b (r : res dmat) f : (0 < lnbf (db_lay b))%nat ->
  is_shell_matrix r (length (db_sh b)) (lnbf (db_lay b)) f ->
  is_matrix (bind r (remove_boundaries (db_sh b) (lnbf (db_lay b)))) (dia_size b)
    (fun x y => f (sh_ix b x) (rad_ix b x) (sh_ix b y) (rad_ix b y)).
Proof.
  intros HN (M & -> & RM & CM & VM). cbn [bind].
  destruct (remove_ok (db_sh b) (lnbf (db_lay b)) M RM CM) as (G & E & RG & CG & VG).
  exists G. split; [exact E|]. split; [exact RG|]. split; [exact CG|]. intros x y Hx Hy. rewrite VG.
  fold (survivors b). destruct (sh_rad b x HN Hx) as (A1 & A2 & ->). destruct (sh_rad b y HN Hy) as (B1 & B2 & ->). now apply VM.
Qed.

(* ---------- Coulomb ---------- *)

Lemma ket_sum (b : dbasis) (P : mat) L ch i j : dbasis_ok b -> (i < length (db_sh b))%nat -> (j < length (db_sh b))%nat ->
  (Z.abs (m_of (db_sh b) j - m_of (db_sh b) i) <= L)%Z -> forall c d,
  ket_val b P ch L (m_of (db_sh b) j - m_of (db_sh b) i) c d =
  sum (length (db_sh b)) (fun k => sum (length (db_sh b)) (fun l =>
    if (m_of (db_sh b) k - m_of (db_sh b) l =? m_of (db_sh b) j - m_of (db_sh b) i)%Z
    then Cc b ch l k L * P (fn (lnbf (db_lay b)) k c) (fn (lnbf (db_lay b)) l d) else 0)).
Proof.
  intros Hb Hi Hj HL c d. unfold ket_val. apply sum_ext. intros k Hk. apply sum_ext. intros l Hl.
  destruct (Z.eqb_spec (m_of (db_sh b) k - m_of (db_sh b) l) (m_of (db_sh b) j - m_of (db_sh b) i)) as [Em|_]; [|now rewrite andb_false_r].
  rewrite andb_true_r. destruct (_ && _)%bool eqn:E; [reflexivity|].
  rewrite (Cc_zero b ch l k L Hb Hl Hk); [ring|rewrite Em; exact HL|].
  apply andb_false_iff in E. rewrite !Z.leb_gt in E. clear - E. lia.
Qed.

Lemma prange_max b i j : dbasis_ok b -> (i < length (db_sh b))%nat -> (j < length (db_sh b))%nat ->
  (Z.abs (m_of (db_sh b) j - m_of (db_sh b) i) <= fst (prange (db_sh b) i j) /\ snd (prange (db_sh b) i j) <= Lmax_of b)%Z.
Proof.
  intros (Hsh & _) Hi Hj. unfold prange, Lmax_of. cbn [fst snd].
  pose proof (shell_bounds (db_sh b) Hsh i Hi) as (A1 & A2 & _). pose proof (shell_bounds (db_sh b) Hsh j Hj) as (B1 & B2 & _).
  clear - A1 A2 B1 B2. lia.
Qed.

Lemma stores_nonempty b s lm lM I : dbasis_ok b -> tables (db_sh b) lm lM -> stores b s lm I -> ds_size s <> 0%nat.
Proof.
  intros (Hsh & _ & _ & He & _) Htb [-> _]. 
  assert (H0 : (0 < length (db_sh b))%nat) by (destruct Hsh as [Hne _]; destruct (db_sh b); [congruence|cbn [length]; lia]).
  pose proof (shell_bounds (db_sh b) Hsh 0 H0) as (A1 & _).
  destruct (tb_M _ _ _ Htb 0%nat 0%nat (snd (prange (db_sh b) 0 0)) H0 H0) as (n & _ & E).
  { unfold prange. cbn [fst snd]. clear - A1. lia. }
  apply nth_error_In in E. destruct (tb_lm _ _ _ Htb _ _ E) as (n' & _ & E').
  assert (length lm <> 0)%nat by (destruct lm; [destruct n'; discriminate|discriminate]). nia.
Qed.

Lemma di_coulomb_ok b s lm lM I Lcut P : dbasis_ok b -> build_tables (db_sh b) = Ok (lm, lM) -> stores b s lm I ->
  density (dia_size b) P -> (Lmax_of b <= Lcut)%Z ->
  is_matrix (di_coulomb b s P) (dia_size b) (dia_J b I Lcut (dent P)).
Proof.
  intros Hb Etab Hst HP Hcut. destruct (tables_ok (db_sh b)) as (lm' & lM' & Htb).
  pose proof (tb_build _ _ _ Htb) as E'. rewrite Etab in E'. injection E' as <- <-.
  destruct (dcouples_ok b Hb) as (g & Eg & Hco).
  assert (HN : (0 < lnbf (db_lay b))%nat) by apply Hb.
  destruct (expand_density b P HP) as (Q & EQ & RQ & CQ & HQ).
  unfold di_coulomb. destruct (Nat.eqb_spec (ds_size s) 0) as [Hz|_]; [now apply (stores_nonempty b s lm lM I Hb Htb Hst) in Hz|].
  rewrite EQ. cbn [bind]. rewrite Etab. cbn [bind]. rewrite Eg. cbn [bind].
  destruct (di_ket_ok b g lm lM Hco Htb Q RQ CQ) as (A & EA & IA & VA). rewrite EA. cbn [bind].
  destruct (di_radial_ok b s lm lM I A Hb Htb Hst) as (B & EB & IB & VB).
  { intros ch n' Hn'. apply (IA ch n' Hn'). }
  rewrite EB. cbn [bind].
  set (JV := fun (ch : nat) (L M : Z) x y => multipole_factor (db_Rhalf b) L M *
        sum 2 (fun ch' => coulomb_of (lnbf (db_lay b)) (radial_tensor (db_lay b) I L (Z.abs M) ch ch') (ket_val b (dent Q) ch' L M) x y)).
  pose proof (di_bra_ok b g lm lM Hco Htb B JV IB) as HBra.
  assert (HJV : is_shell_matrix (di_bra (db_sh b) lM (lnbf (db_lay b)) g B) (length (db_sh b)) (lnbf (db_lay b)) (fun i x j y =>
    lsum (zrange (fst (prange (db_sh b) i j)) (snd (prange (db_sh b) i j)))
      (fun L => sum 2 (fun ch => Cc b ch i j L * JV ch L (m_of (db_sh b) j - m_of (db_sh b) i)%Z x y)))).
  { apply HBra. intros ch n' L M x y Hch Hn Hx Hy. rewrite (VB ch n' L M x y Hch Hn Hx Hy). unfold JV. f_equal.
    apply sum_ext. intros ch' Hch'. unfold coulomb_of. apply sum_ext. intros c _. apply sum_ext. intros d _. f_equal. now apply VA. }
  pose proof (remove_shell b _ _ HN HJV) as (M & EM & RM & CM & VM).
  exists M. split; [exact EM|]. split; [exact RM|]. split; [exact CM|]. intros r t Hr Ht. rewrite VM by auto.
  unfold dia_J, dia_integral.
  destruct (sh_rad b r HN Hr) as (Hi & Ha & _). destruct (sh_rad b t HN Ht) as (Hj & Hbb & _).
  rewrite <- (sum_basis2 b (dent P) (dent Q) (fun k l c d => dia_tensor b I Lcut (sh_ix b r) (sh_ix b t) k l (rad_ix b r) (rad_ix b t) c d) HN HQ).
  set (i := sh_ix b r) in *. set (j := sh_ix b t) in *. set (x := rad_ix b r) in *. set (y := rad_ix b t) in *.
  destruct (prange_max b i j Hb Hi Hj) as [PL PU].
  rewrite (lsum_zrange_widen _ _ (Z.abs (m_of (db_sh b) j - m_of (db_sh b) i)) Lcut); [|exact PL|lia|].
  2:{ intros L HL HNL. rewrite sum2_head, !(Cc_zero b _ i j L Hb Hi Hj) by (auto; lia). ring. }
  transitivity (lsum (zrange (Z.abs (m_of (db_sh b) j - m_of (db_sh b) i)) Lcut) (fun L =>
    sum (length (db_sh b)) (fun k => sum (length (db_sh b)) (fun l => sum (lnbf (db_lay b)) (fun c => sum (lnbf (db_lay b)) (fun d =>
      (if (m_of (db_sh b) k - m_of (db_sh b) l =? m_of (db_sh b) j - m_of (db_sh b) i)%Z then
        multipole_factor (db_Rhalf b) L (m_of (db_sh b) j - m_of (db_sh b) i) *
        sum 2 (fun ch => sum 2 (fun ch' => Cc b ch i j L * Cc b ch' l k L *
          radial_tensor (db_lay b) I L (Z.abs (m_of (db_sh b) j - m_of (db_sh b) i)) ch ch' x y c d)) else 0) *
      dent Q (fn (lnbf (db_lay b)) k c) (fn (lnbf (db_lay b)) l d))))))).
  - apply lsum_ext. intros L HL. apply zrange_in in HL. unfold JV, coulomb_of. rewrite !sum2_head.
    set (F := multipole_factor _ _ _). set (N := lnbf (db_lay b)). set (n := length (db_sh b)).
    assert (G : forall ch ch', Cc b ch i j L * (F * sum N (fun c => sum N (fun d =>
        radial_tensor (db_lay b) I L (Z.abs (m_of (db_sh b) j - m_of (db_sh b) i)) ch ch' x y c d *
        ket_val b (dent Q) ch' L (m_of (db_sh b) j - m_of (db_sh b) i) c d))) =
      sum n (fun k => sum n (fun l => sum N (fun c => sum N (fun d =>
        (if (m_of (db_sh b) k - m_of (db_sh b) l =? m_of (db_sh b) j - m_of (db_sh b) i)%Z then
           F * (Cc b ch i j L * Cc b ch' l k L * radial_tensor (db_lay b) I L (Z.abs (m_of (db_sh b) j - m_of (db_sh b) i)) ch ch' x y c d) else 0) *
        dent Q (fn N k c) (fn N l d)))))).
    { intros ch ch'. rewrite <- Rmult_assoc.
      rewrite (sum_ext N _ (fun c => sum N (fun d => radial_tensor (db_lay b) I L (Z.abs (m_of (db_sh b) j - m_of (db_sh b) i)) ch ch' x y c d *
         sum n (fun k => sum n (fun l => if (m_of (db_sh b) k - m_of (db_sh b) l =? m_of (db_sh b) j - m_of (db_sh b) i)%Z
           then Cc b ch' l k L * dent Q (fn N k c) (fn N l d) else 0))))).
      2:{ intros c _. apply sum_ext. intros d _. f_equal. now apply ket_sum. }
      rewrite sum4. apply sum_ext. intros k _. apply sum_ext. intros l _. apply sum_ext. intros c _. apply sum_ext. intros d _.
      destruct (_ =? _)%Z; ring. }
    rewrite !Rmult_plus_distr_l, !G, <- !sum_plus. apply sum_ext. intros k _. rewrite <- !sum_plus. apply sum_ext. intros l _.
    rewrite <- !sum_plus. apply sum_ext. intros c _. rewrite <- !sum_plus. apply sum_ext. intros d _.
    rewrite !sum2_head. destruct (_ =? _)%Z; ring.
  - rewrite lsum_sum_swap. apply sum_ext. intros k _. rewrite lsum_sum_swap. apply sum_ext. intros l _.
    rewrite lsum_sum_swap. apply sum_ext. intros c _. rewrite lsum_sum_swap. apply sum_ext. intros d _.
    unfold dia_tensor. destruct (Z.eqb_spec (m_of (db_sh b) k - m_of (db_sh b) l) (m_of (db_sh b) j - m_of (db_sh b) i)) as [Em|_].
    + rewrite Rmult_comm, <- lsum_scal. apply lsum_ext. intros L _. unfold Cc. rewrite Em. ring.
    + rewrite Rmult_0_l. apply lsum_zero. intros. ring.
Qed.
