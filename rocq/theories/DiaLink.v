(** The integrals compute_tei stores are what the Coulomb and exchange matrices of a
    diatomic basis are contracted with. *)
Require Import Reals ZArith List Bool Arith Lia Lra Permutation FunctionalExtensionality.
Require Import Verif.Prelude Verif.AngModel Verif.AngSpec Verif.AngProofs Verif.CholModel Verif.CholSpec Verif.CholProofs
  Verif.JKModel Verif.JKSpec Verif.JKProofs Verif.GauntModel Verif.GauntSpec Verif.QuadModel Verif.QuadSpec Verif.QuadProofs
  Verif.TwoDModel Verif.TwoDSpec Verif.TeiModel Verif.TeiSpec Verif.TeiPar Verif.TeiWit Verif.DiaModel Verif.DiaSpec Verif.DiaProofs Verif.DiaExch Verif.DiaMirror.
Import ListNotations.
Local Open Scope R_scope.

Lemma refined_eval rb eval fallback nstart X n : numerics_ok rb -> refined rb eval fallback nstart X n -> X = eval n.
Proof.
  intros (Hd & Hs & H1 & H2) (tried & E).
  destruct (block_result dmat (d_dist rb) (d_scale rb) (d_tol rb) (d_sqrteps rb) (d_floor rb) eval order_cap fallback nstart Hd Hs H1 H2)
    as (k & tried' & n' & E' & _).
  rewrite E in E'. injection E' as _ -> ->. reflexivity.
Qed.

Lemma element_matrix_sym rb iel k f n : symmetric (d_n rb iel) (dent (element_matrix rb iel k f n)).
Proof.
  intros i j _ _. cbn [element_matrix dent]. unfold quad. apply sum_ext. intros q _. cbv beta zeta. f_equal. f_equal. apply Rmult_comm.
Qed.

(** The first position of an entry. *)
Fixpoint pos_of (p : Z * Z) (lm : list (Z * Z)) : nat :=
  match lm with
  | [] => 0
  | q :: lm' => if ((fst q =? fst p) && (snd q =? snd p))%bool%Z then 0%nat else S (pos_of p lm')
  end.
Lemma pos_of_nth lm n L M : NoDup lm -> nth_error lm n = Some (L, M) -> pos_of (L, M) lm = n.
Proof.
  revert n. induction lm as [|[L' M'] lm IH]; intros [|n] Hn E; cbn [nth_error] in E; try discriminate.
  - injection E as -> ->. cbn [pos_of fst snd]. now rewrite !Z.eqb_refl.
  - inversion Hn; subst. cbn [pos_of fst snd]. destruct ((L' =? L) && (M' =? M))%bool%Z eqn:E2.
    + apply andb_prop in E2. destruct E2 as [E2 E3]. apply Z.eqb_eq in E2, E3. subst. apply nth_error_In in E. contradiction.
    + f_equal. now apply IH.
Qed.

Definition integrals_of (nel : nat) (lm : list (Z * Z)) (m : memory) : integrals :=
  mkInt (fun L M ch e => dent (m ch (pos_of (L, M) lm * nel + e)%nat))
        (fun L M ch e => dent (m (2 + ch)%nat (pos_of (L, M) lm * nel + e)%nat))
        (fun L M e => fun x y => let at_ := (pos_of (L, M) lm * nel + e)%nat in
           sum (dcols (m 4%nat at_)) (fun p => dent (m 5%nat at_) p 0%nat * (dent (m 4%nat at_) x p * dent (m 4%nat at_) y p))).

Lemma factor_sum N f x y : sum (length f) (fun p => dent (signs_of f) p 0%nat * (dent (columns_of N f) x p * dent (columns_of N f) y p)) = BsBT f x y.
Proof.
  unfold BsBT. rewrite (lsum_nth f (0, fun _ => 0)). apply sum_ext. intros p _. cbn [signs_of columns_of dent]. ring.
Qed.

Lemma computed_stores normal DP DQ b rb lm lM thresh m : numerics_ok rb -> radial_of b rb -> build_tables (db_sh b) = Ok (lm, lM) ->
  integrals_in normal DP DQ rb lm thresh m ->
  exists I, computed normal DP DQ rb lm thresh I /\ stores b (mkDS (d_Nel rb * length lm) m) lm I.
Proof.
  intros Hnum [HNel Hcount] Etab Hin.
  assert (Hnd : NoDup lm).
  { destruct (tables_ok (db_sh b)) as (lm' & lM' & Htb). pose proof (tb_build _ _ _ Htb) as E'. rewrite Etab in E'. injection E' as <- <-.
    exact (lm_nodup b lm lM Htb). }
  exists (integrals_of (d_Nel rb) lm m). split.
  - intros L M iel HLM Hiel. cbv zeta. destruct (In_nth_error _ _ HLM) as (n & En). pose proof (pos_of_nth lm n L M Hnd En) as Ep.
    destruct (Hin n iel L M En Hiel) as ((n0 & R0) & (n1 & R1) & (n2 & R2) & (n3 & R3) & n4 & EO & EB & ES).
    split.
    + intros ch Hch. assert (Hc : ch = 0%nat \/ ch = 1%nat) by lia. cbn [integrals_of in_P in_Q]. rewrite Ep.
      destruct Hc as [-> | ->].
      * split; [exists (m 0%nat (n * d_Nel rb + iel)%nat), n0|exists (m 2%nat (n * d_Nel rb + iel)%nat), n2]; (split; [|reflexivity]); [exact R0|exact R2].
      * split; [exists (m 1%nat (n * d_Nel rb + iel)%nat), n1|exists (m 3%nat (n * d_Nel rb + iel)%nat), n3]; (split; [|reflexivity]); [exact R1|exact R3].
    + exists n4. split; [exact EO|]. cbn [integrals_of in_W]. rewrite Ep, EB, ES.
      apply functional_extensionality. intros x. apply functional_extensionality. intros y. cbn [columns_of dcols]. apply factor_sum.
  - split; [cbn [ds_size]; rewrite HNel; lia|]. intros ilm e L Ma En He. cbv zeta. pose proof (pos_of_nth lm ilm L Ma Hnd En) as Ep.
    rewrite <- HNel in He |- *.
    destruct (Hin ilm e L Ma En He) as ((n0 & R0) & (n1 & R1) & (n2 & R2) & (n3 & R3) & n4 & EO & EB & ES).
    apply refined_eval in R0; [|exact Hnum]. apply refined_eval in R1; [|exact Hnum]. apply refined_eval in R2; [|exact Hnum]. apply refined_eval in R3; [|exact Hnum].
    rewrite <- (Hcount e He).
    assert (Hlt : (ilm * d_Nel rb + e < d_Nel rb * length lm)%nat).
    { assert (ilm < length lm)%nat by (apply nth_error_Some; congruence). nia. }
    assert (G : forall a k f n, (a < 4)%nat -> m a (ilm * d_Nel rb + e)%nat = element_matrix rb e k f n ->
      supplies (fun e0 => arr (mkDS (d_Nel rb * length lm) m) a (ilm * d_Nel rb + e0)) e (d_n rb e) (d_n rb e) (dent (m a (ilm * d_Nel rb + e)%nat)) /\
      symmetric (d_n rb e) (dent (m a (ilm * d_Nel rb + e)%nat))).
    { intros a k f n Ha E. split.
      - exists (m a (ilm * d_Nel rb + e)%nat). unfold arr. cbn [ds_size ds_mem]. destruct (Nat.ltb_spec (ilm * d_Nel rb + e) (d_Nel rb * length lm)); [|lia].
        split; [reflexivity|]. rewrite E. cbn [element_matrix drows dcols]. auto.
      - rewrite E. apply element_matrix_sym. }
    split.
    + intros ch Hch. cbn [integrals_of in_P in_Q]. rewrite Ep. assert (Hc : ch = 0%nat \/ ch = 1%nat) by lia.
      destruct Hc as [-> | ->]; cbn [Nat.add].
      * destruct (G 0%nat _ _ _ ltac:(lia) R0) as [A1 A2]. destruct (G 2%nat _ _ _ ltac:(lia) R2) as [A3 A4]. auto.
      * destruct (G 1%nat _ _ _ ltac:(lia) R1) as [A1 A2]. destruct (G 3%nat _ _ _ ltac:(lia) R3) as [A3 A4]. auto.
    + cbn [ds_mem integrals_of in_W]. rewrite Ep, EB, ES. cbn [columns_of signs_of drows dcols kernel_matrix]. auto.
Qed.

(** Precompute under any schedule, then contract. *)
Lemma computed_matrices normal cf seed_low DP DQ b rb lm lM thresh : legendre_ok cf seed_low DP DQ -> elements_ok rb -> numerics_ok rb ->
  dbasis_ok b -> radial_of b rb -> build_tables (db_sh b) = Ok (lm, lM) ->
  forall sched1 sched2 mem ths1 ths2 m, compute_tei_di normal cf seed_low rb lm thresh sched1 sched2 mem = Ok (ths1, ths2, m) ->
  finished (ths1, m) -> finished (ths2, m) ->
  exists I, computed normal DP DQ rb lm thresh I /\ forall Lcut P, (Lmax_of b <= Lcut)%Z -> density (dia_size b) P ->
    is_matrix (di_coulomb b (mkDS (d_Nel rb * length lm) m) P) (dia_size b) (dia_J b I Lcut (dent P)) /\
    forall order, all_pairs b order ->
      db_absm b = false \/ paired_shells (db_sh b) /\ mirror_symmetric b (dent P) /\ m_diagonal b (dent P) ->
      is_matrix (di_exchange b (mkDS (d_Nel rb * length lm) m) order P) (dia_size b) (dia_K b I Lcut (dia_screened b (dent P))).
Proof.
  intros HL He Hn Hb Hr Etab sched1 sched2 mem ths1 ths2 m E F1 F2.
  assert (Hlm : multipoles_ok lm).
  { intros L M Hin. destruct (build_tables_ok (db_sh b)) as (lm1 & lM1 & E1 & _ & _ & I1 & I2). rewrite Etab in E1. injection E1 as <- <-.
    destruct (tables_ok (db_sh b)) as (lm' & lM' & Htb). pose proof (tb_build _ _ _ Htb) as E'. rewrite Etab in E'. injection E' as <- <-.
    apply I2 in Hin. destruct Hin as (M' & -> & H1). pose proof (tb_le _ _ _ Htb _ _ H1). lia. }
  destruct (schedule_ok normal cf seed_low DP DQ rb lm thresh HL Hlm He Hn sched1 sched2 mem) as (t1 & t2 & m' & E' & Hin).
  rewrite E in E'. injection E' as <- <- <-.
  destruct (computed_stores normal DP DQ b rb lm lM thresh m Hn Hr Etab (Hin F1 F2)) as (I & HC & HS).
  exists I. split; [exact HC|]. intros Lcut P Hcut HP. split; [exact (di_coulomb_ok b _ lm lM I Lcut P Hb Etab HS HP Hcut)|].
  intros order Hord [Ha|(Hp & Hs & Hd)].
  - exact (di_exchange_ok b _ lm lM I Lcut order P Hb Etab HS HP Hcut Hord Ha).
  - destruct (db_absm b) eqn:Ea.
    + exact (di_exchange_absm b _ lm lM I Lcut order P Hb Etab HS HP Hcut Hord Ea Hp Hs Hd).
    + exact (di_exchange_ok b _ lm lM I Lcut order P Hb Etab HS HP Hcut Hord Ea).
Qed.

Lemma not_computed b s P order : ds_size s = 0%nat ->
  di_coulomb b s P = Throw LogicError /\ di_exchange b s order P = Throw LogicError.
Proof. intros H. unfold di_coulomb, di_exchange. rewrite H. split; reflexivity. Qed.

Lemma wrong_size b s P order : ds_size s <> 0%nat -> ~ density (dia_size b) P ->
  di_coulomb b s P = Throw LogicError /\ di_exchange b s order P = Throw LogicError.
Proof.
  intros Hs H. unfold di_coulomb, di_exchange. destruct (Nat.eqb_spec (ds_size s) 0); [contradiction|].
  rewrite expand_throws; [split; reflexivity|]. fold (survivors b). fold (dia_size b).
  destruct (Nat.eq_dec (drows P) (dia_size b)); [|now left]. right. intros E. apply H. now split.
Qed.
