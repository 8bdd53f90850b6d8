(** Guesses, frozen occupations, saving and loading of spherically averaged atoms. *)
Require Import Reals ZArith List Bool Arith Lia Lra Permutation FunctionalExtensionality.
Require Import Verif.Prelude Verif.FEModel Verif.AngModel Verif.JKModel Verif.ScfModel Verif.ScfSpec Verif.ScfProofs Verif.SgProofs
  Verif.RsModel Verif.RsSpec Verif.RsProofs Verif.RsGrad Verif.RsMain Verif.RsRest.
Import ListNotations.
Local Open Scope R_scope.

(* ---------- empty blocks and batches ---------- *)
Lemma fold_res_bad {S X} (f : S -> X -> res S) (good : X -> bool) l :
  (forall a x, good x = true -> exists a', f a x = Ok a') -> (forall a x, good x = false -> f a x = UB) ->
  (exists x, In x l /\ good x = false) -> forall a, fold_res f l a = UB.
Proof.
  intros H1 H2. induction l as [|y l IH]; intros (x & Hx & Hg) a; [destruct Hx|]. cbn [fold_res].
  destruct (good y) eqn:Ey.
  - destruct (H1 a y Ey) as [a' ->]. cbn [bind]. apply IH. destruct Hx as [->|Hx]; [congruence|eauto].
  - now rewrite (H2 a y Ey).
Qed.
Lemma accumulate_cases s acc l b : if Nat.eqb (b_m b) 0 then accumulate_density s acc l b = UB else exists a', accumulate_density s acc l b = Ok a'.
Proof.
  destruct acc as [[P C] E]. unfold accumulate_density. destruct (Nat.eqb (b_m b) 0); [reflexivity|].
  destruct (all_zero (b_m b) (b_occ b)); eexists; reflexivity.
Qed.
Lemma empty_block s blk : (exists k, (k < nblocks s)%nat /\ b_m (blk k) = 0%nat) -> build_fock s blk = UB.
Proof.
  intros (k & Hk & E). unfold nblocks, nparttype in Hk. unfold build_fock. destruct (sa_restricted s).
  - unfold build_restricted.
    rewrite (fold_res_bad _ (fun l => negb (Nat.eqb (b_m (blk l)) 0))); [reflexivity| | |].
    + intros a x Hg. pose proof (accumulate_cases s a x (blk x)) as H. destruct (Nat.eqb (b_m (blk x)) 0); [discriminate|exact H].
    + intros a x Hg. pose proof (accumulate_cases s a x (blk x)) as H. destruct (Nat.eqb (b_m (blk x)) 0); [exact H|discriminate].
    + exists k. split; [apply in_seq; lia|]. now rewrite E.
  - unfold build_unrestricted. cbv zeta.
    rewrite (fold_res_bad _ (fun l => negb (Nat.eqb (b_m (blk l)) 0) && negb (Nat.eqb (b_m (blk (sa_nb s + l)%nat)) 0))%bool); [reflexivity| | |].
    + intros [[[[Pa Ca] Pb] Cb] Ek] x Hg. apply andb_prop in Hg. destruct Hg as [G1 G2].
      pose proof (accumulate_cases s (Pa, Ca, Ek) x (blk x)) as H. destruct (Nat.eqb (b_m (blk x)) 0); [discriminate|].
      destruct H as [[[Pa' Ca'] Ek'] ->]. cbn [bind].
      pose proof (accumulate_cases s (Pb, Cb, Ek') x (blk (sa_nb s + x)%nat)) as H. destruct (Nat.eqb (b_m (blk (sa_nb s + x)%nat)) 0); [discriminate|].
      destruct H as [[[Pb' Cb'] Ek''] ->]. cbn [bind]. eexists; reflexivity.
    + intros [[[[Pa Ca] Pb] Cb] Ek] x Hg.
      pose proof (accumulate_cases s (Pa, Ca, Ek) x (blk x)) as H. destruct (Nat.eqb (b_m (blk x)) 0); [now rewrite H|].
      destruct H as [[[Pa' Ca'] Ek'] ->]. cbn [bind].
      pose proof (accumulate_cases s (Pb, Cb, Ek') x (blk (sa_nb s + x)%nat)) as H. destruct (Nat.eqb (b_m (blk (sa_nb s + x)%nat)) 0); [now rewrite H|discriminate].
    + destruct (Nat.lt_ge_cases k (sa_nb s)) as [H|H].
      * exists k. split; [apply in_seq; lia|]. now rewrite E.
      * exists (k - sa_nb s)%nat. split; [apply in_seq; lia|]. replace (sa_nb s + (k - sa_nb s))%nat with k by lia. rewrite E. now rewrite andb_false_r.
Qed.
Lemma filled_ok s blk : blocks_filled s blk -> exists r, build_fock s blk = Ok r.
Proof.
  intros Hf. unfold build_fock. destruct (sa_restricted s) eqn:Hr.
  - eexists. apply build_restricted_eval. intros l Hl. apply Hf. unfold nblocks, nparttype. rewrite Hr. lia.
  - eexists. apply build_unrestricted_eval. intros l Hl. split; apply Hf; unfold nblocks, nparttype; rewrite Hr; lia.
Qed.

Lemma batch_loop s dms : (forall dm, In dm dms -> blocks_filled s dm) -> forall order out,
  (forall i, In i order -> (i < length dms)%nat) ->
  exists out', fold_res (fun out i =>
      match nth_error dms i with
      | Some dm => match build_fock s dm with
                   | Ok r => Ok (fun k => if Nat.eqb k i then Some r else out k)
                   | Throw e => if Nat.ltb 1 (length dms) then UB else Throw e
                   | UB => UB
                   | OutOfFuel => OutOfFuel
                   end
      | None => UB
      end) order out = Ok out' /\
    (forall k, In k order -> exists dm r, nth_error dms k = Some dm /\ build_fock s dm = Ok r /\ out' k = Some r) /\
    (forall k, ~ In k order -> out' k = out k).
Proof.
  intros Hf. induction order as [|i order IH]; intros out Ho.
  - exists out. cbn [fold_res]. split; [reflexivity|]. split; [intros k []|auto].
  - cbn [fold_res]. destruct (nth_error dms i) as [dm|] eqn:En.
    2:{ apply nth_error_None in En. specialize (Ho i (or_introl eq_refl)). lia. }
    destruct (filled_ok s dm (Hf dm (nth_error_In _ _ En))) as [r Er']. rewrite Er'. cbn [bind].
    destruct (IH (fun k => if Nat.eqb k i then Some r else out k)) as (out' & H1 & H2 & H3); [intros; apply Ho; now right|].
    exists out'. split; [exact H1|]. split.
    + intros k Hk. destruct (in_dec Nat.eq_dec k order) as [Hi|Hi]; [now apply H2|]. destruct Hk as [->|Hk]; [|contradiction].
      exists dm, r. split; [exact En|]. split; [exact Er'|]. rewrite H3 by auto. now rewrite Nat.eqb_refl.
    + intros k Hk. rewrite H3 by (intros Hi; apply Hk; now right). destruct (Nat.eqb_spec k i); [subst; exfalso; apply Hk; now left|reflexivity].
Qed.
Lemma collect {A} (out : nat -> option A) (g : nat -> A) : forall n a acc, (forall k, (a <= k < a + n)%nat -> out k = Some (g k)) ->
  fold_res (fun l k => match out k with Some r => Ok (l ++ [r]) | None => UB end) (seq a n) acc = Ok (acc ++ map g (seq a n)).
Proof.
  induction n; intros a acc H; cbn [seq fold_res map]; [now rewrite app_nil_r|]. rewrite H by lia. cbn [bind].
  rewrite IHn by (intros; apply H; lia). now rewrite <- app_assoc.
Qed.
Lemma batch_ok s dms order : (forall dm, In dm dms -> blocks_filled s dm) -> Permutation order (seq 0 (length dms)) ->
  exists l, batched_fock_builder s dms order = Ok l /\ Forall2 (fun dm r => build_fock s dm = Ok r) dms l.
Proof.
  intros Hf Hp. unfold batched_fock_builder. cbv zeta.
  destruct (batch_loop s dms Hf order (fun _ => None)) as (out & H1 & H2 & _).
  { intros i Hi. eapply Permutation_in in Hi; [|exact Hp]. apply in_seq in Hi. lia. }
  rewrite H1. cbn [bind].
  destruct dms as [|d0 dms'] eqn:Ed; [exists []; split; [reflexivity|constructor]|]. rewrite <- Ed in *.
  destruct (filled_ok s d0) as [r0 _]; [apply Hf; rewrite Ed; now left|].
  set (g := fun k => match out k with Some r => r | None => r0 end).
  assert (Hin : forall k, (k < length dms)%nat -> exists dm r, nth_error dms k = Some dm /\ build_fock s dm = Ok r /\ out k = Some r).
  { intros k Hk. apply H2. eapply Permutation_in; [symmetry; exact Hp|]. apply in_seq. lia. }
  rewrite (collect out g).
  2:{ intros k Hk. destruct (Hin k) as (dm & r & _ & _ & E); [lia|]. unfold g. now rewrite E. }
  exists (map g (seq 0 (length dms))). split; [reflexivity|].
  clear - Hin. assert (G : forall a l, (forall k, (k < length l)%nat -> exists dm r, nth_error l k = Some dm /\ build_fock s dm = Ok r /\ out (a + k)%nat = Some r) ->
    Forall2 (fun dm r => build_fock s dm = Ok r) l (map g (seq a (length l)))).
  { intros a l. revert a. induction l as [|d l IH]; intros a H; cbn [length seq map]; constructor.
    - destruct (H 0%nat) as (dm & r & E1 & E2 & E3); [cbn; lia|]. injection E1 as ->. rewrite Nat.add_0_r in E3. unfold g. now rewrite E3.
    - apply IH. intros k Hk. destruct (H (S k)) as (dm & r & E1 & E2 & E3); [cbn; lia|]. exists dm, r. rewrite Nat.add_succ_r in E3. auto. }
  apply G. exact Hin.
Qed.

(* ---------- guess ---------- *)
Lemma linear_zero n f : linear_symmetric n f -> meq n n (f mzero) mzero.
Proof.
  intros [HL _] i j Hi Hj. assert (HZ : symmetric n mzero) by (intros ? ? _ _; reflexivity).
  pose proof (HL mzero mzero 1 HZ HZ i j Hi Hj) as H. replace (madd mzero (mscal 1 mzero)) with mzero in H by (fext; unfold madd, mscal, mzero; ring).
  unfold madd, mscal in H. unfold mzero at 2. lra.
Qed.
Lemma shell_zero nb n f l : shell_linear_symmetric nb n f -> (l < nb)%nat -> meq n n (f czero l) mzero.
Proof.
  intros [HL _] Hl i j Hi Hj.
  pose proof (HL czero czero 1 l (czero_sym _ _) (czero_sym _ _) Hl i j Hi Hj) as H.
  replace (cadd czero (cscal 1 czero)) with czero in H by (fext; unfold cadd, cscal, madd, mscal, czero, mzero; ring).
  unfold madd, mscal in H. unfold mzero. lra.
Qed.
Lemma sandw_meq s A B : meq (sa_n s) (sa_n s) A B -> meq (sa_n s) (sa_n s) (sandw s A) (sandw s B).
Proof. intros H i j Hi Hj. unfold sandw. apply mmul_l. intros k Hk. apply mmul_r. intros r Hr. now apply H. Qed.
Lemma K_zero s fac l : atom_ok s -> (l < sa_nb s)%nat -> meq (sa_n s) (sa_n s) (Kof s fac czero l) mzero.
Proof.
  intros (_ & H1 & H2) Hl i j Hi Hj. unfold Kof, have_exx, hf_exchange. rewrite div_zero.
  destruct (Reqb_spec (sa_kfrac s) 0) as [E1|E1]; destruct (Reqb_spec (sa_kshort s) 0) as [E2|E2]; cbn [negb orb]; [reflexivity| | |].
  - unfold madd, mscal. rewrite (shell_zero _ _ _ _ (H2 E2) Hl i j) by auto. unfold czero, mzero. ring.
  - unfold madd, mscal. rewrite (shell_zero _ _ _ _ (H1 E1) Hl i j) by auto. unfold czero, mzero. ring.
  - unfold madd, mscal. rewrite (shell_zero _ _ _ _ (H2 E2) Hl i j), (shell_zero _ _ _ _ (H1 E1) Hl i j) by auto. unfold czero, mzero. ring.
Qed.
Lemma core_sandw s V l : coreH s V l = sandw s (madd (madd (kin s l) V) (confm s)).
Proof.
  unfold coreH, sandw, kin, confm. f_equal. f_equal. fext. destruct (sa_conf s); destruct l as [|l]; cbn [Nat.ltb Nat.leb]; unfold madd, mscal, mzero;
  cbn [Nat.mul INR]; ring.
Qed.
Lemma core_is_fock s blk : atom_ok s -> sa_have_xc s = false -> blocks_filled s blk ->
  (forall k i, (k < nblocks s)%nat -> b_occ (blk k) i = 0) ->
  exists F, build_fock s blk = Ok (0, F) /\ forall l, (l < sa_nb s)%nat ->
    meq (sa_n s) (sa_n s) (F l) (coreH s (sa_Vnuc s) l) /\
    (sa_restricted s = false -> meq (sa_n s) (sa_n s) (F (sa_nb s + l)%nat) (coreH s (sa_Vnuc s) l)).
Proof.
  intros Hs Hx Hf Hz.
  assert (HJ : forall P, P = mzero -> meq (sa_n s) (sa_n s) (coul s P) mzero).
  { intros P ->. unfold coul. replace (fun a b => mzero a b / angfac) with mzero by (fext; unfold mzero, Rdiv; ring).
    apply linear_zero. apply Hs. }
  assert (C0 : csum (sa_nb s) czero = mzero) by (fext; unfold csum; apply sum_zero'; reflexivity).
  assert (M0 : madd mzero mzero = mzero) by (fext; unfold madd, mzero; ring).
  assert (FA : forall J K l, meq (sa_n s) (sa_n s) J mzero -> meq (sa_n s) (sa_n s) (K l) mzero ->
     meq (sa_n s) (sa_n s) (sandw s (fao s J czero K l)) (coreH s (sa_Vnuc s) l)).
  { intros J K l HJ' HK. rewrite core_sandw. apply sandw_meq. intros i j Hi Hj. unfold fao, ham, madd. rewrite HJ', HK by auto. unfold czero, mzero. ring. }
  assert (SZ : forall f : nat -> mat, sum (sa_nb s) (fun l => tr (sa_n s) (czero l) (f l)) = 0) by (intros; apply sum_zero'; intros; apply tr_zero).
  destruct (sa_restricted s) eqn:Hr.
  - assert (D0 : densr s blk = czero).
    { apply functional_extensionality; intros l. unfold densr, upto, dens. destruct (Nat.ltb_spec l (sa_nb s)); [|reflexivity].
      apply density_zero. intros i _. apply Hz. unfold nblocks, nparttype. rewrite Hr. cbn [plus]. lia. }
    exists (Fr s czero). unfold build_fock. rewrite Hr, build_restricted_eval, D0.
    2:{ intros l Hl. apply Hf. unfold nblocks, nparttype. rewrite Hr. lia. }
    split.
    + f_equal. f_equal. unfold Er, xc1. rewrite Hx, C0, SZ, tr_zero. unfold ctr. rewrite sum_zero' by (intros; rewrite tr_comm; apply tr_zero). cbn [fst]. ring.
    + intros l Hl. split; [|discriminate]. unfold Fr, xc1. rewrite Hx. cbn [snd]. apply FA; [apply HJ, C0|now apply K_zero].
  - assert (D0 : densr s blk = czero).
    { apply functional_extensionality; intros l. unfold densr, upto, dens. destruct (Nat.ltb_spec l (sa_nb s)); [|reflexivity].
      apply density_zero. intros i _. apply Hz. unfold nblocks, nparttype. rewrite Hr. cbn [plus]. lia. }
    assert (D1 : densb s blk = czero).
    { apply functional_extensionality; intros l. unfold densb, upto, dens. destruct (Nat.ltb_spec l (sa_nb s)); [|reflexivity].
      apply density_zero. intros i _. apply Hz. unfold nblocks, nparttype. rewrite Hr. lia. }
    exists (Fu s (Nat.ltb 0 (sa_nelb s)) czero czero). unfold build_fock. rewrite Hr, build_unrestricted_eval, D0, D1.
    2:{ intros l Hl. split; apply Hf; unfold nblocks, nparttype; rewrite Hr; lia. }
    split.
    + f_equal. f_equal. unfold Eu, xc2. rewrite Hx, C0, M0, tr_zero, sum_zero' by (intros; rewrite !tr_zero; ring).
      unfold ctr. rewrite sum_zero' by (intros; rewrite tr_comm; apply tr_zero). cbn [fst]. ring.
    + intros l Hl. unfold Fu, xc2. rewrite Hx. cbn [fst snd]. rewrite C0, M0. destruct (Nat.ltb_spec l (sa_nb s)); [|lia].
      destruct (Nat.ltb_spec (sa_nb s + l) (sa_nb s)); [lia|]. replace (sa_nb s + l - sa_nb s)%nat with l by lia.
      split; [apply FA; [now apply HJ|now apply K_zero]|]. intros _. destruct (Nat.ltb 0 (sa_nelb s)); apply FA; [now apply HJ|now apply K_zero|now apply HJ|].
      intros i j _ _. reflexivity.
Qed.

(* ---------- what is saved ---------- *)
Lemma cube_is_density s blk t l : build_cube (extract_channel s blk t) l = block_P s (blk (t * sa_nb s + l)%nat).
Proof.
  unfold build_cube, extract_channel. cbn [ch_m ch_occ ch_orb]. set (b := blk (t * sa_nb s + l)%nat).
  destruct (Nat.eqb_spec (b_m b) 0) as [E|E]; cbn [orb].
  - fext. unfold block_P, block_density. rewrite E. reflexivity.
  - destruct (all_zero (b_m b) (b_occ b)) eqn:Ez; [|reflexivity].
    unfold block_P. rewrite density_zero; [reflexivity|]. now apply all_zero_spec.
Qed.
Lemma fold_madd (f : nat -> mat) F n : forall ls P, tr n (fold_left (fun P l => madd P (f l)) ls P) F = tr n P F + lsum ls (fun l => tr n (f l) F).
Proof. induction ls as [|l ls IH]; intros P; cbn [fold_left lsum]; [ring|]. rewrite IH, tr_add. ring. Qed.
Lemma P_trace s b : half_inverse (sa_n s) (sa_X s) (sa_S s) -> orthonormal (sa_n s) b -> tr (sa_n s) (block_P s b) (sa_S s) = occupation b.
Proof.
  intros [H1 _] Ho. unfold block_P. rewrite tr_block_density. rewrite <- (orbital_trace_id _ _ _ H1 Ho). unfold orbital_trace.
  apply sum_ext. intros i Hi. f_equal. symmetry. exact (bil_transform (sa_n s) (sa_S s) (sa_X s) (fun p => b_orb b p i) (fun p => b_orb b p i)).
Qed.
Lemma density_counts s blk : half_inverse (sa_n s) (sa_X s) (sa_S s) -> all_orthonormal s blk ->
  tr (sa_n s) (total_density s blk) (sa_S s) = electrons s blk.
Proof.
  intros HX Ho. unfold total_density, electrons, all_orthonormal, nblocks, nparttype in *. destruct (sa_restricted s).
  - rewrite fold_madd, tr_zero, Rplus_0_l, lsum_seq0, Nat.mul_1_l. apply sum_ext. intros l Hl. rewrite cube_is_density. apply P_trace; auto. apply Ho. lia.
  - rewrite !fold_madd, tr_zero, Rplus_0_l, !lsum_seq0. replace (2 * sa_nb s)%nat with (sa_nb s + sa_nb s)%nat by lia. rewrite sum_split.
    f_equal; apply sum_ext; intros l Hl; rewrite cube_is_density, P_trace; auto; try (apply Ho; lia). now rewrite Nat.mul_1_l.
Qed.
Lemma lsum_ix (l : list nat) : forall f : nat -> R, lsum l f = sum (length l) (fun i => f (ix l i)).
Proof. induction l as [|x l IH]; intros f; [reflexivity|]. cbn [lsum length]. rewrite sum_shift, IH. reflexivity. Qed.
Lemma keep_sum c l (f : nat -> R) : (forall i, ch_occ c l i = 0 -> f i = 0) -> sum (length (keep c l)) (fun i => f (ix (keep c l) i)) = sum (ch_m c l) f.
Proof.
  intros H. rewrite <- lsum_ix, <- lsum_seq0. unfold keep. induction (seq 0 (ch_m c l)) as [|i ls IH]; [reflexivity|]. cbn [filter lsum].
  destruct (Rltb_spec 0 (Rabs (ch_occ c l i))) as [Hi|Hi]; cbn [lsum]; rewrite IH; [reflexivity|].
  rewrite (H i); [ring|]. destruct (Req_dec (ch_occ c l i) 0) as [|Hn]; auto. apply Rabs_pos_lt in Hn. lra.
Qed.
Lemma saved_orbitals_ok s blk t l : let c := extract_channel s blk t in let b := blk (t * sa_nb s + l)%nat in
  let '(m, C, o) := saved_orbitals c l in
  density_of m C o = block_P s b /\ sum m o = occupation b /\ (forall i, (i < m)%nat -> o i <> 0) /\ (m <= b_m b)%nat.
Proof.
  cbv zeta. unfold saved_orbitals. set (c := extract_channel s blk t). set (b := blk (t * sa_nb s + l)%nat). split; [|split; [|split]].
  - fext. unfold density_of.
    rewrite (keep_sum c l (fun i => ch_orb c l x i * ch_occ c l i * ch_orb c l x0 i)) by (intros i ->; ring). reflexivity.
  - rewrite (keep_sum c l (fun i => ch_occ c l i)) by auto. reflexivity.
  - intros i Hi. assert (Hin : In (ix (keep c l) i) (keep c l)) by (unfold ix; now apply nth_In).
    unfold keep in Hin at 2. apply filter_In in Hin. destruct Hin as [_ Hp]. destruct (Rltb_spec 0 (Rabs (ch_occ c l (ix (keep c l) i)))) as [H|H]; [|discriminate].
    intros E. rewrite E, Rabs_R0 in H. lra.
  - change (b_m b) with (ch_m c l). unfold keep. etransitivity; [|rewrite <- (seq_length (ch_m c l) 0); reflexivity].
    clear. induction (seq 0 (ch_m c l)) as [|i ls IH]; cbn [filter length]; [lia|]. destruct (Rltb 0 (Rabs (ch_occ c l i))); cbn [length]; lia.
Qed.
Lemma int_part_bounds x : IZR (Int_part x) <= x < IZR (Int_part x) + 1.
Proof. destruct (base_Int_part x). lra. Qed.
Lemma round_nearest x : nearest (round_away x) x.
Proof.
  unfold nearest, round_away. destruct (Rleb_spec 0 x).
  - pose proof (int_part_bounds (x + / 2)). apply Rabs_le. lra.
  - pose proof (int_part_bounds (- x + / 2)). rewrite opp_IZR. apply Rabs_le. lra.
Qed.
Lemma round_integer z : round_away (IZR z) = z.
Proof.
  pose proof (round_nearest (IZR z)) as H. unfold nearest in H. rewrite <- minus_IZR in H.
  assert (Rabs (IZR (round_away (IZR z) - z)) < 1) by lra. rewrite <- abs_IZR in H0. apply lt_IZR in H0. lia.
Qed.

(* ---------- loading ---------- *)
Lemma fill_l_ok sv s no S12 old l Pc per mx b : solvers_ok sv -> 0 <= mx ->
  (forall A, In A Pc -> forall i j, (i < no)%nat -> (j < no)%nat -> dent A i j = dent A j i) ->
  fill_l sv s no S12 old l Pc per mx = Ok b ->
  b_m b = sa_n s /\ orthonormal (sa_n s) b /\ (forall i, (i < sa_n s)%nat -> 0 <= b_occ b i <= mx) /\
  (forall i j, (i <= j)%nat -> (j < sa_n s)%nat -> b_occ b j <= b_occ b i) /\
  exists Pn, symmetric (sa_n s) Pn /\
   ((l <= old)%nat -> (l < length Pc)%nat -> Pn = project (sa_n s) no (sa_X s) S12 (sa_S s) (dent (nth l Pc dempty)) per) /\
   (spectrum_in (sa_n s) (mmul (sa_n s) (mmul (sa_n s) (mT (sa_X s)) Pn) (sa_X s)) 0 mx ->
    meq (sa_n s) (sa_n s) (block_P s b)
     (mmul (sa_n s) (mmul (sa_n s) (mmul (sa_n s) (sa_X s) (mT (sa_X s))) Pn) (mmul (sa_n s) (sa_X s) (mT (sa_X s))))).
Proof.
  intros Hsv Hmax HP. unfold fill_l. cbv zeta. set (n := sa_n s). set (X := sa_X s).
  match goal with |- bind ?r _ = _ -> _ => destruct r as [Pn| | |] eqn:EP; try discriminate end. cbn [bind].
  assert (HPn : symmetric n Pn /\ ((l <= old)%nat -> (l < length Pc)%nat -> Pn = project n no X S12 (sa_S s) (dent (nth l Pc dempty)) per)).
  { destruct (Nat.leb_spec l old) as [L1|L1]; destruct (Nat.ltb_spec l (length Pc)) as [L2|L2]; cbn [andb] in EP;
      try (injection EP as <-; split; [intros ? ? _ _; reflexivity|intros; lia]).
    destruct (negb _); [discriminate|]. injection EP as <-. split; [|reflexivity].
    assert (HS : symmetric n (mmul no (mmul no (mmul n (mmul n X (mT X)) S12) (dent (nth l Pc dempty))) (mT (mmul n (mmul n X (mT X)) S12)))).
    { set (Q := mmul n (mmul n X (mT X)) S12). intros i j Hi Hj.
      change (mmul no (mmul no Q (dent (nth l Pc dempty))) (mT Q)) with (mmul no (mmul no (mT (mT Q)) (dent (nth l Pc dempty))) (mT Q)).
      rewrite !sandwich_bil. apply bil_sym. intros p q Hp Hq. apply HP; auto. now apply nth_In. }
    destruct (_ && _)%bool; auto. intros i j Hi Hj. unfold mscal. now rewrite (HS i j). }
  destruct HPn as [HPs HPe].
  destruct (sv_eig sv n (mmul n (mmul n (mT X) Pn) X)) as [[e V]|] eqn:EE; [|discriminate]. intros HH.
  assert (HF : forall p q, In p (seq 0 n) -> In q (seq 0 n) -> Pn p q = Pn q p) by (intros p q Hp Hq; apply in_seq in Hp, Hq; apply HPs; lia).
  assert (EO : meq n n (gather Pn (seq 0 n) (seq 0 n)) Pn) by (intros i j Hi Hj; unfold gather, ix; now rewrite !seq_nth by auto).
  set (Porth := mmul n (mmul n (mT X) Pn) X) in *.
  assert (HS : symmetric n Porth) by (intros i j Hi Hj; unfold Porth; rewrite !sandwich_bil; now apply bil_sym).
  destruct Hsv as (He & _). pose proof (He _ _ _ _ HS EE) as HI. destruct HI as (O1 & O2 & HE & Hasc).
  injection HH as <-. unfold block_P. cbn [b_m b_orb b_occ]. fold n X. split; [reflexivity|]. split; [|split; [|split]].
  - intros i j Hi Hj. cbn [b_m b_orb] in *. transitivity (mmul n (mT V) V (n - 1 - i)%nat (n - 1 - j)%nat); [reflexivity|].
    rewrite O1 by lia. unfold mid. destruct (Nat.eqb_spec (n - 1 - i) (n - 1 - j)); destruct (Nat.eqb_spec i j); auto; lia.
  - intros i Hi. unfold Rmin, Rmax. destruct (Rle_dec (e (n - 1 - i)%nat) 0); destruct (Rle_dec _ mx); lra.
  - intros i j Hij Hj. assert (e (n - 1 - j)%nat <= e (n - 1 - i)%nat) by (apply Hasc; lia).
    unfold Rmin, Rmax. repeat destruct (Rle_dec _ _); lra.
  - exists Pn. split; [exact HPs|]. split; [exact HPe|]. intros Hsp.
    assert (Hcl : forall i, (i < n)%nat -> Rmin (Rmax (e i) 0) mx = e i).
    { intros i Hi. destruct (eig_rayleigh n Porth e V i (conj O1 (conj O2 (conj HE Hasc))) Hi) as [R1 R2].
      specialize (Hsp (fun r => V r i)). fold Porth in Hsp. rewrite R1, R2 in Hsp.
      unfold Rmin, Rmax. destruct (Rle_dec (e i) 0); destruct (Rle_dec _ mx); lra. }
    intros a b Ha Hb. unfold block_density.
    rewrite (sum_ext n _ (fun i => (fun k => mmul n X V a k * e k * mmul n X V b k) (n - 1 - i)%nat)).
    2:{ intros i Hi. rewrite Hcl by lia. reflexivity. }
    rewrite <- (sum_rev n (fun k => mmul n X V a k * e k * mmul n X V b k)).
    transitivity (mmul n (mmul n X Porth) (mT X) a b).
    2:{ unfold Porth. rewrite !massoc. reflexivity. }
    transitivity (mmul n (mmul n X (mmul n Porth V)) (mT (mmul n X V)) a b).
    + unfold mmul at 3. apply sum_ext. intros k Hk. unfold mT at 1. f_equal.
      unfold mmul at 1 2. rewrite <- sum_scal_r. apply sum_ext. intros p Hp. rewrite HE by auto. ring.
    + rewrite mT_mmul, !massoc. apply mmul_r. intros p Hp. apply mmul_r. intros q Hq.
      rewrite <- massoc. rewrite (mmul_l n _ mid) by (intros; apply O2; auto). apply mmul_id_l; auto.
Qed.
