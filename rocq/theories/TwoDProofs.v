(** Proofs about the two-electron matrices of an atomic basis. *)
Require Import Reals ZArith List Bool Arith Lia Lra Permutation.
Require Import Verif.Prelude Verif.AngModel Verif.AngProofs Verif.CholModel Verif.CholSpec Verif.CholProofs
  Verif.JKModel Verif.JKSpec Verif.JKProofs Verif.GauntModel Verif.GauntSpec Verif.GauntProofs
  Verif.TwoDModel Verif.TwoDSpec.
Import ListNotations.
Local Open Scope R_scope.

(* ---------- loops that add up ---------- *)

Lemma fold_res_obs {S X I} (f : S -> X -> res S) (Inv : S -> Prop) (obs : S -> I -> R) (ok : I -> Prop)
    (delta : X -> I -> R) l :
  (forall s x, In x l -> Inv s -> exists s', f s x = Ok s' /\ Inv s' /\
     forall i, ok i -> obs s' i = obs s i + delta x i) ->
  forall s, Inv s -> exists s', fold_res f l s = Ok s' /\ Inv s' /\
     forall i, ok i -> obs s' i = obs s i + lsum l (fun x => delta x i).
Proof.
  induction l as [|x l IH]; intros H s Hs.
  - exists s. split; [reflexivity|]. split; auto. intros. simpl. ring.
  - destruct (H s x (or_introl eq_refl) Hs) as (s1 & E1 & H1 & O1).
    destruct (IH ltac:(intros; apply H; [now right|assumption]) s1 H1) as (s2 & E2 & H2 & O2).
    exists s2. cbn [fold_res]. rewrite E1. cbn [bind]. split; [exact E2|]. split; auto.
    intros i Hi. rewrite O2, O1 by auto. simpl. ring.
Qed.

Lemma lsum_pick (l : list Z) (L : Z) f : NoDup l ->
  lsum l (fun x => if (x =? L)%Z then f x else 0) = if in_dec Z.eq_dec L l then f L else 0.
Proof.
  induction l as [|x l IH]; intros Hn; [reflexivity|]. inversion Hn; subst. cbn [lsum]. rewrite IH by auto.
  destruct (Z.eqb_spec x L) as [->|Hne].
  - destruct (in_dec Z.eq_dec L l); [contradiction|].
    destruct (in_dec Z.eq_dec L (L :: l)) as [|n0]; [ring|destruct n0; now left].
  - destruct (in_dec Z.eq_dec L l) as [i|n0]; destruct (in_dec Z.eq_dec L (x :: l)) as [i'|n']; try ring.
    + destruct n'; now right.
    + destruct i'; [congruence|contradiction].
Qed.

Lemma lsum_zpick a b L f :
  lsum (zrange a b) (fun x => if (x =? L)%Z then f x else 0) = if ((a <=? L) && (L <=? b))%bool%Z then f L else 0.
Proof.
  rewrite lsum_pick by apply zrange_nodup.
  destruct (in_dec Z.eq_dec L (zrange a b)) as [H|H]; rewrite zrange_in in H;
    destruct (Z.leb_spec a L), (Z.leb_spec L b); simpl; auto; lia.
Qed.

Lemma lsum_zrange_widen a b a' b' f : (a' <= a)%Z -> (b <= b')%Z ->
  (forall L, (a' <= L <= b')%Z -> ~ (a <= L <= b)%Z -> f L = 0) ->
  lsum (zrange a b) f = lsum (zrange a' b') f.
Proof.
  intros Ha Hb H.
  assert (E : Permutation (zrange a b) (filter (fun L => ((a <=? L) && (L <=? b))%bool%Z) (zrange a' b'))).
  { apply NoDup_Permutation; [apply zrange_nodup|apply NoDup_filter, zrange_nodup|].
    intros L. rewrite filter_In, !zrange_in. lia. }
  rewrite (lsum_perm _ _ f E), lsum_filter. apply lsum_ext. intros L HL. rewrite zrange_in in HL.
  destruct (Z.leb_spec a L), (Z.leb_spec L b); simpl; auto; symmetry; apply H; lia.
Qed.

Lemma sum_pick2 n m i j f : (i < n)%nat -> (j < m)%nat ->
  sum n (fun x => sum m (fun y => if (Nat.eqb x i && Nat.eqb y j)%bool then f x y else 0)) = f i j.
Proof.
  intros Hi Hj. rewrite (sum_single n i); auto.
  - rewrite (sum_single m j); auto.
    + now rewrite !Nat.eqb_refl.
    + intros y _ Hy. destruct (Nat.eqb_spec y j); [contradiction|]. now rewrite andb_false_r.
  - intros x _ Hx. apply sum_zero'. intros y _. destruct (Nat.eqb_spec x i); [contradiction|reflexivity].
Qed.

Lemma win_fn N i j i' j' a b B : (a < N)%nat -> (b < N)%nat ->
  win (i' * N) N (j' * N) N B (fn N i a) (fn N j b) =
  if (Nat.eqb i' i && Nat.eqb j' j)%bool then B a b else 0.
Proof.
  intros Ha Hb. unfold win, fn.
  destruct (Nat.eqb_spec i' i) as [->|Hi]; cbn [andb].
  - replace (Nat.leb (i * N) (i * N + a) && Nat.ltb (i * N + a) (i * N + N))%bool with true.
    2:{ symmetry. apply andb_true_intro. split; [apply Nat.leb_le|apply Nat.ltb_lt]; lia. }
    cbn [andb]. destruct (Nat.eqb_spec j' j) as [->|Hj].
    + replace (Nat.leb (j * N) (j * N + b) && Nat.ltb (j * N + b) (j * N + N))%bool with true.
      2:{ symmetry. apply andb_true_intro. split; [apply Nat.leb_le|apply Nat.ltb_lt]; lia. }
      f_equal; lia.
    + destruct (Nat.leb_spec (j' * N) (j * N + b)); cbn [andb]; auto.
      destruct (Nat.ltb_spec (j * N + b) (j' * N + N)); auto. exfalso. nia.
  - destruct (Nat.leb_spec (i' * N) (i * N + a)); cbn [andb]; auto.
    destruct (Nat.ltb_spec (i * N + a) (i' * N + N)); cbn [andb]; auto. exfalso. nia.
Qed.

(* ---------- shells ---------- *)

Section Shells.
Variable sh : list (Z * Z).
Hypothesis Hsh : shells_ok sh.

Lemma shell_in i : (i < length sh)%nat -> In (l_of sh i, m_of sh i) sh.
Proof. intros H. unfold l_of, m_of. rewrite <- surjective_pairing. now apply nth_In. Qed.

Lemma shell_bounds i : (i < length sh)%nat ->
  (Z.abs (m_of sh i) <= l_of sh i /\ l_of sh i <= lmax_of sh /\
   zmin_list (map snd sh) <= m_of sh i <= zmax_list (map snd sh))%Z.
Proof.
  intros H. pose proof (shell_in i H) as Hin. destruct Hsh as [_ Hs]. split; [apply (Hs _ _ Hin)|]. split.
  - apply zmax_list_ge. now apply (in_map fst) in Hin.
  - split; [apply zmin_list_le|apply zmax_list_ge]; now apply (in_map snd) in Hin.
Qed.

Lemma lmax_nonneg : (0 <= lmax_of sh)%Z.
Proof.
  destruct Hsh as [Hne Hs]. destruct sh as [|[l m] r]; [congruence|].
  pose proof (Hs l m (or_introl eq_refl)). pose proof (zmax_list_ge (map fst ((l, m) :: r)) l ltac:(now left)).
  unfold lmax_of. lia.
Qed.

Lemma N_L_pos : Z.of_nat (N_L_of sh) = (2 * lmax_of sh + 1)%Z.
Proof. pose proof lmax_nonneg. unfold N_L_of. lia. Qed.

End Shells.

Definition Gc (eval : generator) (sh : list (Z * Z)) (i j : nat) (L : Z) : R :=
  gaunt_coefficient eval (l_of sh j) (m_of sh j) L (m_of sh j - m_of sh i) (l_of sh i) (m_of sh i).

(** Every coupling the loops ask for. *)
Definition couples (eval : generator) (sh : list (Z * Z)) (g : gtable) : Prop :=
  forall i j L, (i < length sh)%nat -> (j < length sh)%nat -> (0 <= L <= 2 * lmax_of sh)%Z ->
    (Z.abs (m_of sh j - m_of sh i) <= L)%Z ->
    coeff g (l_of sh j) (m_of sh j) L (m_of sh j - m_of sh i) (l_of sh i) = Ok (Gc eval sh i j L).

Lemma couples_ok b calls : basis_ok b calls -> exists g, atomic_gaunt b = Ok g /\ couples (b_eval b) (b_sh b) g.
Proof.
  intros (Hsh & Hgen & _). unfold atomic_gaunt.
  assert (Hg : (lmax_of (b_sh b) <= atomic_gmax (b_sh b))%Z) by (unfold lmax_of, atomic_gmax; lia).
  pose proof (lmax_nonneg _ Hsh).
  destruct (atomic_couplings_ok (b_eval b) (b_sh b) (2 * atomic_gmax (b_sh b)) Hgen Hsh ltac:(lia)) as (g & E & H1 & _).
  exists g. split; [exact E|]. intros i j L Hi Hj HL HM.
  apply H1; [now apply shell_in|now apply shell_in|lia|exact HM].
Qed.

(** Couplings vanish outside the triangle. *)
Lemma Gc_zero eval sh i j L : generator_ok eval ->
  ~ (Z.abs (l_of sh j - l_of sh i) <= L <= l_of sh j + l_of sh i)%Z -> Gc eval sh i j L = 0.
Proof.
  intros (H1 & H2 & _ & Hz) HL. unfold Gc, gaunt_coefficient.
  replace (-2 * m_of sh j)%Z with (2 * - m_of sh j)%Z by lia. rewrite Hz; [ring|].
  left. unfold triangle. lia.
Qed.

Section Coulomb.
Variables (sh : list (Z * Z)) (eval : generator) (g : gtable) (Nrad : nat).
Hypothesis Hsh : shells_ok sh.
Hypothesis Hgen : generator_ok eval.
Hypothesis Hco : couples eval sh g.

Let nsh := length sh.
Let N_L := N_L_of sh.
Let Mmax := (zmax_list (map snd sh) - zmin_list (map snd sh))%Z.

Definition valid (L M : Z) : Prop := (0 <= L < Z.of_nat N_L)%Z /\ (Z.abs M <= Z.min L Mmax)%Z.

Definition aux_inv (A : Z -> Z -> dmat) : Prop :=
  forall L M, valid L M -> drows (A L M) = Nrad /\ dcols (A L M) = Nrad.

Lemma valid_ok L M : valid L M -> aux_ok N_L Mmax L M = true.
Proof. intros [H1 H2]. unfold aux_ok. rewrite !andb_true_iff, Z.leb_le, Z.ltb_lt, Z.leb_le, Z.ltb_lt. lia. Qed.

Lemma aux_add_ok A L M X : aux_inv A -> valid L M -> drows X = Nrad -> dcols X = Nrad ->
  exists A', aux_add N_L Mmax A L M X = Ok A' /\ aux_inv A' /\
    forall L' M' c d, valid L' M' ->
      dent (A' L' M') c d = dent (A L' M') c d + (if ((L =? L') && (M =? M'))%bool%Z then dent X c d else 0).
Proof.
  intros HA HV HX1 HX2. unfold aux_add. rewrite (valid_ok L M HV).
  destruct (HA L M HV) as [R1 C1]. unfold dadd. rewrite R1, C1, HX1, HX2, !Nat.eqb_refl. cbn [andb bind].
  eexists. split; [reflexivity|]. split.
  - intros L' M' HV'. destruct (_ && _)%bool; [split; reflexivity|now apply HA].
  - intros L' M' c d _. rewrite (Z.eqb_sym L' L), (Z.eqb_sym M' M).
    destruct (Z.eqb_spec L L') as [<-|]; cbn [andb]; [|ring].
    destruct (Z.eqb_spec M M') as [<-|]; [reflexivity|ring].
Qed.

Lemma aux_init_inv : aux_inv (aux_init Nrad Mmax).
Proof.
  intros L M [H1 H2]. unfold aux_init.
  destruct (Z.leb_spec (- Z.min L Mmax) M); [|lia]. destruct (Z.leb_spec M (Z.min L Mmax)); [|lia]. split; reflexivity.
Qed.

Lemma aux_init_zero L M c d : dent (aux_init Nrad Mmax L M) c d = 0.
Proof. unfold aux_init. destruct (_ && _)%bool; reflexivity. Qed.

Lemma pair_valid i j L : (i < nsh)%nat -> (j < nsh)%nat ->
  (Z.max (Z.abs (l_of sh j - l_of sh i)) (Z.abs (m_of sh j - m_of sh i)) <= L <= l_of sh j + l_of sh i)%Z ->
  valid L (m_of sh j - m_of sh i) /\ (0 <= L <= 2 * lmax_of sh)%Z.
Proof.
  intros Hi Hj HL. destruct (shell_bounds sh Hsh i Hi) as (A1 & A2 & A3). destruct (shell_bounds sh Hsh j Hj) as (B1 & B2 & B3).
  pose proof (N_L_pos sh Hsh) as HN. fold N_L in HN. unfold valid, Mmax. clear - HL A1 A2 A3 B1 B2 B3 HN. lia.
Qed.

Lemma ang_block_ok P k l : drows P = (nsh * Nrad)%nat -> dcols P = (nsh * Nrad)%nat -> (k < nsh)%nat -> (l < nsh)%nat ->
  ang_block Nrad P k l = Ok (mkD Nrad Nrad (fun c d => dent P (fn Nrad k c) (fn Nrad l d))).
Proof. intros R1 C1 Hk Hl. unfold ang_block, fn. rewrite get_block_ok; [reflexivity|rewrite R1; nia|rewrite C1; nia]. Qed.

Lemma contract_ket_ok P : drows P = (nsh * Nrad)%nat -> dcols P = (nsh * Nrad)%nat ->
  exists A, contract_ket sh Nrad N_L Mmax g P = Ok A /\ aux_inv A /\
    forall L M c d, valid L M -> dent (A L M) c d =
      sum nsh (fun k => sum nsh (fun l =>
        if ((Z.abs (l_of sh k - l_of sh l) <=? L) && (L <=? l_of sh k + l_of sh l) && (m_of sh k - m_of sh l =? M))%bool%Z
        then Gc eval sh l k L * dent P (fn Nrad k c) (fn Nrad l d) else 0)).
Proof.
  intros R1 C1. unfold contract_ket.
  set (okI := fun i : Z * Z * nat * nat => let '(L, M, _, _) := i in valid L M).
  set (obs := fun (A : Z -> Z -> dmat) (i : Z * Z * nat * nat) => let '(L, M, c, d) := i in dent (A L M) c d).
  set (dl := fun k l (i : Z * Z * nat * nat) => let '(L, M, c, d) := i in
    if ((Z.abs (l_of sh k - l_of sh l) <=? L) && (L <=? l_of sh k + l_of sh l) && (m_of sh k - m_of sh l =? M))%bool%Z
        then Gc eval sh l k L * dent P (fn Nrad k c) (fn Nrad l d) else 0).
  match goal with |- exists A, fold_res ?f ?l0 ?s0 = _ /\ _ =>
    destruct (fold_res_obs f aux_inv obs okI (fun k i => sum nsh (fun l => dl k l i)) l0) with (s := s0) as (A & E & HI & HO)
  end.
  - intros A k Hk HA. apply in_seq in Hk.
    match goal with |- exists s', fold_res ?f ?l0 ?s0 = _ /\ _ =>
      destruct (fold_res_obs f aux_inv obs okI (fun l i => dl k l i) l0) with (s := s0) as (A' & E & HI & HO)
    end; [|exact HA|exists A'; split; [exact E|]; split; [exact HI|]; intros i Hi; rewrite HO, lsum_seq0 by auto; reflexivity].
    intros A0 l Hl HA0. apply in_seq in Hl.
    destruct (nth k sh (0, 0)%Z) as [lk mk] eqn:Ek. destruct (nth l sh (0, 0)%Z) as [ll ml] eqn:El.
    assert (Elk : l_of sh k = lk) by (unfold l_of; now rewrite Ek). assert (Emk : m_of sh k = mk) by (unfold m_of; now rewrite Ek).
    assert (Ell : l_of sh l = ll) by (unfold l_of; now rewrite El). assert (Eml : m_of sh l = ml) by (unfold m_of; now rewrite El).
    match goal with |- exists s', fold_res ?f ?l0 ?s0 = _ /\ _ =>
      destruct (fold_res_obs f aux_inv obs okI (fun L' i => let '(L, M, c, d) := i in
         if (L' =? L)%Z then (if (mk - ml =? M)%Z then Gc eval sh l k L' * dent P (fn Nrad k c) (fn Nrad l d) else 0) else 0) l0)
         with (s := s0) as (A' & E & HI & HO)
    end; [|exact HA0|].
    + intros A1 L' HL' HA1. apply zrange_in in HL'.
      destruct (pair_valid l k L') as [HV HB]; [unfold nsh; lia|unfold nsh; lia|rewrite Elk, Ell, Emk, Eml; exact HL'|].
      assert (HV' := HV). rewrite Emk, Eml in HV.
      pose proof (Hco l k L' ltac:(lia) ltac:(lia) HB) as HC. rewrite Elk, Ell, Emk, Eml in HC.
      rewrite HC by (clear - HL'; lia). cbn [bind]. rewrite (ang_block_ok P k l R1 C1) by (unfold nsh; lia). cbn [bind].
      destruct (aux_add_ok A1 L' (mk - ml) (dscale (Gc eval sh l k L') (mkD Nrad Nrad (fun c d => dent P (fn Nrad k c) (fn Nrad l d)))) HA1 HV eq_refl eq_refl)
        as (A2 & E2 & HI2 & HO2).
      exists A2. split; [exact E2|]. split; [exact HI2|].
      intros [[[L M] c] d] Hi. unfold okI in Hi. unfold obs. rewrite HO2 by exact Hi. f_equal.
      cbn [dent dscale mscal]. destruct (Z.eqb_spec L' L); cbn [andb]; auto.
    + exists A'. split; [exact E|]. split; [exact HI|]. intros [[[L M] c] d] Hi. rewrite HO by exact Hi.
      f_equal. rewrite lsum_zpick. unfold dl. rewrite Elk, Ell, Emk, Eml. unfold okI in Hi. destruct Hi as [HLb HMb].
      destruct (Z.eqb_spec (mk - ml) M) as [Em|]; [|rewrite andb_false_r; destruct (_ && _)%bool; reflexivity].
      subst M. replace (Z.max (Z.abs (lk - ll)) (Z.abs (mk - ml)) <=? L)%Z with (Z.abs (lk - ll) <=? L)%Z.
      2:{ destruct (Z.leb_spec (Z.abs (lk - ll)) L), (Z.leb_spec (Z.max (Z.abs (lk - ll)) (Z.abs (mk - ml))) L); auto; lia. }
      rewrite andb_true_r. reflexivity.
  - exact aux_init_inv.
  - exists A. split; [exact E|]. split; [exact HI|]. intros L M c d HV.
    pose proof (HO (L, M, c, d) HV) as H. unfold obs in H. rewrite H, aux_init_zero, lsum_seq0. unfold dl. fold nsh. ring.
Qed.

Lemma contract_radial_ok Jrad (Rad : nat -> nat -> nat -> nat -> nat -> R) A : aux_inv A ->
  (forall L X, (L < N_L)%nat -> density Nrad X -> is_matrix (Jrad L X) Nrad (coulomb_of Nrad (Rad L) (dent X))) ->
  exists B, contract_radial Nrad N_L Mmax Jrad A = Ok B /\ aux_inv B /\
    forall L M a b, valid L M -> (a < Nrad)%nat -> (b < Nrad)%nat -> dent (B L M) a b =
      4 * PI / IZR (2 * L + 1) * coulomb_of Nrad (Rad (Z.to_nat L)) (dent (A L M)) a b.
Proof.
  intros HA HJ. unfold contract_radial.
  set (okI := fun i : Z * Z * nat * nat => let '(L, M, a, b) := i in valid L M /\ (a < Nrad)%nat /\ (b < Nrad)%nat).
  set (obs := fun (A : Z -> Z -> dmat) (i : Z * Z * nat * nat) => let '(L, M, c, d) := i in dent (A L M) c d).
  set (val := fun L M a b => 4 * PI / IZR (2 * L + 1) * coulomb_of Nrad (Rad (Z.to_nat L)) (dent (A L M)) a b).
  match goal with |- exists B, fold_res ?f ?l0 ?s0 = _ /\ _ =>
    destruct (fold_res_obs f aux_inv obs okI (fun L' i => let '(L, M, a, b) := i in
       if (L' =? L)%Z then val L' M a b else 0) l0) with (s := s0) as (B & E & HI & HO)
  end.
  - intros B0 L' HL' HB0. apply zrange_in in HL'.
    match goal with |- exists s', fold_res ?f ?l0 ?s0 = _ /\ _ =>
      destruct (fold_res_obs f aux_inv obs okI (fun M' i => let '(L, M, a, b) := i in
        if (M' =? M)%Z then (if (L' =? L)%Z then val L' M' a b else 0) else 0) l0) with (s := s0) as (B & E & HI & HO)
    end.
    + intros B1 M' HM' HB1. apply zrange_in in HM'.
      assert (HV : valid L' M') by (unfold valid; clear - HL' HM'; lia).
      unfold aux_get. rewrite (valid_ok L' M' HV). cbn [bind].
      destruct (HA L' M' HV) as [R1 C1].
      destruct (HJ (Z.to_nat L') (A L' M')) as (J & EJ & RJ & CJ & VJ); [clear - HL'; lia|split; assumption|].
      rewrite EJ. cbn [bind].
      destruct (aux_add_ok B1 L' M' (dscale (4 * PI / IZR (2 * L' + 1)) J) HB1 HV RJ CJ) as (B2 & E2 & HI2 & HO2).
      exists B2. split; [exact E2|]. split; [exact HI2|]. intros [[[L M] a] b] (Hi & Ha & Hb). unfold obs.
      rewrite HO2 by exact Hi. f_equal. destruct (Z.eqb_spec L' L); cbn [andb]; [|destruct (M' =? M)%Z; reflexivity].
      destruct (Z.eqb_spec M' M); auto. subst. cbn [dent dscale]. unfold mscal, val. rewrite VJ by auto. reflexivity.
    + exact HB0.
    + exists B. split; [exact E|]. split; [exact HI|]. intros [[[L M] a] b] Hi. rewrite HO by exact Hi. f_equal.
      rewrite lsum_zpick. destruct Hi as ([H1 H2] & _ & _).
      destruct (Z.eqb_spec L' L) as [->|]; [|destruct (_ && _)%bool; reflexivity].
      replace ((- Z.min L Mmax <=? M) && (M <=? Z.min L Mmax))%bool%Z with true; [reflexivity|].
      symmetry. apply andb_true_intro. split; apply Z.leb_le; lia.
  - exact aux_init_inv.
  - exists B. split; [exact E|]. split; [exact HI|]. intros L M a b HV Ha Hb.
    pose proof (HO (L, M, a, b) (conj HV (conj Ha Hb))) as H. unfold obs in H. rewrite H, aux_init_zero, lsum_zpick.
    destruct HV as [H1 H2].
    replace ((0 <=? L) && (L <=? Z.of_nat N_L - 1))%bool%Z with true; [unfold val; ring|].
    symmetry. apply andb_true_intro. split; apply Z.leb_le; lia.
Qed.

Lemma expand_bra_ok B : aux_inv B ->
  is_shell_matrix (expand_bra sh Nrad N_L Mmax g B) nsh Nrad (fun i a j b =>
    lsum (zrange (Z.max (Z.abs (l_of sh j - l_of sh i)) (Z.abs (m_of sh j - m_of sh i))) (l_of sh j + l_of sh i))
      (fun L => Gc eval sh i j L * dent (B L (m_of sh j - m_of sh i)%Z) a b)).
Proof.
  intros HB. unfold expand_bra, is_shell_matrix. fold nsh.
  set (dl := fun i j a b => lsum (zrange (Z.max (Z.abs (l_of sh j - l_of sh i)) (Z.abs (m_of sh j - m_of sh i))) (l_of sh j + l_of sh i))
      (fun L => Gc eval sh i j L * dent (B L (m_of sh j - m_of sh i)%Z) a b)).
  assert (G : forall i j, (i < nsh)%nat -> (j < nsh)%nat -> adds (nsh * Nrad) (nsh * Nrad) (fun J jang =>
    let '(li, mi) := nth i sh (0, 0)%Z in let '(lj, mj) := nth jang sh (0, 0)%Z in
    let M := (mj - mi)%Z in
    fold_res (fun J L =>
      bind (coeff g lj mj L M li) (fun cpl =>
      if Reqb cpl 0 then Ok J else
      bind (aux_get N_L Mmax B L M) (fun X =>
      block_add J (i * Nrad) (jang * Nrad) Nrad Nrad (dscale cpl X))))
      (zrange (Z.max (Z.abs (lj - li)) (Z.abs M)) (lj + li)) J) j
      (win (i * Nrad) Nrad (j * Nrad) Nrad (dl i j))).
  { intros i j Hi Hj M0 R0 C0.
    destruct (nth i sh (0, 0)%Z) as [li mi] eqn:Ei. destruct (nth j sh (0, 0)%Z) as [lj mj] eqn:Ej.
    assert (Eli : l_of sh i = li) by (unfold l_of; now rewrite Ei). assert (Emi : m_of sh i = mi) by (unfold m_of; now rewrite Ei).
    assert (Elj : l_of sh j = lj) by (unfold l_of; now rewrite Ej). assert (Emj : m_of sh j = mj) by (unfold m_of; now rewrite Ej).
    destruct (fold_adds (nsh * Nrad) (nsh * Nrad) (fun J L =>
      bind (coeff g lj mj L (mj - mi) li) (fun cpl =>
      if Reqb cpl 0 then Ok J else
      bind (aux_get N_L Mmax B L (mj - mi)) (fun X =>
      block_add J (i * Nrad) (j * Nrad) Nrad Nrad (dscale cpl X))))
      (fun L => win (i * Nrad) Nrad (j * Nrad) Nrad (fun a b => Gc eval sh i j L * dent (B L (mj - mi)%Z) a b))
      (zrange (Z.max (Z.abs (lj - li)) (Z.abs (mj - mi))) (lj + li))) with (M := M0) as (M1 & E1 & R1 & C1 & V1); auto.
    - intros L HL J RJ CJ. apply zrange_in in HL.
      destruct (pair_valid i j L Hi Hj) as [HV HLb]; [rewrite Elj, Eli, Emj, Emi; exact HL|].
      pose proof (Hco i j L Hi Hj HLb) as HC. rewrite Elj, Eli, Emj, Emi in HC. rewrite HC by (clear - HL; lia). cbn [bind].
      destruct (Reqb_spec (Gc eval sh i j L) 0) as [Ez|Ez].
      + exists J. repeat split; auto. intros a b _ _. rewrite Ez. unfold win. destruct (_ && _)%bool; ring.
      + rewrite Emj, Emi in HV. unfold aux_get. rewrite (valid_ok _ _ HV). cbn [bind].
        destruct (HB L (mj - mi)%Z HV) as [RB CB].
        destruct (block_add_ok J (i * Nrad) (j * Nrad) Nrad Nrad (dscale (Gc eval sh i j L) (B L (mj - mi)%Z)) (nsh * Nrad) (nsh * Nrad))
          as (J' & EJ & RJ' & CJ' & VJ'); auto; try nia.
        exists J'. repeat split; auto.
    - exists M1. split; [exact E1|]. repeat split; auto. intros a b Ha Hb. rewrite V1 by auto. f_equal.
      unfold win, dl. rewrite Elj, Eli, Emj, Emi. destruct (_ && _)%bool; auto. apply lsum_zero. auto. }
  destruct (fold_adds (nsh * Nrad) (nsh * Nrad) (fun J iang => fold_res (fun J jang =>
    let '(li, mi) := nth iang sh (0, 0)%Z in let '(lj, mj) := nth jang sh (0, 0)%Z in
    let M := (mj - mi)%Z in
    fold_res (fun J L =>
      bind (coeff g lj mj L M li) (fun cpl =>
      if Reqb cpl 0 then Ok J else
      bind (aux_get N_L Mmax B L M) (fun X =>
      block_add J (iang * Nrad) (jang * Nrad) Nrad Nrad (dscale cpl X))))
      (zrange (Z.max (Z.abs (lj - li)) (Z.abs M)) (lj + li)) J) (seq 0 nsh) J)
    (fun i a b => sum nsh (fun j => win (i * Nrad) Nrad (j * Nrad) Nrad (dl i j) a b)) (seq 0 nsh))
    with (M := dzero (nsh * Nrad) (nsh * Nrad)) as (J & EJ & RJ & CJ & VJ); auto.
  - intros i Hi M0 R0 C0. apply in_seq in Hi.
    match goal with |- exists M', fold_res ?f ?l0 _ = _ /\ _ =>
      destruct (fold_adds (nsh * Nrad) (nsh * Nrad) f (fun j => win (i * Nrad) Nrad (j * Nrad) Nrad (dl i j)) l0)
        with (M := M0) as (M1 & E1 & R1 & C1 & V1); auto end.
    + intros j Hj. apply in_seq in Hj. apply (G i j); lia.
    + exists M1. split; [exact E1|]. repeat split; auto. intros a b Ha Hb. rewrite V1 by auto. now rewrite lsum_seq0.
  - exists J. split; [exact EJ|]. repeat split; auto. intros i a j b Hi Ha Hj Hb. unfold fn at 1 2.
    rewrite VJ by nia. cbn [dent dzero]. unfold mzero. rewrite lsum_seq0.
    rewrite (sum_ext nsh _ (fun x => sum nsh (fun y => if (Nat.eqb x i && Nat.eqb y j)%bool then dl x y a b else 0))).
    + rewrite (sum_pick2 nsh nsh i j (fun x y => dl x y a b)) by auto. unfold dl. ring.
    + intros x _. apply sum_ext. intros y _. apply (win_fn Nrad i j x y a b); auto.
Qed.

End Coulomb.

Lemma sum4 N n alpha (Rd : nat -> nat -> R) (X : nat -> nat -> nat -> nat -> R) :
  alpha * sum N (fun c => sum N (fun d => Rd c d * sum n (fun k => sum n (fun l => X k l c d)))) =
  sum n (fun k => sum n (fun l => sum N (fun c => sum N (fun d => alpha * Rd c d * X k l c d)))).
Proof.
  transitivity (sum N (fun c => sum N (fun d => sum n (fun k => sum n (fun l => alpha * Rd c d * X k l c d))))).
  - rewrite <- sum_scal. apply sum_ext. intros c _. rewrite <- sum_scal. apply sum_ext. intros d _.
    rewrite <- Rmult_assoc, <- sum_scal. apply sum_ext. intros k _. now rewrite <- sum_scal.
  - rewrite (sum_ext N _ (fun c => sum n (fun k => sum n (fun l => sum N (fun d => alpha * Rd c d * X k l c d))))).
    + rewrite sum_swap. apply sum_ext. intros k _. apply sum_swap.
    + intros c _. rewrite sum_swap. apply sum_ext. intros k _. apply sum_swap.
Qed.

Lemma full_coulomb_ok sh eval Nrad Lcut (fac : Z -> R) Rad (P : mat) i j a b :
  generator_ok eval -> shells_ok sh -> (i < length sh)%nat -> (j < length sh)%nat -> (2 * lmax_of sh <= Lcut)%Z ->
  lsum (zrange (Z.max (Z.abs (l_of sh j - l_of sh i)) (Z.abs (m_of sh j - m_of sh i))) (l_of sh j + l_of sh i))
    (fun L => Gc eval sh i j L * (fac L * coulomb_of Nrad (Rad (Z.to_nat L)) (fun c d =>
      sum (length sh) (fun k => sum (length sh) (fun l =>
        if ((Z.abs (l_of sh k - l_of sh l) <=? L) && (L <=? l_of sh k + l_of sh l) &&
            (m_of sh k - m_of sh l =? m_of sh j - m_of sh i))%bool%Z
        then Gc eval sh l k L * P (fn Nrad k c) (fn Nrad l d) else 0))) a b)) =
  full_coulomb (length sh) Nrad (multipole_tensor eval sh Lcut fac Rad) P i a j b.
Proof.
  intros Hgen Hsh Hi Hj Hcut.
  destruct (shell_bounds sh Hsh i Hi) as (A1 & A2 & _). destruct (shell_bounds sh Hsh j Hj) as (B1 & B2 & _).
  rewrite (lsum_zrange_widen _ _ (Z.abs (m_of sh j - m_of sh i)) Lcut).
  2:{ clear - A1 A2 B1 B2 Hcut; lia. } 2:{ clear - A1 A2 B1 B2 Hcut; lia. }
  2:{ intros L HL HN. rewrite (Gc_zero eval sh i j L Hgen); [ring|clear - HL HN; lia]. }
  unfold full_coulomb.
  transitivity (lsum (zrange (Z.abs (m_of sh j - m_of sh i)) Lcut) (fun L =>
    sum (length sh) (fun k => sum (length sh) (fun l => sum Nrad (fun c => sum Nrad (fun d =>
      (if (m_of sh k - m_of sh l =? m_of sh j - m_of sh i)%Z then
       fac L * Gc eval sh i j L * Gc eval sh l k L * Rad (Z.to_nat L) a b c d else 0) * P (fn Nrad k c) (fn Nrad l d))))))).
  - apply lsum_ext. intros L HL. unfold coulomb_of. rewrite <- Rmult_assoc, sum4.
    apply sum_ext. intros k Hk. apply sum_ext. intros l Hl. apply sum_ext. intros c _. apply sum_ext. intros d _.
    destruct (m_of sh k - m_of sh l =? m_of sh j - m_of sh i)%Z; [|rewrite andb_false_r; ring]. rewrite andb_true_r.
    destruct ((Z.abs (l_of sh k - l_of sh l) <=? L) && (L <=? l_of sh k + l_of sh l))%bool%Z eqn:E; [ring|].
    rewrite (Gc_zero eval sh l k L Hgen); [ring|]. apply andb_false_iff in E. rewrite !Z.leb_gt in E. clear - E. lia.
  - rewrite lsum_sum_swap. apply sum_ext. intros k _. rewrite lsum_sum_swap. apply sum_ext. intros l _.
    rewrite lsum_sum_swap. apply sum_ext. intros c _. rewrite lsum_sum_swap. apply sum_ext. intros d _.
    unfold multipole_tensor. destruct (Z.eqb_spec (m_of sh k - m_of sh l) (m_of sh j - m_of sh i)) as [Em|_].
    + rewrite Rmult_comm, <- lsum_scal. apply lsum_ext. intros L _. unfold Gc. rewrite Em. ring.
    + rewrite Rmult_0_l. apply lsum_zero. intros. ring.
Qed.

Lemma coulomb_ok b calls s P Rad Lcut : basis_ok b calls -> csize (t_chol s) <> 0%nat ->
  density (length (b_sh b) * lnbf (b_lay b)) P -> (2 * lmax_of (b_sh b) <= Lcut)%Z ->
  (forall L X, (L < N_L_of (b_sh b))%nat -> density (lnbf (b_lay b)) X ->
     is_matrix (J_cached b s L X) (lnbf (b_lay b)) (coulomb_of (lnbf (b_lay b)) (Rad L) (dent X))) ->
  is_shell_matrix (coulomb b s P) (length (b_sh b)) (lnbf (b_lay b))
    (full_coulomb (length (b_sh b)) (lnbf (b_lay b))
       (multipole_tensor (b_eval b) (b_sh b) Lcut (fun L => 4 * PI / IZR (2 * L + 1)) Rad) (dent P)).
Proof.
  intros Hb Hc [RP CP] Hcut HJ. destruct (couples_ok b calls Hb) as (g & Eg & Hco).
  destruct Hb as (Hsh & Hgen & _). unfold coulomb. destruct (Nat.eqb_spec (csize (t_chol s)) 0); [contradiction|].
  rewrite Eg. cbn [bind].
  destruct (contract_ket_ok (b_sh b) (b_eval b) g (lnbf (b_lay b)) Hsh Hco P RP CP) as (A & EA & IA & VA).
  rewrite EA. cbn [bind].
  destruct (contract_radial_ok (b_sh b) (lnbf (b_lay b)) (J_cached b s) Rad A IA HJ) as (B & EB & IB & VB).
  rewrite EB. cbn [bind].
  destruct (expand_bra_ok (b_sh b) (b_eval b) g (lnbf (b_lay b)) Hsh Hco B IB) as (M & EM & RM & CM & VM).
  exists M. split; [exact EM|]. split; [exact RM|]. split; [exact CM|].
  intros i a j c Hi Ha Hj Hd. rewrite VM by auto.
  rewrite <- (full_coulomb_ok (b_sh b) (b_eval b) (lnbf (b_lay b)) Lcut _ Rad (dent P) i j a c Hgen Hsh Hi Hj Hcut).
  apply lsum_ext. intros L HL. apply zrange_in in HL.
  destruct (pair_valid (b_sh b) Hsh i j L Hi Hj HL) as [HV _]. rewrite VB by auto. f_equal. f_equal.
  unfold coulomb_of. apply sum_ext. intros x Hx. apply sum_ext. intros y Hy. f_equal. now apply VA.
Qed.

Section Exchange.
Variables (b : tbasis) (g : gtable) (Lfac : Z -> R) (P : dmat).
Let sh := b_sh b.
Let nsh := length sh.
Let Nrad := lnbf (b_lay b).
Let N_L := N_L_of sh.
Hypothesis Hsh : shells_ok sh.
Hypothesis Hgen : generator_ok (b_eval b).
Hypothesis Hco : couples (b_eval b) sh g.
Hypothesis RP : drows P = (nsh * Nrad)%nat.
Hypothesis CP : dcols P = (nsh * Nrad)%nat.

Definition r_inv (s : (Z -> dmat) * (Z -> bool)) : Prop :=
  (forall L, drows (fst s L) = Nrad /\ dcols (fst s L) = Nrad) /\
  (forall L c d, snd s L = false -> dent (fst s L) c d = 0).

Lemma r_add_ok s L X : r_inv s -> (0 <= L < Z.of_nat N_L)%Z -> drows X = Nrad -> dcols X = Nrad ->
  exists s', r_add N_L s L X = Ok s' /\ r_inv s' /\
    forall L' c d, dent (fst s' L') c d = dent (fst s L') c d + (if (L =? L')%Z then dent X c d else 0).
Proof.
  intros [H1 H2] HL RX CX. unfold r_add.
  replace ((0 <=? L) && (L <? Z.of_nat N_L))%bool%Z with true.
  2:{ symmetry. apply andb_true_intro. split; [apply Z.leb_le|apply Z.ltb_lt]; lia. }
  destruct (H1 L) as [R1 C1]. unfold dadd. rewrite R1, C1, RX, CX, !Nat.eqb_refl. cbn [andb bind].
  eexists. split; [reflexivity|]. split; [split|]; cbn [fst snd].
  - intros L'. destruct (L' =? L)%Z; [split; reflexivity|apply H1].
  - intros L' c d. destruct (Z.eqb_spec L' L); [discriminate|]. apply H2.
  - intros L' c d. rewrite (Z.eqb_sym L' L). destruct (Z.eqb_spec L L') as [<-|]; [reflexivity|ring].
Qed.

Definition r_val (j k : nat) (L : Z) (c d : nat) : R :=
  sum nsh (fun i => sum nsh (fun l =>
    if ((m_of sh k - m_of sh l =? m_of sh j - m_of sh i) && (Z.abs (m_of sh j - m_of sh i) <=? L))%bool%Z
    then Lfac L * (Gc (b_eval b) sh i j L * Gc (b_eval b) sh l k L) *
         screened Nrad (b_thr b) (dent P) (fn Nrad i c) (fn Nrad l d) else 0)).

Lemma fn_div N i c : (c < N)%nat -> (fn N i c / N = i)%nat.
Proof. intros H. unfold fn. rewrite Nat.add_comm, Nat.div_add by lia. rewrite Nat.div_small; lia. Qed.
Lemma fn_mod N i c : (c < N)%nat -> (fn N i c mod N = c)%nat.
Proof. intros H. unfold fn. rewrite Nat.add_comm, Nat.mod_add by lia. now apply Nat.mod_small. Qed.

Lemma screened_fn thr M i l c d : (c < Nrad)%nat -> (d < Nrad)%nat ->
  screened Nrad thr M (fn Nrad i c) (fn Nrad l d) =
  if Rltb (block_norm Nrad M i l) thr then 0 else M (fn Nrad i c) (fn Nrad l d).
Proof. intros Hc Hd. unfold screened. now rewrite !fn_div. Qed.

Lemma angular_sums_ok j k : (j < nsh)%nat -> (k < nsh)%nat ->
  exists s, angular_sums b g Lfac P j k = Ok s /\ r_inv s /\
    forall L c d, (0 <= L < Z.of_nat N_L)%Z -> (c < Nrad)%nat -> (d < Nrad)%nat ->
      dent (fst s L) c d = r_val j k L c d.
Proof.
  intros Hj Hk. unfold angular_sums. fold sh Nrad N_L.
  destruct (nth j sh (0, 0)%Z) as [lj mj] eqn:Ej. destruct (nth k sh (0, 0)%Z) as [lk mk] eqn:Ek.
  assert (Elj : l_of sh j = lj) by (unfold l_of; now rewrite Ej). assert (Emj : m_of sh j = mj) by (unfold m_of; now rewrite Ej).
  assert (Elk : l_of sh k = lk) by (unfold l_of; now rewrite Ek). assert (Emk : m_of sh k = mk) by (unfold m_of; now rewrite Ek).
  set (okI := fun i : Z * nat * nat => let '(L, c, d) := i in (0 <= L < Z.of_nat N_L)%Z /\ (c < Nrad)%nat /\ (d < Nrad)%nat).
  set (obs := fun (s : (Z -> dmat) * (Z -> bool)) (i : Z * nat * nat) => let '(L, c, d) := i in dent (fst s L) c d).
  set (dl := fun i l (x : Z * nat * nat) => let '(L, c, d) := x in
    if ((m_of sh k - m_of sh l =? m_of sh j - m_of sh i) && (Z.abs (m_of sh j - m_of sh i) <=? L))%bool%Z
    then Lfac L * (Gc (b_eval b) sh i j L * Gc (b_eval b) sh l k L) *
         screened Nrad (b_thr b) (dent P) (fn Nrad i c) (fn Nrad l d) else 0).
  match goal with |- exists s, fold_res ?f ?l0 ?s0 = _ /\ _ =>
    destruct (fold_res_obs f r_inv obs okI (fun i x => sum nsh (fun l => dl i l x)) l0) with (s := s0) as (s & E & HI & HO)
  end.
  - intros s1 i Hi Hs1. apply in_seq in Hi.
    match goal with |- exists s', fold_res ?f ?l0 ?s0 = _ /\ _ =>
      destruct (fold_res_obs f r_inv obs okI (fun l x => dl i l x) l0) with (s := s0) as (s' & E & HI & HO)
    end; [|exact Hs1|exists s'; split; [exact E|]; split; [exact HI|]; intros x Hx; rewrite HO, lsum_seq0 by auto; reflexivity].
    intros s2 l Hl Hs2. apply in_seq in Hl.
    destruct (nth i sh (0, 0)%Z) as [li mi] eqn:Ei. destruct (nth l sh (0, 0)%Z) as [ll ml] eqn:El.
    assert (Eli : l_of sh i = li) by (unfold l_of; now rewrite Ei). assert (Emi : m_of sh i = mi) by (unfold m_of; now rewrite Ei).
    assert (Ell : l_of sh l = ll) by (unfold l_of; now rewrite El). assert (Eml : m_of sh l = ml) by (unfold m_of; now rewrite El).
    destruct (Z.eqb_spec (mj - mi) (mk - ml)) as [Em|Em]; cbn [negb].
    2:{ exists s2. split; [reflexivity|]. split; [exact Hs2|]. intros [[L c] d] _. unfold dl. rewrite Emk, Eml, Emj, Emi.
        destruct (Z.eqb_spec (mk - ml) (mj - mi)); [congruence|]. cbn [andb]. ring. }
    rewrite (ang_block_ok sh Nrad P i l RP CP) by (unfold nsh, sh in *; lia). cbn [bind].
    change (fnorm (mkD Nrad Nrad (fun c d => dent P (fn Nrad i c) (fn Nrad l d)))) with (block_norm Nrad (dent P) i l).
    destruct (Rltb (block_norm Nrad (dent P) i l) (b_thr b)) eqn:Escr.
    { exists s2. split; [reflexivity|]. split; [exact Hs2|]. intros [[L c] d] (_ & Hc & Hd). unfold dl.
      rewrite screened_fn, Escr by auto. destruct (_ && _)%bool; ring. }
    match goal with |- exists s', fold_res ?f ?l0 ?s0 = _ /\ _ =>
      destruct (fold_res_obs f r_inv obs okI (fun L' x => let '(L, c, d) := x in
         if (L' =? L)%Z then Lfac L' * (Gc (b_eval b) sh i j L' * Gc (b_eval b) sh l k L') * dent P (fn Nrad i c) (fn Nrad l d) else 0) l0)
        with (s := s0) as (s' & E & HI & HO)
    end; [|exact Hs2|].
    + intros s3 L' HL' Hs3. apply zrange_in in HL'.
      assert (Hil : (i < length sh)%nat /\ (l < length sh)%nat) by lia. destruct Hil as [Hi' Hl'].
      destruct (pair_valid sh Hsh i j L' Hi' Hj) as [HV HB]; [rewrite Elj, Eli, Emj, Emi; clear - HL'; lia|].
      pose proof (Hco i j L' Hi' Hj HB) as HC1. rewrite Elj, Eli, Emj, Emi in HC1. rewrite HC1 by (clear - HL'; lia). cbn [bind].
      pose proof (Hco l k L' Hl' Hk HB) as HC2. rewrite Elk, Ell, Emk, Eml in HC2. rewrite <- Em in HC2.
      rewrite HC2 by (clear - HL' Em; lia). cbn [bind].
      destruct (Reqb_spec (Gc (b_eval b) sh i j L' * Gc (b_eval b) sh l k L') 0) as [Ez|Ez].
      * exists s3. split; [reflexivity|]. split; [exact Hs3|]. intros [[L c] d] _. rewrite Ez. destruct (L' =? L)%Z; ring.
      * destruct (r_add_ok s3 L' (dscale (Lfac L' * (Gc (b_eval b) sh i j L' * Gc (b_eval b) sh l k L'))
          (mkD Nrad Nrad (fun c d => dent P (fn Nrad i c) (fn Nrad l d)))) Hs3) as (s4 & E4 & I4 & V4);
          [destruct HV as [HV _]; exact HV|reflexivity|reflexivity|].
        exists s4. split; [exact E4|]. split; [exact I4|]. intros [[L c] d] _. unfold obs. rewrite V4. reflexivity.
    + exists s'. split; [exact E|]. split; [exact HI|]. intros [[L c] d] Hx. rewrite HO by exact Hx. f_equal.
      destruct Hx as (HL & Hc & Hd). rewrite lsum_zpick. unfold dl. rewrite screened_fn, Escr by auto.
      rewrite Emk, Eml, Emj, Emi. rewrite (proj2 (Z.eqb_eq (mk - ml) (mj - mi))) by lia. cbn [andb].
      destruct ((Z.max (Z.max (Z.abs (li - lj)) (Z.abs (lk - ll))) (Z.abs (mj - mi)) <=? L) && (L <=? Z.min (li + lj) (lk + ll)))%bool%Z eqn:Er.
      * rewrite (proj2 (Z.leb_le (Z.abs (mj - mi)) L)); [reflexivity|].
        apply andb_true_iff in Er. destruct Er as [Er _]. apply Z.leb_le in Er. clear - Er. lia.
      * destruct (Z.leb_spec (Z.abs (mj - mi)) L) as [HM|]; [|reflexivity].
        apply andb_false_iff in Er. rewrite !Z.leb_gt in Er.
        assert (Hz : Gc (b_eval b) sh i j L = 0 \/ Gc (b_eval b) sh l k L = 0).
        { assert (D : ~ (Z.abs (lj - li) <= L <= lj + li)%Z \/ ~ (Z.abs (lk - ll) <= L <= lk + ll)%Z) by (clear - Er HM; lia).
          destruct D; [left|right]; apply Gc_zero; auto; [rewrite Elj, Eli|rewrite Elk, Ell]; assumption. }
        destruct Hz as [->| ->]; ring.
  - split; [split; reflexivity|]. reflexivity.
  - exists s. split; [exact E|]. split; [exact HI|]. intros L c d HL Hc Hd.
    pose proof (HO (L, c, d) (conj HL (conj Hc Hd))) as H. unfold obs in H. rewrite H. cbn [fst dent dzero]. unfold mzero.
    rewrite lsum_seq0. fold nsh. unfold r_val, dl. ring.
Qed.

Lemma K_sum_ok Krad (Rad : nat -> nat -> nat -> nat -> nat -> R) s :
  (forall L X, (L < N_L)%nat -> density Nrad X -> is_matrix (Krad L X) Nrad (exchange_of Nrad (Rad L) (dent X))) ->
  r_inv s ->
  is_matrix (fold_res (fun B L => if negb (snd s (Z.of_nat L)) then Ok B else
            bind (Krad L (fst s (Z.of_nat L))) (fun X => dadd B X)) (seq 0 N_L) (dzero Nrad Nrad)) Nrad
    (fun x y => sum N_L (fun L => exchange_of Nrad (Rad L) (dent (fst s (Z.of_nat L))) x y)).
Proof.
  intros HK [H1 H2].
  match goal with |- is_matrix (fold_res ?f ?l0 _) _ _ =>
    destruct (fold_adds Nrad Nrad f (fun L => exchange_of Nrad (Rad L) (dent (fst s (Z.of_nat L)))) l0)
      with (M := dzero Nrad Nrad) as (B & E & R1 & C1 & V) end; auto.
  - intros L HL B RB CB. apply in_seq in HL. destruct (snd s (Z.of_nat L)) eqn:Es; cbn [negb].
    + destruct (HK L (fst s (Z.of_nat L))) as (X & EX & RX & CX & VX); [lia|apply H1|]. rewrite EX. cbn [bind].
      unfold dadd. rewrite RB, CB, RX, CX, !Nat.eqb_refl. cbn [andb]. eexists. split; [reflexivity|]. repeat split.
      intros x y Hx Hy. cbn [dent]. unfold madd. now rewrite VX.
    + exists B. repeat split; auto. intros x y _ _. unfold exchange_of. rewrite sum_zero'; [ring|].
      intros c _. apply sum_zero'. intros d _. rewrite H2 by auto. ring.
  - exists B. repeat split; auto. intros x y Hx Hy. rewrite V by auto. cbn [dent dzero]. unfold mzero. rewrite lsum_seq0. ring.
Qed.
End Exchange.

Lemma sum_as_zrange n f : sum n f = lsum (zrange 0 (Z.of_nat n - 1)) (fun L => f (Z.to_nat L)).
Proof.
  unfold zrange. replace (Z.to_nat (Z.of_nat n - 1 - 0 + 1)) with n by lia. rewrite lsum_map, lsum_seq0.
  apply sum_ext. intros i _. f_equal. lia.
Qed.

Lemma full_exchange_ok b Lfac (P : dmat) Rad Lcut j k a c0 :
  let sh := b_sh b in let Nrad := lnbf (b_lay b) in
  generator_ok (b_eval b) -> shells_ok sh -> (j < length sh)%nat -> (k < length sh)%nat -> (2 * lmax_of sh <= Lcut)%Z ->
  (a < Nrad)%nat -> (c0 < Nrad)%nat ->
  (forall L x y z w, (L < N_L_of sh)%nat -> (x < Nrad)%nat -> (y < Nrad)%nat -> (z < Nrad)%nat -> (w < Nrad)%nat ->
     Rad L x y z w = Rad L y x z w) ->
  - sum (N_L_of sh) (fun L => exchange_of Nrad (Rad L) (r_val b Lfac P j k (Z.of_nat L)) a c0) =
  full_exchange (length sh) Nrad (multipole_tensor (b_eval b) sh Lcut Lfac Rad)
    (screened Nrad (b_thr b) (dent P)) j a k c0.
Proof.
  intros sh Nrad Hgen Hsh Hj Hk Hcut Ha Hc Hsym. unfold full_exchange. f_equal.
  rewrite sum_as_zrange, (N_L_pos sh Hsh). replace (2 * lmax_of sh + 1 - 1)%Z with (2 * lmax_of sh)%Z by lia.
  set (P' := screened Nrad (b_thr b) (dent P)).
  transitivity (lsum (zrange 0 (2 * lmax_of sh)) (fun L =>
    sum (length sh) (fun i => sum (length sh) (fun l => sum Nrad (fun c => sum Nrad (fun d =>
      (if ((m_of sh k - m_of sh l =? m_of sh j - m_of sh i) && (Z.abs (m_of sh j - m_of sh i) <=? L))%bool%Z then
       Lfac L * Gc (b_eval b) sh i j L * Gc (b_eval b) sh l k L * Rad (Z.to_nat L) c a c0 d else 0) * P' (fn Nrad i c) (fn Nrad l d))))))).
  - apply lsum_ext. intros L HL. apply zrange_in in HL. rewrite Z2Nat.id by lia. unfold exchange_of, r_val. fold sh Nrad P'.
    rewrite <- (Rmult_1_l (sum Nrad _)), sum4.
    apply sum_ext. intros i _. apply sum_ext. intros l _. apply sum_ext. intros c Hc'. apply sum_ext. intros d Hd.
    assert (HLn : (Z.to_nat L < N_L_of sh)%nat) by (unfold N_L_of; clear - HL; lia).
    rewrite (Hsym (Z.to_nat L) a c c0 d) by auto. destruct (_ && _)%bool; ring.
  - rewrite lsum_sum_swap. apply sum_ext. intros i Hi. rewrite lsum_sum_swap. apply sum_ext. intros l Hl.
    rewrite lsum_sum_swap. apply sum_ext. intros c _. rewrite lsum_sum_swap. apply sum_ext. intros d _.
    destruct (shell_bounds sh Hsh i Hi) as (A1 & A2 & _). destruct (shell_bounds sh Hsh j Hj) as (B1 & B2 & _).
    unfold multipole_tensor. destruct (Z.eqb_spec (m_of sh k - m_of sh l) (m_of sh j - m_of sh i)) as [Em|_]; cbn [andb].
    + set (F := fun L => Lfac L * Gc (b_eval b) sh i j L * Gc (b_eval b) sh l k L * Rad (Z.to_nat L) c a c0 d).
      rewrite (Rmult_comm _ (P' _ _)), <- lsum_scal.
      rewrite <- (lsum_zrange_widen (Z.abs (m_of sh j - m_of sh i)) (2 * lmax_of sh) (Z.abs (m_of sh j - m_of sh i)) Lcut).
      2:{ lia. } 2:{ exact Hcut. }
      2:{ intros L HL HN. fold (Gc (b_eval b) sh i j L). rewrite (Gc_zero (b_eval b) sh i j L Hgen); [ring|].
          clear - HL HN A1 A2 B1 B2. lia. }
      rewrite <- (lsum_zrange_widen (Z.abs (m_of sh j - m_of sh i)) (2 * lmax_of sh) 0 (2 * lmax_of sh)).
      2:{ clear. lia. } 2:{ clear. lia. }
      2:{ intros L HL HN. destruct (Z.leb_spec (Z.abs (m_of sh j - m_of sh i)) L); [clear - HL HN H; lia|ring]. }
      apply lsum_ext. intros L HL. apply zrange_in in HL.
      rewrite (proj2 (Z.leb_le (Z.abs (m_of sh j - m_of sh i)) L)) by (clear - HL; lia). unfold F, Gc. rewrite Em. ring.
    + rewrite Rmult_0_l. apply lsum_zero. intros. ring.
Qed.

Lemma exchange_loop_ok b calls Krad Lfac P Rad Lcut : basis_ok b calls ->
  density (length (b_sh b) * lnbf (b_lay b)) P -> (2 * lmax_of (b_sh b) <= Lcut)%Z ->
  (forall L X, (L < N_L_of (b_sh b))%nat -> density (lnbf (b_lay b)) X ->
     is_matrix (Krad L X) (lnbf (b_lay b)) (exchange_of (lnbf (b_lay b)) (Rad L) (dent X))) ->
  (forall L x y z w, (L < N_L_of (b_sh b))%nat -> (x < lnbf (b_lay b))%nat -> (y < lnbf (b_lay b))%nat ->
     (z < lnbf (b_lay b))%nat -> (w < lnbf (b_lay b))%nat -> Rad L x y z w = Rad L y x z w) ->
  is_shell_matrix (exchange_loop b Krad Lfac P) (length (b_sh b)) (lnbf (b_lay b))
    (full_exchange (length (b_sh b)) (lnbf (b_lay b)) (multipole_tensor (b_eval b) (b_sh b) Lcut Lfac Rad)
       (screened (lnbf (b_lay b)) (b_thr b) (dent P))).
Proof.
  intros Hb [RP CP] Hcut HK Hsym. destruct (couples_ok b calls Hb) as (g & Eg & Hco).
  destruct Hb as (Hsh & Hgen & _). unfold exchange_loop. rewrite Eg. cbn [bind].
  set (sh := b_sh b) in *. set (Nrad := lnbf (b_lay b)) in *. set (nsh := length sh) in *.
  set (V := fun j k x y => sum (N_L_of sh) (fun L => exchange_of Nrad (Rad L) (r_val b Lfac P j k (Z.of_nat L)) x y)).
  assert (G : forall j k, (j < nsh)%nat -> (k < nsh)%nat -> adds (nsh * Nrad) (nsh * Nrad) (fun K kang =>
    bind (angular_sums b g Lfac P j kang) (fun s =>
    bind (fold_res (fun B L =>
            if negb (snd s (Z.of_nat L)) then Ok B else
            bind (Krad L (fst s (Z.of_nat L))) (fun X => dadd B X))
            (seq 0 (N_L_of sh)) (dzero Nrad Nrad)) (fun K_block =>
    dsub_block K (j * Nrad) (kang * Nrad) Nrad Nrad K_block))) k
    (win (j * Nrad) Nrad (k * Nrad) Nrad (fun x y => - V j k x y))).
  { intros j k Hj Hk K RK CK.
    destruct (angular_sums_ok b g Lfac P Hsh Hgen Hco RP CP j k Hj Hk) as (s & Es & Is & Vs). rewrite Es. cbn [bind].
    destruct (K_sum_ok b P RP CP Krad Rad s HK Is) as (B & EB & RB & CB & VB). fold sh Nrad in EB. rewrite EB. cbn [bind].
    unfold dsub_block.
    destruct (block_add_ok K (j * Nrad) (k * Nrad) Nrad Nrad (dscale (-1) B) (nsh * Nrad) (nsh * Nrad))
      as (K' & EK & RK' & CK' & VK'); auto; try nia.
    exists K'. split; [exact EK|]. repeat split; auto. intros x y Hx Hy. rewrite VK'. f_equal.
    apply win_ext. intros p q Hp Hq. cbn [dent dscale]. unfold mscal. rewrite VB by auto. unfold V.
    replace (sum (N_L_of (b_sh b)) (fun L => exchange_of (lnbf (b_lay b)) (Rad L) (dent (fst s (Z.of_nat L))) p q))
      with (sum (N_L_of sh) (fun L => exchange_of Nrad (Rad L) (r_val b Lfac P j k (Z.of_nat L)) p q)); [ring|].
    apply sum_ext. intros L HL. unfold exchange_of. apply sum_ext. intros x' Hx'. apply sum_ext. intros y' Hy'.
    rewrite Vs; [reflexivity| |exact Hx'|exact Hy']. clear - HL. split; [apply Nat2Z.is_nonneg|]. apply Nat2Z.inj_lt. exact HL. }
  match goal with |- is_shell_matrix (fold_res ?f ?l0 _) _ _ _ =>
    destruct (fold_adds (nsh * Nrad) (nsh * Nrad) f
      (fun j x y => sum nsh (fun k => win (j * Nrad) Nrad (k * Nrad) Nrad (fun x y => - V j k x y) x y)) l0)
      with (M := dzero (nsh * Nrad) (nsh * Nrad)) as (K & EK & RK & CK & VK) end; auto.
  - intros j Hj M0 R0 C0. apply in_seq in Hj.
    match goal with |- exists M', fold_res ?f ?l0 _ = _ /\ _ =>
      destruct (fold_adds (nsh * Nrad) (nsh * Nrad) f
        (fun k => win (j * Nrad) Nrad (k * Nrad) Nrad (fun x y => - V j k x y)) l0)
        with (M := M0) as (M1 & E1 & R1 & C1 & V1); auto end.
    + intros k Hk. apply in_seq in Hk. apply (G j k); lia.
    + exists M1. split; [exact E1|]. repeat split; auto. intros x y Hx Hy. rewrite V1 by auto. now rewrite lsum_seq0.
  - exists K. split; [exact EK|]. repeat split; auto. intros j a k c Hj Ha Hk Hc. unfold fn at 1 2.
    rewrite VK by nia. cbn [dent dzero]. unfold mzero. rewrite lsum_seq0.
    rewrite (sum_ext nsh _ (fun x => sum nsh (fun y => if (Nat.eqb x j && Nat.eqb y k)%bool then - V x y a c else 0))).
    + rewrite (sum_pick2 nsh nsh j k (fun x y => - V x y a c)) by auto. unfold V.
      pose proof (full_exchange_ok b Lfac P Rad Lcut j k a c Hgen Hsh Hj Hk Hcut Ha Hc Hsym) as HF.
      cbv zeta in HF. fold sh Nrad nsh in HF. rewrite HF. ring.
    + intros x _. apply sum_ext. intros y _. exact (win_fn Nrad j k x y a c (fun p q => - V x y p q) Ha Hc).
Qed.

(* ---------- the caches after a history of calls ---------- *)

Lemma chol_factor_ok T tol : dcols T = drows T ->
  chol_factor T tol = Ok (stored_factor T tol) /\ drows (stored_factor T tol) = drows T.
Proof.
  intros H. unfold stored_factor, chol_factor, pivoted_cholesky. rewrite H, Nat.eqb_refl. cbn [negb bind]. split; reflexivity.
Qed.

Lemma fill_chol_ok k tol N_L Nel :
  (forall L e, (L < N_L)%nat -> (e < Nel)%nat -> dcols (k_tei k L e) = drows (k_tei k L e)) ->
  exists c, fill_chol k tol N_L Nel = Ok c /\ csize c = (N_L * Nel)%nat /\
    forall L e, (L < N_L)%nat -> (e < Nel)%nat -> holds c (L * Nel + e) (stored_factor (k_tei k L e) tol).
Proof.
  intros Hsq. unfold fill_chol.
  destruct (for_L_iel_inv N_L Nel (fun c L iel =>
    bind (chol_factor (k_tei k L iel) tol) (fun F => cache_put c (L * Nel + iel) F))
    (fun Q c => csize c = (N_L * Nel)%nat /\ forall L e, (L < N_L)%nat -> (e < Nel)%nat -> Q L e ->
       centry c (L * Nel + e)%nat = stored_factor (k_tei k L e) tol)
    (mkCache (N_L * Nel) (fun _ => dempty))) as (c & E & Hc & HV).
  - intros Q Q' s HQ [H1 H2]. split; auto. intros L e HL He Hq. apply H2; auto. now apply HQ.
  - split; [reflexivity|]. intros; contradiction.
  - intros Q s L iel HL Hiel HnQ [H1 H2]. destruct (chol_factor_ok (k_tei k L iel) tol (Hsq L iel HL Hiel)) as [EF _].
    rewrite EF. cbn [bind]. rewrite cache_put_ok by (rewrite H1; nia). eexists. split; [reflexivity|]. split; [exact H1|].
    cbn [centry]. intros L' e' HL' He' Hq.
    destruct (Nat.eq_dec L' L) as [->|HneL]; [destruct (Nat.eq_dec e' iel) as [->|Hnee]|].
    + now rewrite setv_eq.
    + rewrite setv_neq by lia. destruct Hq as [Hq|[_ Hq]]; [now apply H2|contradiction].
    + rewrite setv_neq by (clear - HneL Hiel He'; nia). destruct Hq as [Hq|[Hq _]]; [now apply H2|contradiction].
  - exists c. split; [exact E|]. split; [exact Hc|]. intros L e HL He. unfold holds, cache_at.
    destruct (Nat.ltb_spec (L * Nel + e) (csize c)); [|rewrite Hc in *; nia]. f_equal. apply HV; auto.
Qed.

(** The integrals of kernel k are in the three caches. *)
Definition kernel_stored (b : tbasis) (k : kernel) (sm bg ch : cache) : Prop :=
  let Nel := lnel (b_lay b) in
  csize ch = (N_L_of (b_sh b) * Nel)%nat /\
  forall L e, (L < N_L_of (b_sh b))%nat -> (e < Nel)%nat ->
    holds sm (L * Nel + e) (k_small k L e) /\ ((0 < e)%nat -> holds bg (L * Nel + e) (k_big k L e)) /\
    holds ch (L * Nel + e) (stored_factor (k_tei k L e) (b_tol b)).

Definition erfc_stored (b : tbasis) (m : R) (c : cache) : Prop :=
  let Nel := lnel (b_lay b) in
  csize c = (Nel * Nel * N_L_of (b_sh b))%nat /\
  forall L i j, (L < N_L_of (b_sh b))%nat -> (i < Nel)%nat -> (j < Nel)%nat ->
    cache_at c (Nel * Nel * L + i * Nel + j) =
    exchange_tei (b_erfc b m L i j) (count_of (b_lay b) i) (count_of (b_lay b) i) (count_of (b_lay b) j) (count_of (b_lay b) j).

Definition state_inv (b : tbasis) (calls : list call) (s : tstate) : Prop :=
  (In CallTei calls -> kernel_stored b (b_bare b) (t_L s) (t_m1L s) (t_chol s)) /\
  (~ In CallTei calls -> csize (t_chol s) = 0%nat) /\
  match last_screened calls with
  | None => csize (t_rsktei s) = 0%nat /\ csize (t_rschol s) = 0%nat
  | Some CallTei => False
  | Some (CallYukawa l) => t_yukawa s = true /\ t_lambda s = l /\
      kernel_stored b (b_yukawa b l) (t_iL s) (t_kL s) (t_rschol s)
  | Some (CallErfc m) => t_yukawa s = false /\ t_lambda s = m /\ erfc_stored b m (t_rsktei s)
  end.

Lemma kernel_store_ok b k old : good_kernel b k ->
  exists d c, compute_disjoint k (N_L_of (b_sh b)) (lnel (b_lay b)) old = Ok d /\
    fill_chol k (b_tol b) (N_L_of (b_sh b)) (lnel (b_lay b)) = Ok c /\ kernel_stored b k (fst d) (snd d) c.
Proof.
  intros Hk. destruct (compute_disjoint_ok k (N_L_of (b_sh b)) (lnel (b_lay b)) old) as (sm & bg & E & _ & _ & H & _).
  destruct (fill_chol_ok k (b_tol b) (N_L_of (b_sh b)) (lnel (b_lay b))) as (c & Ec & Sc & Hc).
  { intros L e HL He. destruct (Hk L HL) as [[K1 _] _]. destruct (K1 e He) as (_ & _ & _ & R1 & C1 & _). congruence. }
  exists (sm, bg), c. split; [exact E|]. split; [exact Ec|]. split; [exact Sc|].
  intros L e HL He. destruct (H L e HL He) as [H1 H2]. cbn [fst snd]. auto.
Qed.

Lemma last_screened_app calls c : last_screened (calls ++ [c]) = match c with CallTei => last_screened calls | _ => Some c end.
Proof. unfold last_screened. rewrite fold_left_app. reflexivity. Qed.

Lemma history_ok b lam yuk calls : basis_ok b calls ->
  exists s, history b calls (fresh lam yuk) = Ok s /\ state_inv b calls s.
Proof.
  intros (Hsh & Hgen & Hf & Hnel & Htol & Hbare & Hyuk & Herfc). unfold history.
  destruct (fold_res_inv (state_inv b) (do_call b) calls (fresh lam yuk)) as (s & E & Hs).
  - split; [intros []|]. split; [reflexivity|]. split; reflexivity.
  - intros done c s (rest & Ec) (I1 & I2 & I3).
    assert (Hin : In c calls) by (rewrite Ec; apply in_or_app; right; now left).
    assert (Happ : forall x, x <> c -> In x (done ++ [c]) -> In x done).
    { intros x Hx H. apply in_app_or in H. destruct H as [H|[H|[]]]; [exact H|congruence]. }
    destruct c as [|l|m]; cbn [do_call].
    + destruct (kernel_store_ok b (b_bare b) (t_L s, t_m1L s) Hbare) as (d & c & E1 & E2 & HS).
      unfold compute_tei. rewrite E1. cbn [bind]. rewrite E2. cbn [bind]. eexists. split; [reflexivity|].
      split; [intros _; exact HS|]. split.
      * intros H. destruct H. apply in_or_app. right. now left.
      * rewrite last_screened_app. exact I3.
    + destruct (kernel_store_ok b (b_yukawa b l) (t_iL s, t_kL s) (Hyuk l Hin)) as (d & c & E1 & E2 & HS).
      unfold compute_yukawa. rewrite E1. cbn [bind]. rewrite E2. cbn [bind]. eexists. split; [reflexivity|].
      split; [|split].
      * intros H. apply I1. apply Happ; [discriminate|exact H].
      * intros H. apply I2. intros H'. apply H. apply in_or_app. now left.
      * rewrite last_screened_app. repeat split; try reflexivity; apply HS; auto.
    + destruct (compute_erfc_ktei_ok (count_of (b_lay b)) (b_erfc b m) (N_L_of (b_sh b)) (lnel (b_lay b)) (t_rsktei s)) as (c & E1 & S1 & H1).
      { intros L i j HL Hi Hj. destruct (Herfc m Hin L HL i j Hi Hj) as (A & B & _). auto. }
      unfold compute_erfc. change (fun e => snd (lidx (b_lay b) e)) with (count_of (b_lay b)). rewrite E1. cbn [bind].
      eexists. split; [reflexivity|]. split; [|split].
      * intros H. apply I1. apply Happ; [discriminate|exact H].
      * intros H. apply I2. intros H'. apply H. apply in_or_app. now left.
      * rewrite last_screened_app. split; [reflexivity|]. split; [reflexivity|]. split; [exact S1|exact H1].
  - exists s. auto.
Qed.

(* ---------- exactness from the caches ---------- *)

Lemma stored_supplies b k sm bg ch L : good_kernel b k -> kernel_stored b k sm bg ch -> (L < N_L_of (b_sh b))%nat ->
  supplies_disjoint (b_lay b) (disjoint_at sm (lnel (b_lay b)) L) (disjoint_at bg (lnel (b_lay b)) L)
    (fun e => dent (k_small k L e)) (fun e => dent (k_big k L e)) /\
  (forall e, (e < lnel (b_lay b))%nat -> disjoint_at ch (lnel (b_lay b)) L e = Ok (stored_factor (k_tei k L e) (b_tol b)) /\
     drows (stored_factor (k_tei k L e) (b_tol b)) = (count_of (b_lay b) e * count_of (b_lay b) e)%nat).
Proof.
  intros Hk [_ HS] HL. destruct (Hk L HL) as [[K1 K2] _]. split; [split|].
  - intros e He. destruct (HS L e HL He) as (H1 & _ & _). destruct (K1 e He) as (R1 & C1 & S1 & _).
    split; [|exact S1]. exists (k_small k L e). repeat split; auto.
  - intros e He. destruct (HS L e HL (proj2 He)) as (_ & H2 & _). destruct (K2 e He) as (R1 & C1 & S1).
    split; [|exact S1]. exists (k_big k L e). split; [exact (H2 (proj1 He))|]. repeat split; auto.
  - intros e He. destruct (HS L e HL He) as (_ & _ & H3). destruct (K1 e He) as (_ & _ & _ & R1 & C1 & _).
    split; [exact H3|]. rewrite <- R1. apply chol_factor_ok. congruence.
Qed.

Lemma tensor_pair_sym lay block : 
  (forall i j a b c d, (i < lnel lay)%nat -> (j < lnel lay)%nat -> (a < count_of lay i)%nat -> (b < count_of lay i)%nat ->
     (c < count_of lay j)%nat -> (d < count_of lay j)%nat -> block i j a b c d = block i j b a c d) ->
  forall a b c d, tensor lay block a b c d = tensor lay block b a c d.
Proof.
  intros H a b c d. unfold tensor. apply sum_ext. intros i Hi. apply sum_ext. intros j Hj.
  rewrite (andb_comm (inside lay i a) (inside lay i b)).
  destruct (inside lay i b && inside lay i a && (inside lay j c && inside lay j d))%bool eqn:E; [|reflexivity].
  rewrite !andb_true_iff in E. unfold inside in E. rewrite !andb_true_iff, !Nat.leb_le, !Nat.ltb_lt in E.
  unfold local. apply H; auto; lia.
Qed.

Definition swap_pair (n r : nat) : nat := pair_ix n (r / n) (r mod n).

Lemma pair_ix_mod n a b : (a < n)%nat -> (pair_ix n a b mod n = a)%nat.
Proof. intros H. unfold pair_ix. rewrite Nat.add_comm, Nat.mod_add by lia. now apply Nat.mod_small. Qed.
Lemma pair_ix_div n a b : (a < n)%nat -> (pair_ix n a b / n = b)%nat.
Proof. intros H. unfold pair_ix. rewrite Nat.add_comm, Nat.div_add by lia. rewrite Nat.div_small by lia. reflexivity. Qed.

Lemma pair_split n r : (r < n * n)%nat -> (r mod n < n)%nat /\ (r / n < n)%nat /\ r = pair_ix n (r mod n) (r / n).
Proof.
  intros H. assert (n <> 0)%nat by nia. split; [now apply Nat.mod_upper_bound|]. split.
  - apply Nat.div_lt_upper_bound; auto.
  - unfold pair_ix. pose proof (Nat.div_mod r n). lia.
Qed.

Lemma stored_factor_sym T n tol : drows T = (n * n)%nat -> dcols T = (n * n)%nat -> 0 <= tol ->
  psd (n * n) (dent T) -> pair_symmetric n (dent T) ->
  forall a b r, (a < n)%nat -> (b < n)%nat ->
    factor_tensor (stored_factor T tol) (pair_ix n a b) r = factor_tensor (stored_factor T tol) (pair_ix n b a) r.
Proof.
  intros R1 C1 Ht Hp Hs a b r Ha Hb.
  assert (Hsq : dcols T = drows T) by congruence.
  destruct (pivoted_cholesky_ok T tol Hsq Ht) as (L & E & _); [now rewrite R1|].
  assert (ES : stored_factor T tol = mkD (drows T) (length L) (fun i p => nth p L (fun _ => 0) i)).
  { unfold stored_factor, chol_factor. now rewrite E. }
  rewrite ES. unfold factor_tensor. cbn [dcols dent]. apply sum_ext. intros p Hpp. f_equal.
  pose proof (pivoted_cholesky_swap T tol L (swap_pair n) Hsq Ht) as HS. rewrite R1 in HS.
  specialize (HS Hp E).
  assert (Hlt : forall x y, (x < n)%nat -> (y < n)%nat -> (pair_ix n x y < n * n)%nat) by (intros; now apply pair_ix_lt).
  rewrite <- (HS) with (i := pair_ix n a b).
  - unfold swap_pair. rewrite pair_ix_div, pair_ix_mod by auto. reflexivity.
  - intros i Hi. destruct (pair_split n i Hi) as (A1 & A2 & _). now apply Hlt.
  - intros i j Hi Hj. destruct (pair_split n i Hi) as (A1 & A2 & A3). unfold swap_pair.
    rewrite (Hs (i / n) (i mod n))%nat by auto. now rewrite <- A3.
  - apply nth_In. exact Hpp.
  - auto.
Qed.

Lemma stored_tensor_sym b k L : 0 <= b_tol b -> good_kernel b k -> (L < N_L_of (b_sh b))%nat ->
  forall x y z w, stored_tensor (b_lay b) k (b_tol b) L x y z w = stored_tensor (b_lay b) k (b_tol b) L y x z w.
Proof.
  intros Ht Hk HL x y z w. destruct (Hk L HL) as [[K1 K2] Kp]. apply tensor_pair_sym.
  intros i j p q r t Hi Hj Hp Hq Hr Hs. unfold element_pair.
  destruct (Nat.eqb_spec i j) as [->|Hne].
  - destruct (K1 j Hj) as (_ & _ & _ & R1 & C1 & S1). now apply (stored_factor_sym _ (count_of (b_lay b) j) _ R1 C1 Ht (Kp j Hj) S1).
  - destruct (Nat.ltb_spec i j).
    + destruct (K1 i Hi) as (_ & _ & S1 & _). now rewrite (S1 p q).
    + destruct (K2 i) as (_ & _ & S1); [lia|]. now rewrite (S1 p q).
Qed.

Lemma erfc_tensor_sym lay erfc L : erfc_ok lay erfc L ->
  forall x y z w, erfc_tensor lay erfc L x y z w = erfc_tensor lay erfc L y x z w.
Proof.
  intros He x y z w. apply tensor_pair_sym. intros i j p q r t Hi Hj Hp Hq Hr Hs.
  destruct (He i j Hi Hj) as (_ & _ & S1). apply S1; auto. now apply pair_ix_lt.
Qed.

Definition bare_fac (L : Z) : R := 4 * PI / IZR (2 * L + 1).

Lemma J_cached_ok b s : basis_ok b [] -> kernel_stored b (b_bare b) (t_L s) (t_m1L s) (t_chol s) ->
  forall L X, (L < N_L_of (b_sh b))%nat -> density (lnbf (b_lay b)) X ->
  is_matrix (J_cached b s L X) (lnbf (b_lay b))
    (coulomb_of (lnbf (b_lay b)) (stored_tensor (b_lay b) (b_bare b) (b_tol b) L) (dent X)).
Proof.
  intros Hb HS L X HL HX. destruct Hb as (_ & _ & Hf & _ & _ & Hk & _).
  destruct (stored_supplies b (b_bare b) _ _ _ L Hk HS HL) as [H1 H2].
  unfold J_cached. apply J_chol_ok; auto.
Qed.

Lemma K_cached_ok b k sm bg ch : fits (b_lay b) -> good_kernel b k -> kernel_stored b k sm bg ch ->
  forall L X, (L < N_L_of (b_sh b))%nat -> density (lnbf (b_lay b)) X ->
  is_matrix (assemble_K_chol (b_lay b) (disjoint_at sm (lnel (b_lay b)) L) (disjoint_at bg (lnel (b_lay b)) L)
      (disjoint_at ch (lnel (b_lay b)) L) X) (lnbf (b_lay b))
    (exchange_of (lnbf (b_lay b)) (stored_tensor (b_lay b) k (b_tol b) L) (dent X)).
Proof.
  intros Hf Hk HS L X HL HX.
  destruct (stored_supplies b k _ _ _ L Hk HS HL) as [H1 H2].
  apply K_chol_ok; auto.
Qed.

Lemma basis_nil b calls : basis_ok b calls -> basis_ok b [].
Proof. intros (A & B & C & D & E & F & _). repeat (split; [assumption|]). split; intros ? []. Qed.

Lemma stored_nonempty b k sm bg ch : basis_ok b [] -> kernel_stored b k sm bg ch -> csize ch <> 0%nat.
Proof.
  intros (Hsh & _ & _ & Hn & _) [HS _]. rewrite HS. pose proof (N_L_pos (b_sh b) Hsh). nia.
Qed.

Lemma last_screened_in calls c : last_screened calls = Some c -> In c calls.
Proof.
  induction calls as [|x l IH] using rev_ind; [discriminate|]. rewrite last_screened_app. intros H.
  apply in_or_app. destruct x; [left; auto|right; left; congruence..].
Qed.

(** The three matrices after any history of calls on a new basis. *)
Lemma two_electron_ok b lam yuk calls : basis_ok b calls ->
  exists s, history b calls (fresh lam yuk) = Ok s /\
  let nsh := length (b_sh b) in let N := lnbf (b_lay b) in
  let V := multipole_tensor (b_eval b) (b_sh b) (2 * lmax_of (b_sh b)) in
  forall P, density (nsh * N) P ->
  (In CallTei calls ->
     is_shell_matrix (coulomb b s P) nsh N
       (full_coulomb nsh N (V (fun L => 4 * PI / IZR (2 * L + 1)) (stored_tensor (b_lay b) (b_bare b) (b_tol b))) (dent P)) /\
     is_shell_matrix (exchange b s P) nsh N
       (full_exchange nsh N (V (fun L => 4 * PI / IZR (2 * L + 1)) (stored_tensor (b_lay b) (b_bare b) (b_tol b)))
          (screened N (b_thr b) (dent P)))) /\
  (~ In CallTei calls -> coulomb b s P = Throw LogicError /\ exchange b s P = Throw LogicError) /\
  match last_screened calls with
  | Some (CallYukawa l) =>
     is_shell_matrix (rs_exchange b s P) nsh N
       (full_exchange nsh N (V (fun _ => 4 * PI * l) (stored_tensor (b_lay b) (b_yukawa b l) (b_tol b)))
          (screened N (b_thr b) (dent P)))
  | Some (CallErfc m) =>
     is_shell_matrix (rs_exchange b s P) nsh N
       (full_exchange nsh N (V (fun L => 4 * PI * m / IZR (2 * L + 1)) (erfc_tensor (b_lay b) (b_erfc b m)))
          (screened N (b_thr b) (dent P)))
  | _ => rs_exchange b s P = Throw LogicError
  end.
Proof.
  intros Hb. destruct (history_ok b lam yuk calls Hb) as (s & E & I1 & I2 & I3). exists s. split; [exact E|].
  cbv zeta. intros P HP. pose proof (basis_nil b calls Hb) as Hn.
  pose proof Hb as (Hsh & Hgen & Hf & Hnel & Htol & Hbare & Hyuk & Herfc).
  split; [|split].
  - intros Hin. specialize (I1 Hin). pose proof (stored_nonempty b _ _ _ _ Hn I1) as Hc. split.
    + apply (coulomb_ok b calls); auto; [lia|]. now apply J_cached_ok.
    + unfold exchange. destruct (Nat.eqb_spec (csize (t_chol s)) 0); [contradiction|].
      apply (exchange_loop_ok b calls); auto; [lia| |].
      * intros L X HL HX. now apply K_cached_ok.
      * intros. now apply stored_tensor_sym.
  - intros Hin. unfold coulomb, exchange. rewrite (I2 Hin). split; reflexivity.
  - destruct (last_screened calls) as [[|l|m]|] eqn:EL.
    + contradiction.
    + assert (Hin : In (CallYukawa l) calls) by (apply last_screened_in; exact EL).
      destruct I3 as (Hy & Hl & HS). unfold rs_exchange. pose proof (stored_nonempty b _ _ _ _ Hn HS) as Hc.
      destruct (Nat.eqb_spec (csize (t_rschol s)) 0); [contradiction|]. rewrite andb_false_r, Hy, Hl.
      apply (exchange_loop_ok b calls); auto; [lia| |].
      * intros L X HL HX. apply K_cached_ok; auto.
      * intros. apply stored_tensor_sym; auto.
    + assert (Hin : In (CallErfc m) calls) by (apply last_screened_in; exact EL).
      destruct I3 as (Hy & Hl & HS1 & HS2). unfold rs_exchange.
      destruct (Nat.eqb_spec (csize (t_rsktei s)) 0) as [H0|_].
      { exfalso. rewrite HS1 in H0. pose proof (N_L_pos (b_sh b) Hsh). clear - H0 H Hnel. rewrite !Nat.mul_eq_0 in H0. lia. }
      cbn [andb]. rewrite Hy, Hl.
      apply (exchange_loop_ok b calls); auto; [lia| |].
      * intros L X HL HX. apply (K_pairwise_ok (b_lay b) _ (b_erfc b m L)); auto.
        intros i j Hi Hj. destruct (Herfc m Hin L HL i j Hi Hj) as (A & B & C). split; [now apply HS2|]. auto.
      * intros. apply erfc_tensor_sym. now apply Herfc.
    + destruct I3 as [H1 H2]. unfold rs_exchange. now rewrite H1, H2.
Qed.

(* ---------- accuracy of the stored factors ---------- *)

Lemma lsum_nth {A} (l : list A) f d : lsum l f = sum (length l) (fun p => f (nth p l d)).
Proof.
  induction l as [|a l IH]; [reflexivity|]. cbn [length]. rewrite sum_shift. cbn [nth].
  change (lsum (a :: l) f) with (f a + lsum l f). now rewrite IH.
Qed.

Lemma sum_const n (c : R) : sum n (fun _ => c) = INR n * c.
Proof. induction n; [simpl; ring|]. cbn [sum]. rewrite S_INR, IHn. ring. Qed.

Lemma stored_factor_close T n tol : drows T = n -> dcols T = n -> 0 <= tol -> psd n (dent T) ->
  forall r s, (r < n)%nat -> (s < n)%nat -> Rabs (dent T r s - factor_tensor (stored_factor T tol) r s) <= tol.
Proof.
  intros R1 C1 Ht Hp r s Hr Hs.
  destruct (pivoted_cholesky_ok T tol) as (L & E & _ & HC & _); [congruence|exact Ht|now rewrite R1|].
  rewrite R1 in HC.
  assert (ES : stored_factor T tol = mkD (drows T) (length L) (fun i p => nth p L (fun _ => 0) i)).
  { unfold stored_factor, chol_factor. now rewrite E. }
  rewrite ES. unfold factor_tensor. cbn [dcols dent].
  rewrite <- (lsum_nth _ (fun c => c r * c s) (fun _ => 0)). apply HC; auto.
Qed.

Lemma stored_close b k L : 0 <= b_tol b -> good_kernel b k -> (L < N_L_of (b_sh b))%nat ->
  forall x y z w, Rabs (stored_tensor (b_lay b) k (b_tol b) L x y z w - kernel_tensor (b_lay b) k L x y z w)
    <= INR (lnel (b_lay b)) * b_tol b.
Proof.
  intros Ht Hk HL x y z w. destruct (Hk L HL) as [[K1 _] Kp].
  unfold stored_tensor, kernel_tensor, tensor. rewrite <- sum_minus.
  eapply Rle_trans; [apply Rabs_sum|]. rewrite <- (sum_const (lnel (b_lay b)) (b_tol b)). apply sum_le. intros i Hi.
  rewrite <- sum_minus.
  rewrite (sum_single _ i).
  - unfold element_pair. rewrite Nat.eqb_refl.
    destruct (inside (b_lay b) i x && inside (b_lay b) i y && (inside (b_lay b) i z && inside (b_lay b) i w))%bool eqn:E.
    + rewrite !andb_true_iff in E. unfold inside in E. rewrite !andb_true_iff, !Nat.leb_le, !Nat.ltb_lt in E.
      destruct (K1 i Hi) as (_ & _ & _ & R1 & C1 & _). rewrite Rabs_minus_sym.
      apply (stored_factor_close _ (count_of (b_lay b) i * count_of (b_lay b) i)); auto; try (apply pair_ix_lt; unfold local; lia).
    + rewrite Rminus_0_r, Rabs_R0. exact Ht.
  - exact Hi.
  - intros j Hj Hne. destruct (inside _ _ _ && _ && _)%bool; [|ring]. unfold element_pair.
    destruct (Nat.eqb_spec i j); [congruence|]. destruct (i <? j)%nat; ring.
Qed.

(* ---------- density fitting factors ---------- *)

Section DF.
Variables (N : nat) (T : nat -> nat -> nat -> nat -> R) (J : dmat -> res dmat).
Hypothesis HN : (0 < N)%nat.
Hypothesis HJ : forall X, density N X -> is_matrix (J X) N (coulomb_of N T (dent X)).
Hypothesis Hsym : forall a b c d, T a b c d = T b a c d.
Hypothesis Hpsd : psd (N * N) (pair_matrix N T).

Lemma ket_sym a b c d : (a < N)%nat -> (b < N)%nat -> (c < N)%nat -> (d < N)%nat -> T a b c d = T c d a b.
Proof.
  intros Ha Hb Hc Hd. destruct Hpsd as [Hs _].
  specialize (Hs (pair_ix N a b) (pair_ix N c d) (pair_ix_lt _ _ _ _ Ha Hb) (pair_ix_lt _ _ _ _ Hc Hd)).
  unfold pair_matrix in Hs. now rewrite !pair_ix_mod, !pair_ix_div in Hs by auto.
Qed.
Lemma ket_swap a b c d : (a < N)%nat -> (b < N)%nat -> (c < N)%nat -> (d < N)%nat -> T a b c d = T a b d c.
Proof. intros Ha Hb Hc Hd. rewrite ket_sym, Hsym by auto. now apply ket_sym. Qed.

Lemma J_pair i j : (i < N)%nat -> (j < N)%nat ->
  is_matrix (J (pair_density N i j)) N (fun a b => T a b i j).
Proof.
  intros Hi Hj. destruct (HJ (pair_density N i j)) as (M & E & R1 & C1 & V); [split; reflexivity|].
  exists M. repeat (split; auto). intros a b Ha Hb. rewrite V by auto. unfold coulomb_of, pair_density. cbn [dent].
  destruct (Nat.eqb_spec i j) as [->|Hne].
  - rewrite (sum_single _ j); auto.
    + rewrite (sum_single _ j); auto.
      * unfold store. rewrite Nat.eqb_refl. cbn [andb]. ring.
      * intros d Hd Hn. unfold store. destruct (Nat.eqb_spec d j); [tauto|]. rewrite andb_false_r. unfold mzero. ring.
    + intros c Hc Hn. apply sum_zero'. intros d Hd. unfold store. destruct (Nat.eqb_spec c j); [tauto|]. unfold mzero. simpl. ring.
  - rewrite (sum_two N i j); auto.
    + rewrite (sum_single _ j); auto.
      * rewrite (sum_single _ i); auto.
        -- unfold store. rewrite !Nat.eqb_refl. destruct (Nat.eqb_spec i j); [tauto|]. destruct (Nat.eqb_spec j i); [congruence|].
           cbn [andb]. rewrite (ket_swap a b j i) by auto. field.
        -- intros d Hd Hn. unfold store. destruct (Nat.eqb_spec d i); [tauto|]. destruct (Nat.eqb_spec j i); [congruence|].
           rewrite andb_false_r. unfold mzero. simpl. ring.
      * intros d Hd Hn. unfold store. destruct (Nat.eqb_spec d j); [tauto|]. destruct (Nat.eqb_spec i j); [congruence|].
        rewrite andb_false_r. unfold mzero. simpl. ring.
    + intros c Hc Hn1 Hn2. apply sum_zero'. intros d Hd. unfold store. destruct (Nat.eqb_spec c j); [tauto|]. destruct (Nat.eqb_spec c i); [tauto|].
      unfold mzero. simpl. ring.
Qed.

Definition df_cols (B : list dmat) : list vec := map (fun V r => dent V (r mod N)%nat (r / N)%nat) B.

Lemma df_cols_LLT B r s : LLT (df_cols B) r s = lsum B (fun V => dent V (r mod N)%nat (r / N)%nat * dent V (s mod N)%nat (s / N)%nat).
Proof. unfold LLT, df_cols. now rewrite lsum_map. Qed.

Lemma max_coeff_ok D : let '(r, v) := max_coeff N D in
  (r < N * N)%nat /\ v = D (r mod N)%nat (r / N)%nat /\ forall s, (s < N * N)%nat -> D (s mod N)%nat (s / N)%nat <= v.
Proof.
  unfold max_coeff. set (d := fun r => D (r mod N)%nat (r / N)%nat). cbv zeta.
  change (D (0 mod N)%nat (0 / N)%nat) with (d 0%nat).
  assert (G : forall k, (k < N * N)%nat ->
    let '(r, v) := fold_left (fun pv r => if Rltb (snd pv) (d r) then (r, d r) else pv) (seq 1 k) (0%nat, d 0%nat) in
    (r <= k)%nat /\ v = d r /\ forall s, (s <= k)%nat -> d s <= v).
  { induction k; intros Hk.
    - cbn. repeat split; auto. intros s Hs. replace s with 0%nat by lia. lra.
    - rewrite seq_S, fold_left_app. specialize (IHk ltac:(lia)). destruct (fold_left _ (seq 1 k) _) as [r v].
      destruct IHk as (A1 & A2 & A3). cbn [fold_left snd]. replace (1 + k)%nat with (S k) by lia.
      destruct (Rltb_spec v (d (S k))).
      + repeat split; auto. intros s Hs. destruct (Nat.eq_dec s (S k)) as [->|]; [lra|]. specialize (A3 s ltac:(lia)). lra.
      + repeat split; auto. intros s Hs. destruct (Nat.eq_dec s (S k)) as [->|]; [lra|]. apply A3. lia. }
  specialize (G (N * N - 1)%nat ltac:(nia)). destruct (fold_left _ _ _) as [r v].
  destruct G as (A1 & A2 & A3). repeat split; [nia|exact A2|]. intros s Hs. apply A3. lia.
Qed.

Lemma peel_col B (c0 : mat) i j a b :
  fold_left (fun col V => fun a b => col a b - dent V i j * dent V a b) B c0 a b =
  c0 a b - lsum B (fun V => dent V i j * dent V a b).
Proof.
  revert c0. induction B as [|V B IH]; intros c0; [cbn; ring|]. cbn [fold_left]. rewrite IH.
  change (lsum (V :: B) (fun V => dent V i j * dent V a b)) with (dent V i j * dent V a b + lsum B (fun V => dent V i j * dent V a b)). ring.
Qed.

Definition df_res (B : list dmat) : mat := fun r s => pair_matrix N T r s - LLT (df_cols B) r s.

Definition df_inv (D : mat) (B : list dmat) (piv : list nat) : Prop :=
  psd (N * N) (df_res B) /\
  (forall r, (r < N * N)%nat -> D (r mod N)%nat (r / N)%nat = df_res B r r) /\
  NoDup piv /\ length piv = length B /\
  (forall p, In p piv -> (p < N * N)%nat /\ forall s, (s < N * N)%nat -> df_res B p s = 0) /\
  (forall V, In V B -> drows V = N /\ dcols V = N /\ symmetric N (dent V)).

Lemma NoDup_le piv n : NoDup piv -> (forall p, In p piv -> (p < n)%nat) -> (length piv <= n)%nat.
Proof.
  intros H1 H2. rewrite <- (seq_length n 0). apply NoDup_incl_length; auto. intros p Hp. apply in_seq. specialize (H2 p Hp). lia.
Qed.

Lemma df_loop_ok tol fuel : 0 < tol -> forall D B piv, df_inv D B piv -> (N * N < fuel + length B)%nat ->
  exists B', df_loop fuel N J tol D B = Ok B' /\ fitted N T tol B'.
Proof.
  intros Ht. induction fuel; intros D B piv HI Hf.
  - destruct HI as (_ & _ & Hnd & Hl & Hp & _).
    pose proof (NoDup_le piv (N * N) Hnd (fun p H => proj1 (Hp p H))). lia.
  - destruct HI as (Hps & HD & Hnd & Hl & Hp & HV). cbn [df_loop].
    pose proof (max_coeff_ok D) as HM. destruct (max_coeff N D) as [r v]. destruct HM as (Hr & Ev & Hmax).
    destruct (Rltb_spec v tol) as [Hlt|Hge].
    + exists B. split; [reflexivity|]. split; [|split; [exact HV|]].
      { pose proof (NoDup_le piv (N * N) Hnd (fun p H => proj1 (Hp p H))). lia. }
      intros a b c d Ha Hb Hc Hd.
      pose proof (pair_ix_lt _ _ _ _ Ha Hb) as Hab. pose proof (pair_ix_lt _ _ _ _ Hc Hd) as Hcd.
      assert (HH := psd_offdiag (N * N) (df_res B) _ _ v Hps Hab Hcd).
      rewrite <- !HD in HH by auto. specialize (HH (Hmax _ Hab) (Hmax _ Hcd)).
      unfold df_res in HH. rewrite df_cols_LLT in HH. unfold pair_matrix in HH.
      rewrite !pair_ix_mod, !pair_ix_div in HH by auto. lra.
    + destruct (Rleb_spec v 0); [lra|].
      destruct (pair_split N r Hr) as (Hi & Hj & Er). set (i := (r mod N)%nat) in *. set (j := (r / N)%nat) in *.
      destruct (J_pair i j Hi Hj) as (M & EM & RM & CM & VM). rewrite EM. cbn [bind].
      set (vv := fun a b : nat => fold_left (fun (col : mat) (V : dmat) (a0 b0 : nat) => col a0 b0 - dent V i j * dent V a0 b0) B (dent M) a b / sqrt v).
      assert (Hrr : df_res B r r = v) by (rewrite <- HD by exact Hr; exact (eq_sym Ev)).
      assert (Hvv : forall a b, (a < N)%nat -> (b < N)%nat -> vv a b = df_res B (pair_ix N a b) r / sqrt v).
      { intros a b Ha Hb. unfold vv. rewrite peel_col, VM by auto. f_equal. unfold df_res. rewrite df_cols_LLT. unfold pair_matrix.
        fold i j. rewrite !pair_ix_mod, !pair_ix_div by auto. f_equal. apply lsum_ext. intros V _. ring. }
      assert (Hsv : sqrt v * sqrt v = v) by (apply sqrt_sqrt; lra).
      assert (Hs0 : sqrt v <> 0) by (intros H0; rewrite H0 in Hsv; lra).
      assert (Hres : forall p s, (p < N * N)%nat -> (s < N * N)%nat ->
        df_res (B ++ [mkD N N vv]) p s = df_res B p s - df_res B p r * df_res B s r / df_res B r r).
      { intros p s Hpp Hss. unfold df_res at 1. unfold df_cols. rewrite map_app. cbn [map]. rewrite LLT_app. fold (df_cols B).
        cbn [dent]. destruct (pair_split N p Hpp) as (P1 & P2 & P3). destruct (pair_split N s Hss) as (S1 & S2 & S3).
        rewrite !Hvv by auto. rewrite <- P3, <- S3, Hrr. unfold df_res at 3.
        replace (df_res B p r / sqrt v * (df_res B s r / sqrt v)) with (df_res B p r * df_res B s r / (sqrt v * sqrt v)) by (field; exact Hs0).
        rewrite Hsv. ring. }
      assert (Hps' : psd (N * N) (df_res (B ++ [mkD N N vv]))).
      { eapply psd_ext; [intros p s Hpp Hss; symmetry; apply Hres; auto|]. apply psd_schur; auto. rewrite Hrr. lra. }
      change (exists B', df_loop fuel N J tol (fun a b => Rmax (D a b - vv a b * vv a b) 0) (B ++ [mkD N N vv]) = Ok B' /\ fitted N T tol B').
      apply (IHfuel _ _ (r :: piv)).
      * split; [exact Hps'|]. split; [|split; [|split; [|split]]].
        -- intros s Hss. destruct (pair_split N s Hss) as (S1 & S2 & S3). rewrite Hvv by auto. rewrite <- S3.
           rewrite HD by auto. pose proof (psd_diag _ _ s Hps' Hss) as Hnn. rewrite (Hres s s) in * by auto.
           rewrite Hrr in *. replace (df_res B s r / sqrt v * (df_res B s r / sqrt v)) with (df_res B s r * df_res B s r / v).
           { apply Rmax_left. exact Hnn. }
           rewrite <- Hsv at 1. field. exact Hs0.
        -- constructor; [|exact Hnd]. intros Hin. destruct (Hp r Hin) as [_ Hz]. rewrite (Hz r Hr) in Hrr. lra.
        -- rewrite app_length. cbn [length]. lia.
        -- intros p [<-|Hin].
           ++ split; [exact Hr|]. intros s Hss. rewrite Hres by auto. destruct Hps as [Hsy _]. rewrite (Hsy s r) by auto.
              field. rewrite Hrr. lra.
           ++ destruct (Hp p Hin) as [Hpp Hz]. split; [exact Hpp|]. intros s Hss. rewrite Hres by auto.
              rewrite (Hz s Hss), (Hz r Hr). unfold Rdiv. ring.
        -- intros V HVin. apply in_app_or in HVin. destruct HVin as [HVin|[<-|[]]]; [now apply HV|].
           split; [reflexivity|]. split; [reflexivity|]. cbn [dent]. intros a b Ha Hb. rewrite !Hvv by auto. f_equal.
           unfold df_res. rewrite !df_cols_LLT. unfold pair_matrix. rewrite !pair_ix_mod, !pair_ix_div by auto.
           rewrite Hsym. f_equal. apply lsum_ext. intros V HVin. destruct (HV V HVin) as (_ & _ & HS). now rewrite (HS a b).
      * rewrite app_length. cbn [length]. lia.
Qed.

(** D holds the diagonal of T on the pairs in C and zero or the diagonal elsewhere. *)
Definition dinv (C : nat -> nat -> Prop) (D : dmat) : Prop :=
  drows D = N /\ dcols D = N /\
  forall a b, (a < N)%nat -> (b < N)%nat -> (dent D a b = T a b a b \/ dent D a b = 0) /\ (C a b -> dent D a b = T a b a b).

Lemma dinv_fold {A} (f : dmat -> A -> res dmat) (Cx : A -> nat -> nat -> Prop) l : forall C D,
  (forall x C D, In x l -> dinv C D -> exists D', f D x = Ok D' /\ dinv (fun a b => C a b \/ Cx x a b) D') ->
  dinv C D -> exists D', fold_res f l D = Ok D' /\ dinv (fun a b => C a b \/ exists x, In x l /\ Cx x a b) D'.
Proof.
  induction l as [|x l IH]; intros C D Hs HD.
  - exists D. split; [reflexivity|]. destruct HD as (A1 & A2 & A3). split; [exact A1|]. split; [exact A2|]. intros a b Ha Hb. split; [now apply A3|].
    intros [Hc|(x & [] & _)]. now apply A3.
  - cbn [fold_res]. destruct (Hs x C D (or_introl eq_refl) HD) as (D1 & E1 & H1). rewrite E1. cbn [bind].
    destruct (IH (fun a b => C a b \/ Cx x a b) D1) as (D2 & E2 & H2); auto.
    { intros y C' D' Hy. apply Hs. now right. }
    exists D2. split; [exact E2|]. destruct H2 as (A1 & A2 & A3). split; [exact A1|]. split; [exact A2|].
    intros a b Ha Hb. destruct (A3 a b Ha Hb) as [B1 B2]. split; [exact B1|]. intros [H|(y & [<-|Hy] & Hc)]; apply B2; eauto.
Qed.

Lemma df_diagonal_ok lay : lnbf lay = N -> fits lay ->
  (forall a b, (forall e, (e < lnel lay)%nat -> (inside lay e a && inside lay e b)%bool = false) -> T a b a b = 0) ->
  exists D, df_diagonal lay J = Ok D /\ drows D = N /\ dcols D = N /\
    forall a b, (a < N)%nat -> (b < N)%nat -> dent D a b = T a b a b.
Proof.
  intros HlN Hf Hoff. unfold df_diagonal. rewrite HlN. cbv zeta.
  destruct (dinv_fold (fun D iel => let '(ifirst, Ni) := lidx lay iel in
    fold_res (fun D j_loc => fold_res (fun D i_loc =>
      let i := (ifirst + i_loc)%nat in let j := (ifirst + j_loc)%nat in
      if (Nat.ltb i N && Nat.ltb j N)%bool then
        bind (J (pair_density N i j)) (fun Jm =>
        let D1 := store (dent D) i j (dent Jm i j) in
        Ok (mkD N N (store D1 j i (D1 i j))))
      else UB)
      (seq 0 (j_loc + 1)) D) (seq 0 Ni) D)
    (fun e a b => (inside lay e a && inside lay e b)%bool = true) (seq 0 (lnel lay)) (fun _ _ => False) (dzero N N))
    as (D & E & R1 & C1 & V).
  - intros e C D He HD. apply in_seq in He. pose proof (Hf e ltac:(lia)) as Hfe. unfold first_of, count_of in Hfe.
    unfold inside, first_of, count_of. destruct (lidx lay e) as [ifirst Ni]. cbn [fst snd] in *. rewrite HlN in Hfe.
    destruct (dinv_fold (fun D j_loc => fold_res (fun D i_loc =>
      let i := (ifirst + i_loc)%nat in let j := (ifirst + j_loc)%nat in
      if (Nat.ltb i N && Nat.ltb j N)%bool then
        bind (J (pair_density N i j)) (fun Jm =>
        let D1 := store (dent D) i j (dent Jm i j) in
        Ok (mkD N N (store D1 j i (D1 i j))))
      else UB)
      (seq 0 (j_loc + 1)) D)
      (fun y a b => exists x, (x <= y)%nat /\ ((a = ifirst + x /\ b = ifirst + y) \/ (a = ifirst + y /\ b = ifirst + x))%nat) (seq 0 Ni) C D)
      as (D' & E' & R' & C' & V'); [|exact HD|].
    + intros y C0 D0 Hy HD0. apply in_seq in Hy.
      destruct (dinv_fold (fun D i_loc =>
        let i := (ifirst + i_loc)%nat in let j := (ifirst + y)%nat in
        if (Nat.ltb i N && Nat.ltb j N)%bool then
          bind (J (pair_density N i j)) (fun Jm =>
          let D1 := store (dent D) i j (dent Jm i j) in
          Ok (mkD N N (store D1 j i (D1 i j))))
        else UB)
        (fun x a b => ((a = ifirst + x /\ b = ifirst + y) \/ (a = ifirst + y /\ b = ifirst + x))%nat) (seq 0 (y + 1)) C0 D0)
        as (D' & E' & R' & C' & V'); [|exact HD0|].
      * intros x C1 D1 Hx (Q1 & Q2 & Q3). apply in_seq in Hx. cbv zeta.
        destruct (Nat.ltb_spec (ifirst + x) N); [|lia]. destruct (Nat.ltb_spec (ifirst + y) N); [|lia]. cbn [andb].
        destruct (J_pair (ifirst + x) (ifirst + y)) as (M & EM & RM & CM & VM); [lia..|]. rewrite EM. cbn [bind].
        eexists. split; [reflexivity|]. split; [reflexivity|]. split; [reflexivity|]. cbn [dent]. intros a b Ha Hb.
        assert (HV : store (store (dent D1) (ifirst + x) (ifirst + y) (dent M (ifirst + x)%nat (ifirst + y)%nat)) (ifirst + y) (ifirst + x)
            (store (dent D1) (ifirst + x) (ifirst + y) (dent M (ifirst + x)%nat (ifirst + y)%nat) (ifirst + x)%nat (ifirst + y)%nat) a b =
          if ((Nat.eqb a (ifirst + x) && Nat.eqb b (ifirst + y)) || (Nat.eqb a (ifirst + y) && Nat.eqb b (ifirst + x)))%bool
          then T a b a b else dent D1 a b).
        { unfold store at 1 2 3. rewrite !Nat.eqb_refl. cbn [andb]. rewrite VM by lia.
          destruct (Nat.eqb_spec a (ifirst + y)) as [->|]; destruct (Nat.eqb_spec b (ifirst + x)) as [->|]; cbn [andb orb];
            rewrite ?orb_true_r, ?orb_false_r.
          - rewrite (Hsym (ifirst + y)%nat). now rewrite (ket_swap _ _ (ifirst + y)%nat) by lia.
          - destruct (Nat.eqb_spec (ifirst + y) (ifirst + x)); cbn [andb]; [|reflexivity].
            destruct (Nat.eqb_spec b (ifirst + y)); [congruence|reflexivity].
          - destruct (Nat.eqb_spec a (ifirst + x)) as [->|]; cbn [andb]; [|reflexivity].
            destruct (Nat.eqb_spec (ifirst + x) (ifirst + y)); [congruence|reflexivity].
          - destruct (Nat.eqb_spec a (ifirst + x)) as [->|]; cbn [andb]; [|reflexivity].
            destruct (Nat.eqb_spec b (ifirst + y)) as [->|]; reflexivity. }
        rewrite HV. destruct (Q3 a b Ha Hb) as [Q4 Q5].
        destruct ((Nat.eqb a (ifirst + x) && Nat.eqb b (ifirst + y)) || (Nat.eqb a (ifirst + y) && Nat.eqb b (ifirst + x)))%bool eqn:EE.
        -- split; auto.
        -- split; [exact Q4|]. intros [H1|[[-> ->]|[-> ->]]]; [now apply Q5| |]; rewrite !Nat.eqb_refl in EE; cbn in EE; [discriminate|].
           rewrite orb_true_r in EE. discriminate.
      * exists D'. split; [exact E'|]. split; [exact R'|]. split; [exact C'|]. intros a b Ha Hb. destruct (V' a b Ha Hb) as [W1 W2].
        split; [exact W1|]. intros [H|(x & Hx & H)]; apply W2; [now left|]. right. exists x. split; [apply in_seq; lia|exact H].
    + exists D'. split; [exact E'|]. split; [exact R'|]. split; [exact C'|]. intros a b Ha Hb. destruct (V' a b Ha Hb) as [W1 W2].
      split; [exact W1|]. intros [H|H]; apply W2; [now left|]. right.
      rewrite !andb_true_iff, !Nat.leb_le, !Nat.ltb_lt in H.
      destruct (Nat.le_ge_cases a b).
      * exists (b - ifirst)%nat. split; [apply in_seq; lia|]. exists (a - ifirst)%nat. split; [lia|]. left. lia.
      * exists (a - ifirst)%nat. split; [apply in_seq; lia|]. exists (b - ifirst)%nat. split; [lia|]. right. lia.
  - split; [reflexivity|]. split; [reflexivity|]. intros a b _ _. split; [now right|intros []].
  - exists D. split; [exact E|]. split; [exact R1|]. split; [exact C1|]. intros a b Ha Hb. destruct (V a b Ha Hb) as [W1 W2].
    destruct (existsb (fun e => (inside lay e a && inside lay e b)%bool) (seq 0 (lnel lay))) eqn:EE.
    + apply existsb_exists in EE. destruct EE as (e & He & Hin). apply W2. right. exists e. auto.
    + destruct W1 as [W1|W1]; [exact W1|]. rewrite W1. symmetry. apply Hoff. intros e He.
      destruct (inside lay e a && inside lay e b)%bool eqn:E2; [|reflexivity].
      assert (existsb (fun e => (inside lay e a && inside lay e b)%bool) (seq 0 (lnel lay)) = true); [|congruence].
      apply existsb_exists. exists e. split; [apply in_seq; lia|exact E2].
Qed.

Lemma df_one lay tol fuel : lnbf lay = N -> fits lay -> 0 < tol -> (N * N < fuel)%nat ->
  (forall a b, (forall e, (e < lnel lay)%nat -> (inside lay e a && inside lay e b)%bool = false) -> T a b a b = 0) ->
  exists D B, df_diagonal lay J = Ok D /\ df_loop fuel N J tol (dent D) [] = Ok B /\ fitted N T tol B.
Proof.
  intros HlN Hf Ht Hfu Hoff. destruct (df_diagonal_ok lay HlN Hf Hoff) as (D & E & _ & _ & V).
  destruct (df_loop_ok tol fuel Ht (dent D) [] []) as (B & EB & HB).
  - assert (HE : forall r s, df_res [] r s = pair_matrix N T r s) by (intros; unfold df_res, LLT; simpl; ring).
    split; [|split; [|split; [|split; [|split]]]].
    + eapply psd_ext; [|exact Hpsd]. intros. now rewrite HE.
    + intros r Hr. rewrite HE. destruct (pair_split N r Hr) as (A1 & A2 & _). rewrite V by auto. reflexivity.
    + constructor.
    + reflexivity.
    + intros p [].
    + intros V0 [].
  - cbn. lia.
  - exists D, B. auto.
Qed.
End DF.

Lemma tensor_off lay block a b :
  (forall e, (e < lnel lay)%nat -> (inside lay e a && inside lay e b)%bool = false) -> tensor lay block a b a b = 0.
Proof.
  intros H. unfold tensor. apply sum_zero'. intros i Hi. apply sum_zero'. intros j Hj. now rewrite (H i Hi).
Qed.

Lemma radial_df_ok b lam yuk calls tol fuel : basis_ok b calls -> 0 < tol ->
  (0 < lnbf (b_lay b))%nat -> (lnbf (b_lay b) * lnbf (b_lay b) < fuel)%nat ->
  (forall L, (L < N_L_of (b_sh b))%nat ->
     psd (lnbf (b_lay b) * lnbf (b_lay b)) (pair_matrix (lnbf (b_lay b)) (stored_tensor (b_lay b) (b_bare b) (b_tol b) L))) ->
  exists s, history b calls (fresh lam yuk) = Ok s /\
  (In CallTei calls -> exists out, radial_df_factors fuel b s tol = Ok out /\ length out = N_L_of (b_sh b) /\
     forall L, (L < N_L_of (b_sh b))%nat ->
       fitted (lnbf (b_lay b)) (stored_tensor (b_lay b) (b_bare b) (b_tol b) L) tol (nth L out [])) /\
  (~ In CallTei calls -> radial_df_factors fuel b s tol = Throw LogicError).
Proof.
  intros Hb Ht HN Hfu Hps. destruct (history_ok b lam yuk calls Hb) as (s & E & I1 & I2 & _). exists s. split; [exact E|].
  pose proof (basis_nil b calls Hb) as Hn. pose proof Hb as (Hsh & Hgen & Hf & Hnel & Htol & Hbare & _).
  split.
  - intros Hin. specialize (I1 Hin). pose proof (stored_nonempty b _ _ _ _ Hn I1) as Hc.
    unfold radial_df_factors. destruct (Nat.eqb_spec (csize (t_chol s)) 0); [contradiction|].
    destruct (fold_res_inv (fun done out => length out = length done /\
      forall k, (k < length done)%nat -> fitted (lnbf (b_lay b)) (stored_tensor (b_lay b) (b_bare b) (b_tol b) (nth k done 0%nat)) tol (nth k out []))
      (fun out L => bind (df_diagonal (b_lay b) (J_cached b s L)) (fun D =>
        bind (df_loop fuel (lnbf (b_lay b)) (J_cached b s L) tol (dent D) []) (fun B => Ok (out ++ [B]))))
      (seq 0 (N_L_of (b_sh b))) []) as (out & EO & HO1 & HO2).
    + split; [reflexivity|]. cbn. lia.
    + intros done L out (rest & Er) [H1 H2].
      assert (HL : (L < N_L_of (b_sh b))%nat).
      { assert (In L (seq 0 (N_L_of (b_sh b)))) as HH by (rewrite Er; apply in_or_app; right; now left). apply in_seq in HH. lia. }
      destruct (df_one (lnbf (b_lay b)) (stored_tensor (b_lay b) (b_bare b) (b_tol b) L) (J_cached b s L) HN
        (fun X HX => J_cached_ok b s Hn I1 L X HL HX) (stored_tensor_sym b (b_bare b) L Htol Hbare HL) (Hps L HL) (b_lay b) tol fuel
        eq_refl Hf Ht Hfu (tensor_off _ _)) as (D & B & ED & EB & HB).
      rewrite ED. cbn [bind]. rewrite EB. cbn [bind]. eexists. split; [reflexivity|].
      rewrite !app_length. cbn [length]. split; [lia|]. intros k Hk.
      destruct (Nat.eq_dec k (length done)) as [->|Hne].
      * rewrite (app_nth2 done) by lia. rewrite Nat.sub_diag. rewrite <- H1 at 1. rewrite H1, app_nth2 by lia.
        rewrite H1, Nat.sub_diag. exact HB.
      * rewrite !app_nth1 by lia. apply H2. lia.
    + rewrite seq_length in HO1, HO2. exists out. split; [exact EO|]. split; [exact HO1|]. intros L HL.
      specialize (HO2 L HL). now rewrite seq_nth in HO2 by exact HL.
  - intros Hin. unfold radial_df_factors. now rewrite (I2 Hin).
Qed.

Lemma unscreened_ok nsh N V thr (P : mat) :
  (forall i l, (i < nsh)%nat -> (l < nsh)%nat -> block_norm N P i l < thr ->
     forall c d, (c < N)%nat -> (d < N)%nat -> P (fn N i c) (fn N l d) = 0) ->
  forall j a k b, full_exchange nsh N V (screened N thr P) j a k b = full_exchange nsh N V P j a k b.
Proof.
  intros H j a k b. unfold full_exchange. f_equal. apply sum_ext. intros i Hi. apply sum_ext. intros l Hl.
  apply sum_ext. intros c Hc. apply sum_ext. intros d Hd. f_equal. unfold screened.
  assert (Hdiv : forall i a, (a < N)%nat -> (fn N i a / N = i)%nat).
  { intros i' a' Ha. unfold fn. rewrite Nat.div_add_l by lia. rewrite Nat.div_small by lia. lia. }
  rewrite !Hdiv by auto. destruct (Rltb_spec (block_norm N P i l) thr); [|reflexivity].
  symmetry. now apply H.
Qed.

(* ---------- a concrete basis ---------- *)

Definition basis2 : tbasis :=
  mkB [(0, 0); (1, 0); (1, -1)]%Z lay2 kernel2 (fun _ => kernel2) (fun _ _ _ _ => ones 4) 0 sample_eval (1 / 1000).

Lemma kernel2_good : good_kernel basis2 kernel2.
Proof. intros L HL. split; [apply kernel2_ok|]. intros e He. exact (ones_psd 4). Qed.

Lemma basis2_ok calls : basis_ok basis2 calls.
Proof.
  split; [|split; [exact sample_ok|split; [exact lay2_fits|split; [cbn; lia|split; [cbn; lra|split; [exact kernel2_good|split]]]]]].
  - split; [discriminate|]. intros l m [E|[E|[E|[]]]]; injection E as <- <-; lia.
  - intros l _. exact kernel2_good.
  - intros m _ L _ i j _ _. repeat split.
Qed.

Lemma basis2_exact L a b c d : (L < 3)%nat ->
  stored_tensor lay2 kernel2 0 L a b c d = kernel_tensor lay2 kernel2 L a b c d.
Proof.
  intros HL. pose proof (stored_close basis2 kernel2 L (Rle_refl 0) kernel2_good HL a b c d) as H.
  cbn [b_lay b_tol basis2] in H. rewrite Rmult_0_r in H.
  destruct (Rabs_pos (stored_tensor lay2 kernel2 0 L a b c d - kernel_tensor lay2 kernel2 L a b c d)) as [H1|H1]; [lra|].
  symmetry in H1. destruct (Req_dec (stored_tensor lay2 kernel2 0 L a b c d - kernel_tensor lay2 kernel2 L a b c d) 0) as [H2|H2]; [lra|].
  apply Rabs_no_R0 in H2. contradiction.
Qed.

Lemma ones_product lay a b c d : 
  tensor lay (fun _ _ _ _ _ _ => 1) a b c d =
  sum (lnel lay) (fun i => if (inside lay i a && inside lay i b)%bool then 1 else 0) *
  sum (lnel lay) (fun j => if (inside lay j c && inside lay j d)%bool then 1 else 0).
Proof.
  unfold tensor. rewrite <- sum_scal_r. apply sum_ext. intros i Hi. rewrite <- sum_scal. apply sum_ext. intros j Hj.
  destruct (inside lay i a && inside lay i b)%bool; destruct (inside lay j c && inside lay j d)%bool; cbn [andb]; ring.
Qed.

Lemma kernel2_tensor L a b c d : kernel_tensor lay2 kernel2 L a b c d = tensor lay2 (fun _ _ _ _ _ _ => 1) a b c d.
Proof.
  unfold kernel_tensor, tensor. apply sum_ext. intros i Hi. apply sum_ext. intros j Hj.
  destruct (_ && _)%bool; [|reflexivity]. unfold element_pair. cbn [k_small k_big k_tei kernel2 dent ones].
  destruct (i =? j)%nat; [reflexivity|]. destruct (i <? j)%nat; ring.
Qed.

Lemma basis2_psd L : (L < 3)%nat -> psd 9 (pair_matrix 3 (stored_tensor lay2 kernel2 0 L)).
Proof.
  intros HL. set (f := fun r => sum (lnel lay2) (fun i => if (inside lay2 i (r mod 3) && inside lay2 i (r / 3))%bool then 1 else 0)).
  apply (psd_ext 9 (fun r s => f r * f s)).
  - intros r s Hr Hs. unfold pair_matrix. rewrite basis2_exact, kernel2_tensor, ones_product by exact HL. reflexivity.
  - split; [intros r s _ _; ring|]. intros v.
    rewrite (sum_ext _ _ (fun i => (v i * f i) * sum 9 (fun j => f j * v j))).
    + rewrite sum_scal_r. rewrite (sum_ext 9 (fun j => f j * v j) (fun i => v i * f i)) by (intros; ring). apply Rle_0_sqr.
    + intros i Hi. rewrite <- sum_scal. apply sum_ext. intros j Hj. ring.
Qed.

Lemma basis2_values : stored_tensor lay2 kernel2 0 0 1 1 1 1 = 4 /\ stored_tensor lay2 kernel2 0 0 0 2 1 1 = 0.
Proof.
  rewrite !basis2_exact, !kernel2_tensor, !ones_product by lia. cbn. split; ring.
Qed.
