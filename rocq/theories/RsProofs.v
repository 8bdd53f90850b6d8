(** What the Fock builder of spherically averaged atoms computes. *)
Require Import Reals ZArith List Bool Arith Lia Lra Permutation FunctionalExtensionality.
Require Import Verif.Prelude Verif.FEModel Verif.AngModel Verif.JKModel Verif.ScfModel Verif.ScfSpec Verif.ScfProofs Verif.SgProofs
  Verif.RsModel Verif.RsSpec.
Import ListNotations.
Local Open Scope R_scope.

Ltac fext := repeat (apply functional_extensionality; intro).

Lemma all_zero_spec m occ : all_zero m occ = true <-> forall i, (i < m)%nat -> occ i = 0.
Proof.
  unfold all_zero. rewrite forallb_forall. split; intros H i Hi.
  - assert (HI : In i (seq 0 m)) by (apply in_seq; lia). specialize (H i HI). destruct (Reqb_spec (Rabs (occ i)) 0) as [E|]; [|discriminate].
    destruct (Req_dec (occ i) 0) as [|N]; auto. apply Rabs_no_R0 in N. contradiction.
  - apply in_seq in Hi. rewrite H by lia. rewrite Rabs_R0. destruct (Reqb_spec 0 0); [reflexivity|lra].
Qed.

Lemma density_zero n X m orb occ : (forall i, (i < m)%nat -> occ i = 0) -> block_density n X m orb occ = mzero.
Proof. intros H. fext. unfold block_density, mzero. apply sum_zero'. intros i Hi. rewrite H by auto. ring. Qed.

Section Eval.
Variable s : satom.
Notation n := (sa_n s).
Notation nb := (sa_nb s).

(** The radial kinetic matrix of one l. *)
Definition kin (l : nat) : mat := madd (sa_T s) (mscal (INR (l * (l + 1))) (sa_Tl s)).
Definition upto (k : nat) (A : cube) : cube := fun l => if Nat.ltb l k then A l else mzero.
Definition csum (k : nat) (A : cube) : mat := fun a b => sum k (fun l => A l a b).

Lemma accumulate_ok k A b P E : (0 < b_m b)%nat -> A k = block_P s b ->
  accumulate_density s (P, upto k A, E) k b = Ok (madd P (A k), upto (S k) A, E + tr n (A k) (kin k)).
Proof.
  intros Hm HA. unfold accumulate_density. destruct (Nat.eqb_spec (b_m b) 0) as [|_]; [lia|].
  assert (Ek : forall D, tr n D (kin k) = tr n D (sa_T s) + INR (k * (k + 1)) * tr n D (sa_Tl s)).
  { intros D. unfold kin. now rewrite tr_add_r, tr_scal_r. }
  assert (EU : forall B, B = A k -> cube_set (upto k A) k B = upto (S k) A).
  { intros B ->. fext. rename x into l. unfold cube_set, upto. destruct (Nat.eqb_spec l k) as [->|Nl].
    - destruct (Nat.ltb_spec k (S k)); [reflexivity|lia].
    - destruct (Nat.ltb_spec l k); destruct (Nat.ltb_spec l (S k)); try reflexivity; lia. }
  fold (block_P s b). rewrite <- HA.
  destruct (all_zero (b_m b) (b_occ b)) eqn:Ez.
  - rewrite all_zero_spec in Ez. assert (EA : A k = mzero) by (rewrite HA; apply density_zero; exact Ez).
    rewrite EA, tr_zero. do 2 f_equal; [|ring]. f_equal.
    + fext. unfold madd, mzero. ring.
    + fext. rename x into l. unfold upto. destruct (Nat.ltb_spec l k); destruct (Nat.ltb_spec l (S k)); try reflexivity; try lia.
      assert (l = k) by lia. subst. now rewrite EA.
  - rewrite EU by reflexivity. do 2 f_equal. rewrite Ek. destruct (Nat.ltb_spec 0 k).
    + ring.
    + assert (k = 0%nat) by lia. subst. cbn [Nat.mul]. change (INR 0) with 0. ring.
Qed.

Definition dens (off : nat) (blk : nat -> block) : cube := fun l => block_P s (blk (off + l)%nat).

Lemma fold_restricted blk k : (forall l, (l < k)%nat -> (0 < b_m (blk l))%nat) ->
  fold_res (fun acc l => accumulate_density s acc l (blk l)) (seq 0 k) (mzero, czero, 0) =
  Ok (csum k (dens 0 blk), upto k (dens 0 blk), sum k (fun l => tr n (dens 0 blk l) (kin l))).
Proof.
  induction k; intros H.
  - cbn [seq fold_res sum]. unfold csum, upto, czero. cbn [sum]. do 3 f_equal.
  - rewrite seq_S, fold_res_app, IHk by (intros; apply H; lia). cbn [bind fold_res plus].
    rewrite accumulate_ok; [|apply H; lia|reflexivity]. cbn [bind sum]. reflexivity.
Qed.

Lemma fold_unrestricted blk k : (forall l, (l < k)%nat -> (0 < b_m (blk l))%nat /\ (0 < b_m (blk (nb + l)%nat))%nat) ->
  fold_res (fun st l =>
      let '(Pa, Pal, Pb, Pbl, E) := st in
      bind (accumulate_density s (Pa, Pal, E) l (blk l)) (fun x =>
      let '(Pa', Pal', E') := x in
      bind (accumulate_density s (Pb, Pbl, E') l (blk (nb + l)%nat)) (fun y =>
      let '(Pb', Pbl', E'') := y in Ok (Pa', Pal', Pb', Pbl', E''))))
    (seq 0 k) (mzero, czero, mzero, czero, 0) =
  Ok (csum k (dens 0 blk), upto k (dens 0 blk), csum k (dens nb blk), upto k (dens nb blk),
      sum k (fun l => tr n (dens 0 blk l) (kin l) + tr n (dens nb blk l) (kin l))).
Proof.
  induction k; intros H.
  - cbn [seq fold_res sum]. unfold csum, upto, czero. cbn [sum]. do 5 f_equal.
  - rewrite seq_S, fold_res_app, IHk by (intros; apply H; lia). cbn [bind fold_res plus].
    destruct (H k ltac:(lia)) as [H1 H2].
    rewrite (accumulate_ok k (dens 0 blk)); [|auto|reflexivity]. cbn [bind].
    rewrite (accumulate_ok k (dens nb blk)); [|auto|reflexivity]. cbn [bind sum]. do 2 f_equal. ring.
Qed.

Lemma exchange_energy_sum K P : exchange_energy s K P = / 2 * ctr nb n K P.
Proof.
  unfold exchange_energy, ctr. enough (H : forall k, fold_left (fun E l => E + / 2 * tr n (K l) (P l)) (seq 0 k) 0 =
    / 2 * sum k (fun l => tr n (K l) (P l))) by apply H.
  induction k; [cbn; ring|]. rewrite seq_S, fold_left_app, IHk. cbn [fold_left plus sum]. ring.
Qed.

(** One-electron matrix of an l. *)
Definition confm : mat := match sa_conf s with Some V => V | None => mzero end.
Definition ham (l : nat) : mat := madd (madd (kin l) (sa_Vnuc s)) confm.
Lemma tr_csum k A F : tr n (csum k A) F = sum k (fun l => tr n (A l) F).
Proof.
  induction k; cbn [sum]; [apply tr_zero|]. rewrite <- IHk, <- tr_add. reflexivity.
Qed.
Lemma one_electron k A : sum k (fun l => tr n (A l) (kin l)) + tr n (csum k A) (sa_Vnuc s) +
   match sa_conf s with Some V => tr n (csum k A) V | None => 0 end = sum k (fun l => tr n (A l) (ham l)).
Proof.
  unfold ham, confm. rewrite tr_csum. destruct (sa_conf s) as [V|].
  - rewrite tr_csum, <- !sum_plus. apply sum_ext. intros. now rewrite !tr_add_r.
  - rewrite Rplus_0_r, <- sum_plus. apply sum_ext. intros. rewrite !tr_add_r, (tr_comm _ _ mzero), tr_zero. ring.
Qed.

(** The builder without the bookkeeping. *)
Definition coul (P : mat) : mat := sa_coulomb s (fun a b => P a b / angfac).
Definition Kof (fac : nat -> R) (P : cube) : cube := if have_exx s then hf_exchange s fac P else czero.
Definition facr (l : nat) : R := 2 * INR (2 * l + 1).
Definition facu (l : nat) : R := INR (2 * l + 1).
Definition xc1 (P : cube) : R * cube :=
  if sa_have_xc s then let r := sa_xc1 s (divided_cube P (fun _ => angfac)) in (fst r, divided_cube (snd r) (fun _ => angfac)) else (0, czero).
Definition xc2 (beta : bool) (Pa Pb : cube) : R * (cube * cube) :=
  if sa_have_xc s then let r := sa_xc2 s beta (divided_cube Pa (fun _ => angfac)) (divided_cube Pb (fun _ => angfac)) in
    (fst r, (divided_cube (fst (snd r)) (fun _ => angfac), if beta then divided_cube (snd (snd r)) (fun _ => angfac) else czero)) else (0, (czero, czero)).
Definition sandw (F : mat) : mat := mmul n (mmul n (mT (sa_X s)) F) (sa_X s).
Definition fao (J : mat) (XC K : cube) (l : nat) : mat := madd (madd (madd (ham l) J) (XC l)) (K l).

Definition Er (P : cube) : R :=
  sum nb (fun l => tr n (P l) (ham l)) + / 2 * tr n (csum nb P) (coul (csum nb P)) + fst (xc1 P) + / 2 * ctr nb n (Kof facr P) P.
Definition Fr (P : cube) (l : nat) : mat := sandw (fao (coul (csum nb P)) (snd (xc1 P)) (Kof facr P) l).
Definition Eu (beta : bool) (Pa Pb : cube) : R :=
  sum nb (fun l => tr n (Pa l) (ham l) + tr n (Pb l) (ham l)) +
  / 2 * tr n (madd (csum nb Pa) (csum nb Pb)) (coul (madd (csum nb Pa) (csum nb Pb))) + fst (xc2 beta Pa Pb) +
  / 2 * (ctr nb n (Kof facu Pa) Pa + ctr nb n (Kof facu Pb) Pb).
Definition Fu (beta : bool) (Pa Pb : cube) (k : nat) : mat :=
  let J := coul (madd (csum nb Pa) (csum nb Pb)) in
  if Nat.ltb k nb then sandw (fao J (fst (snd (xc2 beta Pa Pb))) (Kof facu Pa) k)
  else sandw (fao J (snd (snd (xc2 beta Pa Pb))) (if beta then Kof facu Pb else czero) (k - nb)).

Lemma block_fock J l XC K bx bk : (bx = false -> XC l = mzero) -> (bk = false -> K l = mzero) ->
  build_fock_block s J l XC bx K bk = sandw (fao J XC K l).
Proof.
  intros Hx Hk. unfold build_fock_block, sandw. do 2 f_equal. unfold fao, ham, kin, confm.
  assert (EL : l = 0%nat -> mscal (INR (l * (l + 1))) (sa_Tl s) = mzero).
  { intros ->. fext. unfold mscal, mzero. cbn [Nat.mul]. change (INR 0) with 0. ring. }
  destruct (Nat.ltb_spec 0 l) as [L|L]; [|rewrite EL by lia]; destruct (sa_conf s) as [V|];
  destruct bx; rewrite ?Hx by reflexivity; destruct bk; rewrite ?Hk by reflexivity; fext; unfold madd, mzero; ring.
Qed.

Lemma Kof_off fac P : have_exx s = false -> forall l, Kof fac P l = mzero.
Proof. intros H l. unfold Kof. now rewrite H. Qed.

Lemma exchange_part fac P : (if have_exx s then exchange_energy s (Kof fac P) P else 0) = / 2 * ctr nb n (Kof fac P) P.
Proof.
  destruct (have_exx s) eqn:E; [apply exchange_energy_sum|]. unfold ctr. rewrite sum_zero'; [ring|].
  intros. rewrite Kof_off by auto. apply tr_zero.
Qed.

Definition densr (blk : nat -> block) : cube := upto nb (dens 0 blk).
Definition densb (blk : nat -> block) : cube := upto nb (dens nb blk).
Lemma upto_csum A : csum nb (upto nb A) = csum nb A.
Proof. fext. unfold csum, upto. apply sum_ext. intros i Hi. destruct (Nat.ltb_spec i nb); [reflexivity|lia]. Qed.
Lemma upto_sum (f : mat -> nat -> R) A : sum nb (fun l => f (upto nb A l) l) = sum nb (fun l => f (A l) l).
Proof. apply sum_ext. intros i Hi. unfold upto. destruct (Nat.ltb_spec i nb); [reflexivity|lia]. Qed.

Lemma build_restricted_eval blk : (forall l, (l < nb)%nat -> (0 < b_m (blk l))%nat) ->
  build_restricted s blk = Ok (Er (densr blk), fun l => Fr (densr blk) l).
Proof.
  intros H. unfold build_restricted. rewrite fold_restricted by auto. cbn [bind].
  set (P := densr blk). change (upto nb (dens 0 blk)) with P.
  assert (EP : csum nb (dens 0 blk) = csum nb P) by (symmetry; apply upto_csum).
  assert (EX : (if sa_have_xc s then
      let '(E, V) := sa_xc1 s (divided_cube P (fun _ => angfac)) in (E, divided_cube V (fun _ => angfac))
    else (0, czero)) = xc1 P).
  { unfold xc1. destruct (sa_have_xc s); auto. destruct (sa_xc1 s (divided_cube P (fun _ => angfac))); reflexivity. }
  rewrite EX. destruct (xc1 P) as [Exc XC] eqn:EXc. unfold potential_energy.
  change (if have_exx s then hf_exchange s (fun l => 2 * INR (2 * l + 1)) P else czero) with (Kof facr P).
  rewrite exchange_part. rewrite EP. change (sa_coulomb s (fun a b => csum nb P a b / angfac)) with (coul (csum nb P)).
  do 2 f_equal.
  - unfold Er. rewrite EXc. cbn [fst]. rewrite <- one_electron.
    rewrite <- (upto_sum (fun A l => tr n A (kin l)) (dens 0 blk)). change (upto nb (dens 0 blk)) with P. ring.
  - apply functional_extensionality; intros l. unfold Fr. rewrite EXc. cbn [snd].
    rewrite block_fock; [reflexivity| |intros; apply Kof_off; auto].
    intros Hx. unfold xc1 in EXc. rewrite Hx in EXc. injection EXc as _ <-. reflexivity.
Qed.

Lemma build_unrestricted_eval blk : (forall l, (l < nb)%nat -> (0 < b_m (blk l))%nat /\ (0 < b_m (blk (nb + l)%nat))%nat) ->
  build_unrestricted s blk = Ok (Eu (Nat.ltb 0 (sa_nelb s)) (densr blk) (densb blk), fun k => Fu (Nat.ltb 0 (sa_nelb s)) (densr blk) (densb blk) k).
Proof.
  intros H. unfold build_unrestricted. rewrite fold_unrestricted by auto. cbn [bind]. set (beta := Nat.ltb 0 (sa_nelb s)).
  set (Pa := densr blk). set (Pb := densb blk). change (upto nb (dens 0 blk)) with Pa. change (upto nb (dens nb blk)) with Pb.
  assert (EPa : csum nb (dens 0 blk) = csum nb Pa) by (symmetry; apply upto_csum).
  assert (EPb : csum nb (dens nb blk) = csum nb Pb) by (symmetry; apply upto_csum).
  rewrite EPa, EPb.
  set (X := if sa_have_xc s then
      let '(E, (Va, Vb)) := sa_xc2 s beta (divided_cube Pa (fun _ => angfac)) (divided_cube Pb (fun _ => angfac)) in
      (E, divided_cube Va (fun _ => angfac), if beta then divided_cube Vb (fun _ => angfac) else Vb)
    else (0, czero, czero)).
  assert (EX : fst (fst X) = fst (xc2 beta Pa Pb) /\ snd (fst X) = fst (snd (xc2 beta Pa Pb)) /\ (sa_have_xc s && beta = true -> snd X = snd (snd (xc2 beta Pa Pb)))%bool).
  { unfold X, xc2. destruct (sa_have_xc s); [|auto].
    destruct (sa_xc2 s beta (divided_cube Pa (fun _ => angfac)) (divided_cube Pb (fun _ => angfac))) as [E [Va Vb]]. cbn [fst snd].
    destruct beta; auto. repeat split. discriminate. }
  clearbody X. destruct X as [[Exc XCa] XCb]. cbn [fst snd] in EX. destruct EX as (EX1 & EX2 & EX3).
  unfold potential_energy.
  change (if have_exx s then hf_exchange s (fun l => INR (2 * l + 1)) Pa else czero) with (Kof facu Pa).
  change (if have_exx s then hf_exchange s (fun l => INR (2 * l + 1)) Pb else czero) with (Kof facu Pb).
  change (sa_coulomb s (fun a b => madd (csum nb Pa) (csum nb Pb) a b / angfac)) with (coul (madd (csum nb Pa) (csum nb Pb))).
  set (J := coul (madd (csum nb Pa) (csum nb Pb))).
  do 2 f_equal.
  - unfold Eu. rewrite EX1.
    assert (EK : (if have_exx s then exchange_energy s (Kof facu Pa) Pa + exchange_energy s (Kof facu Pb) Pb else 0) =
      / 2 * (ctr nb n (Kof facu Pa) Pa + ctr nb n (Kof facu Pb) Pb)).
    { rewrite Rmult_plus_distr_l, <- !exchange_part. destruct (have_exx s); ring. }
    rewrite EK. rewrite !(sum_plus nb). fold J.
    rewrite <- !one_electron, <- (upto_sum (fun A l => tr n A (kin l)) (dens 0 blk)), <- (upto_sum (fun A l => tr n A (kin l)) (dens nb blk)).
    change (upto nb (dens 0 blk)) with Pa. change (upto nb (dens nb blk)) with Pb.
    rewrite !tr_add. destruct (sa_conf s) as [V|]; rewrite ?tr_add; ring.
  - apply functional_extensionality; intros k. unfold Fu. fold J.
    destruct (Nat.ltb k nb).
    + rewrite block_fock; [rewrite EX2; reflexivity| |intros; apply Kof_off; auto].
      intros Hx. rewrite EX2. unfold xc2. now rewrite Hx.
    + assert (EB : build_fock_block s J (k - nb) XCb (sa_have_xc s && beta) (Kof facu Pb) (have_exx s && beta) =
        build_fock_block s J (k - nb) (snd (snd (xc2 beta Pa Pb))) (sa_have_xc s && beta) (if beta then Kof facu Pb else czero) (have_exx s && beta)).
      { unfold build_fock_block. destruct (sa_have_xc s && beta)%bool eqn:B1; [rewrite EX3 by auto|]; destruct beta; rewrite ?andb_false_r; try reflexivity. }
      rewrite EB. rewrite block_fock; [reflexivity| |].
      * intros Hx. unfold xc2. destruct (sa_have_xc s); auto. cbn [andb] in Hx. rewrite Hx. reflexivity.
      * intros Hk. destruct beta; auto. rewrite andb_true_r in Hk. now apply Kof_off.
Qed.
End Eval.
