Require Import Reals String ZArith List Bool Lia Lra ZifyBool Permutation Arith.
Require Import Verif.Prelude Verif.AngModel Verif.AngSpec Verif.AngProofs Verif.ElModel Verif.ElSpec.
Import ListNotations.
Local Open Scope Z_scope.

Lemma ck_ok z : - 2 ^ 31 <= z <= 2 ^ 31 - 1 -> ck z = Ok z.
Proof. intros H. unfold ck, int_ok. now replace _ with true by lia. Qed.
Lemma ck_inv z y : ck z = Ok y -> y = z.
Proof. unfold ck. destruct (int_ok z); congruence. Qed.

Lemma quot2 n : n = 2 * Z.quot n 2 + Z.rem n 2 /\ (0 <= n -> 0 <= Z.rem n 2 < 2) /\ (n <= 0 -> -2 < Z.rem n 2 <= 0).
Proof.
  split; [apply Z.quot_rem'|]. split; intros H.
  - apply Z.rem_bound_pos; lia.
  - assert (R : Z.rem n 2 = - Z.rem (- n) 2) by (rewrite Z.rem_opp_l by lia; lia).
    pose proof (Z.rem_bound_pos (- n) 2). lia.
Qed.

Ltac arith_quot :=
  repeat match goal with
  | |- context [Z.quot ?n 2] => let q := fresh "q" in let r := fresh "r" in
      destruct (quot2 n) as (? & ? & ?); set (q := Z.quot n 2) in *; set (r := Z.rem n 2) in *; clearbody q r
  | H : context [Z.quot ?n 2] |- _ => let q := fresh "q" in let r := fresh "r" in
      destruct (quot2 n) as (? & ? & ?); set (q := Z.quot n 2) in *; set (r := Z.rem n 2) in *; clearbody q r
  | H : context [Z.rem ?n 2] |- _ => let r := fresh "r" in let q := fresh "q" in
      destruct (quot2 n) as (? & ? & ?); set (r := Z.rem n 2) in *; set (q := Z.quot n 2) in *; clearbody q r
  end.

(** Whatever the integers, a normal return is consistent. *)
Lemma parse_sound c Zn c' : parse_nela_nelb c Zn = Ok c' ->
  state_of Zn (c_Q c') (c_M c') (c_a c') (c_b c') /\ 1 <= c_M c' /\
  ((c_a c = 0 /\ c_b c = 0) -> c_Q c' = c_Q c /\ c_M c' = c_M c /\ 0 <= c_b c' <= c_a c') /\
  (~ (c_a c = 0 /\ c_b c = 0) -> c_a c' = c_a c /\ c_b c' = c_b c /\ c_b c' <= c_a c').
Proof.
  unfold parse_nela_nelb, state_of. destruct ((c_a c =? 0) && (c_b c =? 0)) eqn:G0.
  - destruct (ck (Zn - c_Q c)) as [nel| | |] eqn:E1; try discriminate. apply ck_inv in E1. cbn [bind].
    destruct (c_M c <? 1) eqn:GM; try discriminate.
    destruct (quot2 nel) as (Q1 & Q2 & Q3). destruct (quot2 (c_M c)) as (M1 & M2 & M3).
    destruct ((Z.rem nel 2 =? 0) && negb (Z.rem (c_M c) 2 =? 1)) eqn:G1; try discriminate.
    destruct ((Z.rem nel 2 =? 1) && negb (Z.rem (c_M c) 2 =? 0)) eqn:G2; try discriminate.
    destruct (Z.rem nel 2 =? 0) eqn:G3.
    + destruct (ck (c_M c - 1)) as [m1| | |] eqn:E2; try discriminate. apply ck_inv in E2. cbn [bind].
      destruct (ck _) as [na| | |] eqn:E3; try discriminate. apply ck_inv in E3. cbn [bind].
      destruct (ck (nel - na)) as [nb| | |] eqn:E4; try discriminate. apply ck_inv in E4. cbn [bind].
      destruct (na <? 0) eqn:G4; try discriminate. destruct (nb <? 0) eqn:G5; try discriminate.
      intros E. injection E as <-. cbn [c_a c_b c_Q c_M].
      destruct (quot2 m1) as (P1 & P2 & P3).
      assert (m1 = 2 * Z.quot m1 2) by lia. lia.
    + destruct (ck _) as [na| | |] eqn:E3; try discriminate. apply ck_inv in E3. cbn [bind].
      destruct (ck (nel - na)) as [nb| | |] eqn:E4; try discriminate. apply ck_inv in E4. cbn [bind].
      destruct (na <? 0) eqn:G4; try discriminate. destruct (nb <? 0) eqn:G5; try discriminate.
      intros E. injection E as <-. cbn [c_a c_b c_Q c_M]. lia.
  - destruct (ck (Zn - c_a c)) as [q1| | |] eqn:E1; try discriminate. apply ck_inv in E1. cbn [bind].
    destruct (ck (q1 - c_b c)) as [q2| | |] eqn:E2; try discriminate. apply ck_inv in E2. cbn [bind].
    destruct (ck (1 + c_a c)) as [m1| | |] eqn:E3; try discriminate. apply ck_inv in E3. cbn [bind].
    destruct (ck (m1 - c_b c)) as [m2| | |] eqn:E4; try discriminate. apply ck_inv in E4. cbn [bind].
    destruct (m2 <? 1) eqn:G; try discriminate. intros E. injection E as <-. cbn [c_a c_b c_Q c_M]. lia.
Qed.

(** The decision table. *)
Lemma parse_charge Q M Zn : small Q -> small M -> small Zn ->
  (forall a b, parse_nela_nelb (mkCounts 0 0 Q M) Zn = Ok (mkCounts a b Q M) <->
     state_of Zn Q M a b /\ 1 <= M /\ 0 <= b) /\
  ((forall a b, ~ (state_of Zn Q M a b /\ 1 <= M /\ 0 <= b)) ->
     parse_nela_nelb (mkCounts 0 0 Q M) Zn = Throw RuntimeError).
Proof.
  unfold small. intros HQ HM HZ.
  assert (D : (exists a b, parse_nela_nelb (mkCounts 0 0 Q M) Zn = Ok (mkCounts a b Q M)) \/
     (parse_nela_nelb (mkCounts 0 0 Q M) Zn = Throw RuntimeError /\
      forall a b, ~ (state_of Zn Q M a b /\ 1 <= M /\ 0 <= b))).
  { unfold parse_nela_nelb, state_of. cbn [c_a c_b c_Q c_M Z.eqb andb].
    rewrite ck_ok by lia. cbn [bind]. destruct (M <? 1) eqn:GM.
    { right. split; [reflexivity|]. intros; lia. }
    destruct (quot2 (Zn - Q)) as (Q1 & Q2 & Q3). destruct (quot2 M) as (M1 & M2 & M3).
    destruct ((Z.rem (Zn - Q) 2 =? 0) && negb (Z.rem M 2 =? 1)) eqn:G1.
    { right. split; [reflexivity|]. intros; lia. }
    destruct ((Z.rem (Zn - Q) 2 =? 1) && negb (Z.rem M 2 =? 0)) eqn:G2.
    { right. split; [reflexivity|]. intros; lia. }
    destruct (quot2 (M - 1)) as (P1 & P2 & P3).
    destruct (Z.rem (Zn - Q) 2 =? 0) eqn:G3.
    - rewrite ck_ok by lia. cbn [bind]. rewrite ck_ok by lia. cbn [bind]. rewrite ck_ok by lia. cbn [bind].
      destruct (Z.quot (Zn - Q) 2 + Z.quot (M - 1) 2 <? 0) eqn:G4; [right; split; [reflexivity|intros; lia]|].
      destruct (Zn - Q - _ <? 0) eqn:G5; [right; split; [reflexivity|intros; lia]|].
      left. eexists _, _. reflexivity.
    - rewrite ck_ok by lia. cbn [bind]. rewrite ck_ok by lia. cbn [bind].
      destruct (Z.quot (Zn - Q) 2 + Z.quot M 2 <? 0) eqn:G4; [right; split; [reflexivity|intros; lia]|].
      destruct (Zn - Q - _ <? 0) eqn:G5; [right; split; [reflexivity|intros; lia]|].
      left. eexists _, _. reflexivity. }
  destruct D as [(a0 & b0 & E)|[E H]].
  - pose proof (parse_sound _ _ _ E) as (S1 & S2 & S3 & _). unfold state_of in *. cbn [c_a c_b c_Q c_M] in *.
    split.
    + intros a b. split.
      * intros E'. rewrite E in E'. injection E' as <- <-. lia.
      * intros (H1 & H2 & H3). rewrite E. f_equal. f_equal; lia.
    + intros H. exfalso. apply (H a0 b0). lia.
  - split; [|auto]. intros a b. split; [congruence|]. intros H'. now apply H in H'.
Qed.

Lemma parse_explicit a b Q M Zn : small a -> small b -> small Zn -> ~ (a = 0 /\ b = 0) ->
  parse_nela_nelb (mkCounts a b Q M) Zn =
  if b <=? a then Ok (mkCounts a b (Zn - a - b) (1 + a - b)) else Throw RuntimeError.
Proof.
  unfold small, parse_nela_nelb. cbn [c_a c_b c_Q c_M]. intros Ha Hb HZ H.
  replace ((a =? 0) && (b =? 0)) with false by lia.
  repeat (rewrite ck_ok by lia; cbn [bind]).
  replace (1 + a - b <? 1) with (negb (b <=? a)) by lia. now destruct (b <=? a).
Qed.

Lemma parse_negative : parse_nela_nelb (mkCounts (-1) (-1) 0 1) 2 = Ok (mkCounts (-1) (-1) 4 1).
Proof. reflexivity. Qed.

(** derive_nela_nelb_restricted *)
Lemma derive_sound c restr Zt s : derive_nela_nelb_restricted c restr Zt = Ok s ->
  s_Ntot s = s_a s + s_b s /\ s_b s <= s_a s /\
  ((c_a c = 0 /\ c_b c = 0) -> s_Ntot s = Zt - c_Q c /\ 0 <= s_b s /\
     (c_M c = 0 -> s_restricted s = true /\ 0 < s_Ntot s /\ s_a s - s_b s <= 1) /\
     (c_M c <> 0 -> s_a s - s_b s = c_M c - 1)) /\
  (~ (c_a c = 0 /\ c_b c = 0) -> s_a s = c_a c /\ s_b s = c_b c) /\
  (s_restricted s = true <-> (restr <> 0 /\ restr <> -1) \/ (restr = -1 /\ (s_a s = s_b s \/ (c_M c = 0 /\ c_a c = 0 /\ c_b c = 0)))) /\
  (s_restricted s = true <-> s_restr s <> 0).
Proof.
  unfold derive_nela_nelb_restricted. destruct ((c_M c =? 0) && (c_a c =? 0) && (c_b c =? 0)) eqn:G.
  - destruct (restr =? 0) eqn:Gr; try discriminate.
    destruct (ck (Zt - c_Q c)) as [nt| | |] eqn:E1; try discriminate. apply ck_inv in E1. cbn [bind].
    destruct (nt <=? 0) eqn:G1; try discriminate.
    destruct (ck (nt + 1)) as [n1| | |] eqn:E2; try discriminate. apply ck_inv in E2. cbn [bind].
    intros E. injection E as <-. cbn [s_a s_b s_restr s_restricted s_Ntot].
    destruct (quot2 n1) as (P1 & P2 & P3). destruct (quot2 nt) as (Q1 & Q2 & Q3).
    repeat split; try lia.
  - destruct (parse_nela_nelb c Zt) as [c'| | |] eqn:E1; try discriminate. cbn [bind].
    destruct (ck (c_a c' + c_b c')) as [nt| | |] eqn:E2; try discriminate. apply ck_inv in E2. cbn [bind].
    intros E. injection E as <-. cbn [s_a s_b s_restr s_restricted s_Ntot].
    destruct (parse_sound _ _ _ E1) as (S1 & S2 & S3 & S4). unfold state_of in *.
    destruct (restr =? -1) eqn:Gr; destruct (c_a c' =? c_b c') eqn:Gc; repeat split; try lia.
Qed.

Lemma derive_total c restr Zt : small_counts c -> small Zt ->
  (exists s, derive_nela_nelb_restricted c restr Zt = Ok s) \/
  derive_nela_nelb_restricted c restr Zt = Throw LogicError \/
  derive_nela_nelb_restricted c restr Zt = Throw RuntimeError.
Proof.
  unfold small_counts, small. intros (Ha & Hb & HQ & HM) HZ. unfold derive_nela_nelb_restricted.
  destruct ((c_M c =? 0) && (c_a c =? 0) && (c_b c =? 0)) eqn:G.
  - destruct (restr =? 0); [auto|]. rewrite ck_ok by lia. cbn [bind]. destruct (_ <=? 0); [auto|].
    rewrite ck_ok by lia. cbn [bind]. left. eauto.
  - assert (D : (exists c', parse_nela_nelb c Zt = Ok c') \/ parse_nela_nelb c Zt = Throw RuntimeError).
    { destruct c as [a b Q M]. cbn [c_a c_b c_Q c_M] in *.
      destruct (Z.eq_dec a 0) as [->|Na]; [destruct (Z.eq_dec b 0) as [->|Nb]|].
      - unfold parse_nela_nelb. cbn [c_a c_b c_Q c_M Z.eqb andb]. rewrite ck_ok by lia. cbn [bind].
        destruct (M <? 1) eqn:GM; [auto|].
        destruct (quot2 (Zt - Q)) as (Q1 & Q2 & Q3). destruct (quot2 M) as (M1 & M2 & M3).
        destruct ((Z.rem (Zt - Q) 2 =? 0) && negb (Z.rem M 2 =? 1)); [auto|].
        destruct ((Z.rem (Zt - Q) 2 =? 1) && negb (Z.rem M 2 =? 0)); [auto|].
        destruct (quot2 (M - 1)) as (P1 & P2 & P3).
        destruct (Z.rem (Zt - Q) 2 =? 0) eqn:G3.
        + rewrite ck_ok by lia. cbn [bind]. rewrite ck_ok by lia. cbn [bind]. rewrite ck_ok by lia. cbn [bind].
          destruct (_ <? 0); [auto|]. destruct (_ <? 0); [auto|]. left. eauto.
        + rewrite ck_ok by lia. cbn [bind]. rewrite ck_ok by lia. cbn [bind].
          destruct (_ <? 0); [auto|]. destruct (_ <? 0); [auto|]. left. eauto.
      - rewrite parse_explicit by (unfold small; lia). destruct (_ <=? _); eauto.
      - rewrite parse_explicit by (unfold small; lia). destruct (_ <=? _); eauto. }
    destruct D as [(c' & E)|E]; [|rewrite E; auto]. rewrite E. cbn [bind].
    destruct (parse_sound _ _ _ E) as (S1 & S2 & S3 & S4). unfold state_of in *.
    rewrite ck_ok by lia. cbn [bind]. eauto.
Qed.

(* ---------- metadata ---------- *)

Lemma nth_flat_blocks {A} (f : nat -> nat -> A) n m t k d : (t < n)%nat -> (k < m)%nat ->
  nth (t * m + k) (flat_map (fun t => map (f t) (seq 0 m)) (seq 0 n)) d = f t k.
Proof.
  intros Ht Hk.
  assert (G : forall n s t, (t < n)%nat -> nth (t * m + k) (flat_map (fun t => map (f t) (seq 0 m)) (seq s n)) d = f (s + t)%nat k).
  { clear t Ht n. induction n as [|n IH]; intros s t Ht; [lia|]. cbn [seq flat_map].
    destruct t as [|t].
    - rewrite app_nth1 by (rewrite map_length, seq_length; lia).
      cbn [Nat.mul Nat.add]. rewrite (nth_indep _ d (f s 0%nat)) by (rewrite map_length, seq_length; lia).
      rewrite (map_nth (f s) (seq 0 m) 0%nat). rewrite seq_nth by lia. f_equal; lia.
    - rewrite app_nth2 by (rewrite map_length, seq_length; cbn [Nat.mul]; lia).
      rewrite map_length, seq_length. replace (S t * m + k - m)%nat with (t * m + k)%nat by (cbn [Nat.mul]; lia).
      rewrite IH by lia. f_equal. lia. }
  rewrite (G n 0%nat t) by lia. reflexivity.
Qed.

Lemma flat_blocks_length {A} (f : nat -> nat -> A) n m s :
  length (flat_map (fun t => map (f t) (seq 0 m)) (seq s n)) = (n * m)%nat.
Proof.
  revert s. induction n; intros s; [reflexivity|]. cbn [seq flat_map]. rewrite app_length, map_length, seq_length, IHn. lia.
Qed.

Lemma metadata_ok nsym restricted Ntot nela nelb labels deg :
  length labels = nsym -> length deg = nsym -> Ntot = nela + nelb ->
  let np := nparttype_of restricted in
  exists m, build_ooo_block_metadata nsym np restricted Ntot nela nelb labels deg = Ok m /\
  md_blocks m = repeat nsym np /\
  length (md_maxocc m) = (np * nsym)%nat /\ length (md_desc m) = (np * nsym)%nat /\ length (md_particles m) = np /\
  (forall t k, (t < np)%nat -> (k < nsym)%nat ->
     nth (t * nsym + k) (md_maxocc m) 0%R = ((if restricted then 2 else 1) * IZR (nth k deg 0%Z))%R /\
     nth (t * nsym + k) (md_desc m) EmptyString =
       append (if restricted then "" else if Nat.eqb t 0 then "a:" else "b:")%string (nth k labels EmptyString)) /\
  (restricted = false -> md_particles m = [IZR nela; IZR nelb]) /\
  lsum (md_particles m) (fun x => x) = IZR (nela + nelb) /\
  (forall sizes, length sizes = nsym ->
     capacity m sizes np = (2 * sum nsym (fun k => IZR (nth k deg 0%Z) * INR (nth k sizes 0%nat)))%R).
Proof.
  intros Hl Hd HN np. unfold build_ooo_block_metadata. rewrite Hl, Hd, Nat.eqb_refl. cbn [negb].
  eexists. split; [reflexivity|]. cbn [md_blocks md_maxocc md_particles md_desc].
  split. { unfold np. destruct restricted; reflexivity. }
  split; [apply flat_blocks_length|]. split; [apply flat_blocks_length|]. split; [rewrite map_length, seq_length; reflexivity|].
  split.
  { intros t k Ht Hk. split.
    - exact (nth_flat_blocks (fun _ k => ((if restricted then 2 else 1) * IZR (nth k deg 0%Z))%R) np nsym t k 0%R Ht Hk).
    - etransitivity.
      + exact (nth_flat_blocks (fun t k => append (if Nat.eqb np 1 then "" else if Nat.eqb t 0 then "a:" else "b:")%string (nth k labels EmptyString)) np nsym t k EmptyString Ht Hk).
      + unfold np. destruct restricted; reflexivity. }
  split. { intros ->. reflexivity. }
  split. { unfold np. destruct restricted; cbn; rewrite ?HN, ?plus_IZR; lra. }
  intros sizes Hs. unfold capacity. cbn [md_maxocc]. rewrite Hs.
  assert (E : forall t, (t < np)%nat -> sum nsym (fun k =>
     (nth (t * nsym + k) (flat_map (fun _ => map (fun k => ((if restricted then 2 else 1) * IZR (nth k deg 0%Z))%R) (seq 0 nsym)) (seq 0 np)) 0 * INR (nth k sizes 0%nat))%R)
     = ((if restricted then 2 else 1) * sum nsym (fun k => IZR (nth k deg 0%Z) * INR (nth k sizes 0%nat)))%R).
  { intros t Ht. rewrite <- sum_scal. apply sum_ext. intros k Hk.
    rewrite (nth_flat_blocks (fun _ k => ((if restricted then 2 else 1) * IZR (nth k deg 0%Z))%R) np nsym t k 0%R Ht Hk). ring. }
  rewrite (sum_ext np _ (fun _ => ((if restricted then 2 else 1) * sum nsym (fun k => IZR (nth k deg 0%Z) * INR (nth k sizes 0%nat)))%R))
    by (intros t Ht; apply E; exact Ht).
  unfold np. destruct restricted; cbn; ring.
Qed.

Lemma metadata_mismatch nsym np restricted Ntot nela nelb labels deg :
  length labels <> nsym \/ length deg <> nsym ->
  build_ooo_block_metadata nsym np restricted Ntot nela nelb labels deg = Throw LogicError.
Proof.
  intros H. unfold build_ooo_block_metadata. destruct (Nat.eqb_spec (length deg) nsym); [|reflexivity].
  destruct (Nat.eqb_spec (length labels) nsym); [|reflexivity]. cbn. intuition.
Qed.

(** Blocks with mirrors: the weighted sizes are the number of basis functions. *)
Lemma mirrored_sizes (blocks mirrors : list (list nat)) N :
  Permutation (concat blocks ++ concat mirrors) (seq 0 N) -> length mirrors = length blocks ->
  (forall k, (k < length blocks)%nat -> nth k mirrors [] = [] \/ length (nth k mirrors []) = length (nth k blocks [])) ->
  sum (length blocks) (fun k => (IZR (nth k (diatomic_degeneracy mirrors) 0%Z) * INR (nth k (map (@length nat) blocks) 0%nat))%R) = INR N.
Proof.
  intros HP HL Hm. apply Permutation_length in HP. rewrite app_length, seq_length in HP. rewrite <- HP. clear HP N.
  revert mirrors HL Hm. induction blocks as [|b blocks IH]; intros mirrors HL Hm.
  - destruct mirrors; [|discriminate]. reflexivity.
  - destruct mirrors as [|m mirrors]; [discriminate|]. injection HL as HL. cbn [length]. rewrite sum_shift.
    cbn [diatomic_degeneracy map nth concat]. rewrite !app_length.
    specialize (IH mirrors HL (fun k Hk => Hm (S k) (proj1 (Nat.succ_lt_mono _ _) Hk))).
    unfold diatomic_degeneracy in IH. rewrite IH.
    specialize (Hm 0%nat (Nat.lt_0_succ _)). cbn [nth] in Hm.
    rewrite !plus_INR. destruct Hm as [->|Hm]; [cbn; lra|].
    destruct m as [|x m']; [cbn in *; rewrite <- Hm; cbn; lra|]. rewrite Hm. lra.
Qed.

Lemma Forall2_len {A B} (R : A -> B -> Prop) l l' : Forall2 R l l' -> length l = length l'.
Proof. induction 1; cbn; congruence. Qed.

Lemma absm_capacity sh Nrad restricted Ntot nela nelb labels :
  sh <> [] -> (1 <= Nrad)%nat -> mirrored sh -> Ntot = nela + nelb ->
  exists blocks mirrors, di_get_sym_idx sh Nrad 3 = Ok blocks /\ di_get_sym_mirror_idx sh Nrad 3 = Ok mirrors /\
  (length labels = length blocks ->
   exists m, build_ooo_block_metadata (length blocks) (nparttype_of restricted) restricted Ntot nela nelb labels
     (diatomic_degeneracy mirrors) = Ok m /\
   capacity m (map (@length nat) blocks) (nparttype_of restricted) = (2 * INR (length (pure_functions sh Nrad)))%R).
Proof.
  intros Hsh HN Hm HT. destruct (diatomic_blocks3 sh Nrad Hsh HN) as (mm & blocks & mirrors & _ & E1 & E2 & _ & HP & _ & F1 & F2 & F3).
  exists blocks, mirrors. split; [exact E1|]. split; [exact E2|]. intros HL.
  assert (L1 : length mirrors = length blocks) by (rewrite <- (Forall2_len _ _ _ F1), <- (Forall2_len _ _ _ F2); reflexivity).
  assert (L2 : length (diatomic_degeneracy mirrors) = length blocks) by (unfold diatomic_degeneracy; rewrite map_length; exact L1).
  destruct (metadata_ok (length blocks) restricted Ntot nela nelb labels _ HL L2 HT) as (m & Em & _ & _ & _ & _ & _ & _ & _ & HC).
  exists m. split; [exact Em|]. rewrite HC by apply map_length. f_equal.
  apply mirrored_sizes; auto. intros k Hk. specialize (F3 Hm).
  assert (HF : forall k d, (k < length blocks)%nat -> nth k (zrange 0 mm) d = 0 \/
     length (nth k mirrors []) = length (nth k blocks [])).
  { intros k0 d Hk0. destruct (Z.eq_dec (nth k0 (zrange 0 mm) d) 0) as [|Hne]; [auto|]. right.
    assert (E : forall l c, Forall2 (fun a bm => a <> 0 ->
        map (fun g => let f := fnth (pure_functions sh Nrad) g in (bf_l f, bf_k f)) (fst bm) =
        map (fun g => let f := fnth (pure_functions sh Nrad) g in (bf_l f, bf_k f)) (snd bm)) l c ->
        forall k1, (k1 < length c)%nat -> nth k1 l d <> 0 -> length (fst (nth k1 c ([],[]))) = length (snd (nth k1 c ([],[])))).
    { induction 1 as [|x y l c H H' IH]; intros k1 Hk1 Hd; [cbn in Hk1; lia|]. destruct k1.
      - cbn in *. specialize (H Hd). apply (f_equal (@length _)) in H. now rewrite !map_length in H.
      - cbn in *. apply IH; [lia|exact Hd]. }
    specialize (E _ _ F3 k0). rewrite combine_length, L1, Nat.min_id in E. specialize (E Hk0 Hne).
    rewrite combine_nth in E by auto. cbn in E. auto. }
  destruct (HF k 0 Hk) as [H0|H0]; [|auto]. left.
  assert (Lz : (k < length (zrange 0 mm))%nat) by (rewrite (Forall2_len _ _ _ F1); exact Hk).
  assert (In0 : forall l c, Forall2 (fun a b => forall g, In g b <->
       (g < length (pure_functions sh Nrad))%nat /\ a <> 0 /\ bf_m (fnth (pure_functions sh Nrad) g) = - a) l c ->
       forall k1, (k1 < length l)%nat -> nth k1 l 0 = 0 -> nth k1 c [] = []).
  { induction 1 as [|x y l c H H' IH]; intros k1 Hk1 Hd; [cbn in Hk1; lia|]. destruct k1.
    - cbn in *. destruct y as [|g y]; [reflexivity|]. exfalso. destruct (proj1 (H g) (or_introl eq_refl)) as (_ & Hx & _). lia.
    - cbn in *. apply IH; [lia|exact Hd]. }
  exact (In0 _ _ F2 k Lz H0).
Qed.

Lemma parse_examples :
  parse_nela_nelb (mkCounts 0 0 0 3) 8 = Ok (mkCounts 5 3 0 3) /\
  parse_nela_nelb (mkCounts 0 0 1 2) 8 = Ok (mkCounts 4 3 1 2) /\
  parse_nela_nelb (mkCounts 0 0 0 2) 8 = Throw RuntimeError /\
  parse_nela_nelb (mkCounts 2 1 0 0) 4 = Ok (mkCounts 2 1 1 2) /\
  derive_nela_nelb_restricted (mkCounts 0 0 0 0) (-1) 7 = Ok (mkSpins 4 3 1 true 7) /\
  derive_nela_nelb_restricted (mkCounts 0 0 0 2) (-1) 7 = Ok (mkSpins 4 3 0 false 7) /\
  derive_nela_nelb_restricted (mkCounts 0 0 0 0) 0 7 = Throw LogicError.
Proof. repeat split. Qed.
Lemma capacity_example : lm_to_l_m [1; 1] <> [] /\ mirrored (lm_to_l_m [1; 1]) /\
  di_get_sym_idx (lm_to_l_m [1; 1]) 3 3 = Ok [[0; 1; 2; 3; 4; 5]; [6; 7]]%nat /\
  di_get_sym_mirror_idx (lm_to_l_m [1; 1]) 3 3 = Ok [[]; [8; 9]]%nat.
Proof. split; [discriminate|]. split; [apply lm_to_l_m_mirrored|]. split; reflexivity. Qed.
