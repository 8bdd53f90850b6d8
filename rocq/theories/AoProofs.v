(** Proofs about the files of the jellium program. *)
Require Import String Reals ZArith List Bool Arith Lia Lra Sorted.
Require Import Verif.Prelude Verif.AngModel Verif.AijModel Verif.AijSpec Verif.AijProofs Verif.AoModel Verif.AoSpec.
Import ListNotations.
Open Scope R_scope.

(* ---------- Fock matrices ---------- *)

Lemma read_numbers_ok l : forall s, read_numbers (length l) (l ++ s) = Ok (l, s).
Proof. induction l as [|x l IH]; intros s; [reflexivity|]. cbn [length app read_numbers]. rewrite IH. reflexivity. Qed.

Lemma read_numbers_short n : forall s, (length s < n)%nat -> read_numbers n s = Throw RuntimeError.
Proof.
  induction n as [|n IH]; intros s H; [lia|]. destruct s as [|x s]; [reflexivity|]. cbn [read_numbers length] in *. rewrite IH by lia. reflexivity.
Qed.

Lemma read_numbers_len n : forall s, (n <= length s)%nat -> exists a b, read_numbers n s = Ok (a, b) /\ length s = (n + length b)%nat.
Proof.
  induction n as [|n IH]; intros s H; [exists [], s; split; reflexivity|]. destruct s as [|x s]; [cbn in H; lia|]. cbn [read_numbers length] in *.
  destruct (IH s) as (a & b & E & L); [lia|]. rewrite E. cbn [bind fst snd]. exists (x :: a), b. split; [reflexivity | lia].
Qed.

Lemma read_rows_ok rows nc : (forall r, In r rows -> length r = nc) -> forall s, read_rows (length rows) nc (concat rows ++ s) = Ok (rows, s).
Proof.
  induction rows as [|r rows IH]; intros H s; [reflexivity|]. cbn [length concat read_rows]. rewrite <- app_assoc.
  rewrite <- (H r) at 1 by (left; reflexivity). rewrite read_numbers_ok. cbn [bind fst snd]. rewrite IH by (intros; apply H; right; assumption). reflexivity.
Qed.

Lemma read_rows_len nr nc : forall s, (nr * nc <= length s)%nat -> exists a b, read_rows nr nc s = Ok (a, b) /\ length s = (nr * nc + length b)%nat.
Proof.
  induction nr as [|nr IH]; intros s H; [exists [], s; split; reflexivity|]. cbn [read_rows]. destruct (read_numbers_len nc s) as (a & b & E & L); [lia|]. rewrite E. cbn [bind fst snd].
  destruct (IH b) as (a' & b' & E' & L'); [lia|]. rewrite E'. cbn [bind fst snd]. exists (a :: a'), b'. split; [reflexivity | lia].
Qed.

Lemma read_rows_short nr nc : forall s, (length s < nr * nc)%nat -> read_rows nr nc s = Throw RuntimeError.
Proof.
  induction nr as [|nr IH]; intros s H; [lia|]. cbn [read_rows]. destruct (le_lt_dec nc (length s)) as [G|G]; [|rewrite read_numbers_short by lia; reflexivity].
  destruct (read_numbers_len nc s G) as (a & b & E & L). rewrite E. cbn [bind fst snd]. rewrite IH by lia. reflexivity.
Qed.

Lemma read_blocks_short nb nr nc : forall s, (length s < nb * (nr * nc))%nat -> read_blocks nb nr nc s = Throw RuntimeError.
Proof.
  induction nb as [|nb IH]; intros s H; [lia|]. cbn [read_blocks]. destruct (le_lt_dec (nr * nc) (length s)) as [G|G]; [|rewrite read_rows_short by lia; reflexivity].
  destruct (read_rows_len nr nc s G) as (a & b & E & L). rewrite E. cbn [bind fst snd]. rewrite IH by lia. reflexivity.
Qed.

Definition block_rows (A : dmat) : list (list R) := map (fun r => map (fun c => dent A r c) (seq 0 (dcols A))) (seq 0 (drows A)).
Lemma write_rows A : write_block A = concat (block_rows A).
Proof. unfold write_block, block_rows. apply flat_map_concat_map. Qed.

Lemma block_rows_nth A r c : (r < drows A)%nat -> (c < dcols A)%nat -> nth c (nth r (block_rows A) []) 0 = dent A r c.
Proof.
  intros Hr Hc. unfold block_rows.
  rewrite (nth_indep _ [] (map (fun c => dent A 0%nat c) (seq 0 (dcols A)))) by (rewrite map_length, seq_length; lia).
  rewrite (map_nth (fun r => map (fun c => dent A r c) (seq 0 (dcols A)))). rewrite seq_nth by assumption. cbn [Nat.add].
  rewrite (nth_indep _ 0 (dent A r 0%nat)) by (rewrite map_length, seq_length; lia). rewrite (map_nth (fun c => dent A r c)). rewrite seq_nth by assumption. reflexivity.
Qed.

Lemma read_blocks_ok nr nc fock : uniform nr nc fock -> forall s, exists f', read_blocks (length fock) nr nc (flat_map write_block fock ++ s) = Ok f' /\ Forall2 same_mat fock f'.
Proof.
  induction fock as [|A fock IH]; intros HU s; [exists []; split; [reflexivity | constructor]|].
  cbn [length flat_map read_blocks]. rewrite <- app_assoc, write_rows. destruct (HU A (or_introl eq_refl)) as [H1 H2].
  assert (ER : forall x, read_rows nr nc (concat (block_rows A) ++ x) = Ok (block_rows A, x)).
  { intros x. replace nr with (length (block_rows A)) by (unfold block_rows; rewrite map_length, seq_length; exact H1). apply read_rows_ok.
    intros r Hr. apply in_map_iff in Hr. destruct Hr as (k & <- & _). rewrite map_length, seq_length. exact H2. }
  rewrite ER. cbn [bind fst snd]. destruct (IH (fun B HB => HU B (or_intror HB)) s) as (f' & E & F). rewrite E. cbn [bind]. eexists. split; [reflexivity|]. constructor; [|exact F].
  split; [exact H1|]. split; [exact H2|]. intros r c Hr Hc. cbn [dent]. symmetry. now apply block_rows_nth.
Qed.

Lemma roundtrip_ok nr nc fock : fock <> [] -> uniform nr nc fock -> exists f f', save_fock fock = Ok f /\ load_fock f = Ok f' /\ Forall2 same_mat fock f'.
Proof.
  intros HN HU. destruct fock as [|A fock]; [congruence|]. destruct (HU A (or_introl eq_refl)) as [H1 H2].
  destruct (read_blocks_ok nr nc (A :: fock) HU []) as (f' & E & F). rewrite app_nil_r in E.
  exists (length (A :: fock), drows A, dcols A, flat_map write_block (A :: fock)), f'. split; [reflexivity|]. split; [|exact F]. unfold load_fock. rewrite H1, H2. exact E.
Qed.

Lemma truncated_ok nb nr nc s : (length s < nb * (nr * nc))%nat -> load_fock (nb, nr, nc, s) = Throw RuntimeError.
Proof. exact (read_blocks_short nb nr nc s). Qed.

Lemma ragged : exists fock f, save_fock fock = Ok f /\ load_fock f = Throw RuntimeError.
Proof. exists [mkD 2 2 mid; mkD 1 1 mid]. eexists. split; [reflexivity|]. reflexivity. Qed.

Lemma guess_ok lmax fock :
  (length fock = (lmax + 1)%nat -> guess_restricted lmax fock = Ok fock /\ guess_unrestricted lmax fock = Ok (fock ++ fock)) /\
  (length fock = (2 * lmax + 2)%nat -> guess_unrestricted lmax fock = Ok fock /\
     exists h, guess_restricted lmax fock = Ok h /\ length h = (lmax + 1)%nat /\ forall l d, (l <= lmax)%nat -> nth l h d = nth l fock d) /\
  (length fock <> (lmax + 1)%nat -> length fock <> (2 * lmax + 2)%nat -> guess_restricted lmax fock = Throw LogicError /\ (fock <> [] -> guess_unrestricted lmax fock = Throw LogicError)).
Proof.
  unfold guess_restricted, guess_unrestricted. split; [|split].
  - intros L. rewrite L, Nat.eqb_refl. cbn [orb]. rewrite <- L, firstn_all. split; [reflexivity|]. destruct fock; [cbn in L; lia|]. reflexivity.
  - intros L. rewrite L, Nat.eqb_refl. destruct (Nat.eqb_spec (2 * lmax + 2) (lmax + 1)); [lia|]. cbn [orb]. split; [destruct fock; [cbn in L; lia | reflexivity]|].
    exists (firstn (lmax + 1) fock). split; [reflexivity|]. split; [rewrite firstn_length; lia|]. intros l d Hl.
    rewrite <- (firstn_skipn (lmax + 1) fock) at 2. rewrite app_nth1 by (rewrite firstn_length; lia). reflexivity.
  - intros H1 H2. destruct (Nat.eqb_spec (length fock) (lmax + 1)); [contradiction|]. destruct (Nat.eqb_spec (length fock) (2 * lmax + 2)); [contradiction|]. cbn [orb]. split; [reflexivity|].
    intros HN. destruct fock; [congruence | reflexivity].
Qed.

(* ---------- density ---------- *)

Lemma saved_restricted lmax bs i k : length bs = (lmax + 1)%nat -> saved_density lmax bs i k * (4 * PI) = over_orbitals bs (fun _ C o => C i o * C k o).
Proof.
  intros L. unfold saved_density, mscal. rewrite <- L, firstn_all, restricted_ok. pose proof PI_RGT_0. field. lra.
Qed.

Lemma saved_alpha lmax al be i k : length al = (lmax + 1)%nat -> saved_density lmax (al ++ be) i k * (4 * PI) = over_orbitals al (fun _ C o => C i o * C k o).
Proof.
  intros L. unfold saved_density, mscal. replace (firstn (lmax + 1) (al ++ be)) with al; [rewrite restricted_ok; pose proof PI_RGT_0; field; lra|].
  rewrite <- L, firstn_app, firstn_all, Nat.sub_diag. cbn. now rewrite app_nil_r.
Qed.

Lemma beta_not_saved : ~ (forall lmax al be i k, length al = (lmax + 1)%nat -> length be = (lmax + 1)%nat ->
  saved_density lmax (al ++ be) i k * (4 * PI) = over_orbitals (al ++ be) (fun _ C o => C i o * C k o)).
Proof.
  intros H. specialize (H 0%nat [(mid, [1])] [(mid, [1])] 0%nat 0%nat eq_refl eq_refl). rewrite saved_alpha in H by reflexivity.
  unfold over_orbitals, mid in H. cbn in H. lra.
Qed.

Lemma names_ok Z0 Q nj : (0 <= nj)%Z -> ((exists d p, file_names Z0 Q nj = Ok (d, p)) <-> (Q <= Z0 /\ 0 < Z0 - Q + nj)%Z) /\
  ((Z0 < Q)%Z \/ (Z0 = Q /\ nj = 0)%Z -> file_names Z0 Q nj = Throw LogicError).
Proof.
  intros H. unfold file_names. destruct (Z.eqb_spec (Z0 - Q) 0), (Z.ltb_spec 0 nj), (Z.ltb_spec 0 (Z0 - Q)), (Z.eqb_spec nj 0); cbn [andb]; try lia;
  (split; [split; [intros (d & p & E); try discriminate; lia | intros G; try lia; eauto] | intros G; try lia; reflexivity]).
Qed.

(* ---------- orbitals ---------- *)

Lemma argmax_ok n : forall best i f, (best < i)%nat -> (forall k, (k < i)%nat -> f k <= f best) ->
  let m := argmax_from best i n f in (m < i + n)%nat /\ forall k, (k < i + n)%nat -> f k <= f m.
Proof.
  induction n as [|n IH]; intros best i f Hb Hf; cbv zeta; cbn [argmax_from]; [split; [lia|]; intros k Hk; apply Hf; lia|].
  replace (i + S n)%nat with (S i + n)%nat by lia. apply IH.
  - destruct (Rltb (f best) (f i)); lia.
  - intros k Hk. destruct (Rltb_spec (f best) (f i)) as [G|G]; (destruct (Nat.eq_dec k i) as [->|]; [lra|]; assert (f k <= f best) by (apply Hf; lia); lra).
Qed.

Lemma phase_ok np v : (0 < np)%nat -> (phase np v = 1 \/ phase np v = -1) /\
  exists m, (m < np)%nat /\ 0 <= phase np v * v m /\ forall k, (k < np)%nat -> Rabs (phase np v * v k) <= phase np v * v m.
Proof.
  intros Hn. destruct (argmax_ok (np - 1) 0 1 (fun i => v i * v i)) as [M1 M2]; [lia | intros k Hk; replace k with 0%nat by lia; lra|]. fold (argmax_sq np v) in M1, M2.
  replace (1 + (np - 1))%nat with np in * by lia. split; [unfold phase; destruct (Rltb _ _); auto|]. exists (argmax_sq np v). split; [assumption|].
  assert (P : phase np v * v (argmax_sq np v) = Rabs (v (argmax_sq np v))).
  { unfold phase. destruct (Rltb_spec (v (argmax_sq np v)) 0) as [G|G]; [rewrite Rabs_left by assumption; ring | rewrite Rabs_pos_eq by lra; ring]. }
  rewrite P. split; [apply Rabs_pos|]. intros k Hk. rewrite Rabs_mult. replace (Rabs (phase np v)) with 1 by (unfold phase; destruct (Rltb _ _); [rewrite Rabs_left by lra; ring | rewrite Rabs_R1; reflexivity]).
  rewrite Rmult_1_l. apply Rsqr_le_abs_0. unfold Rsqr. now apply M2.
Qed.

Definition pairs_from (thr : R) (b0 : nat) (bs : list oblock) : list (nat * nat) :=
  flat_map (fun ib => map (fun io => (fst ib, io)) (occ_idx thr (o_occ (snd ib)))) (combine (seq b0 (length bs)) bs).

Lemma occ_idx_in thr occ io : In io (occ_idx thr occ) <-> (io < length occ)%nat /\ thr < Rabs (nth io occ 0).
Proof.
  unfold occ_idx. rewrite filter_In, in_seq. destruct (Rltb_spec thr (Rabs (nth io occ 0))); split; intros [A B]; try discriminate; try contradiction; split; (assumption || reflexivity || lia).
Qed.

Lemma pairs_cons thr b0 b bs : pairs_from thr b0 (b :: bs) = map (fun io => (b0, io)) (occ_idx thr (o_occ b)) ++ pairs_from thr (S b0) bs.
Proof. reflexivity. Qed.

Lemma pairs_in thr bs : forall b0 b io, In (b, io) (pairs_from thr b0 bs) <->
  (b0 <= b < b0 + length bs)%nat /\ In io (occ_idx thr (o_occ (nth (b - b0) bs o0))).
Proof.
  induction bs as [|x bs IH]; intros b0 b io; [cbn; split; [tauto | lia]|]. rewrite pairs_cons, in_app_iff, in_map_iff, IH. cbn [length]. split.
  - intros [(k & E & K) | [H K]].
    + injection E as -> ->. split; [lia|]. rewrite Nat.sub_diag. exact K.
    + split; [lia|]. replace (b - b0)%nat with (S (b - S b0)) by lia. exact K.
  - intros [H K]. destruct (Nat.eq_dec b b0) as [->|N].
    + left. exists io. rewrite Nat.sub_diag in K. auto.
    + right. split; [lia|]. replace (b - b0)%nat with (S (b - S b0)) in K by lia. exact K.
Qed.

Definition chain (ps : list (nat * nat)) : Prop := Sorted.StronglySorted earlier ps.
Lemma chain_nth ps : chain ps -> forall i k, (i < k < length ps)%nat -> earlier (nth i ps (0, 0)%nat) (nth k ps (0, 0)%nat).
Proof.
  induction 1 as [|p ps Hs IH Hp]; intros i k H; [cbn in H; lia|]. destruct k as [|k]; [lia|]. cbn [length] in H. destruct i as [|i]; cbn [nth].
  - rewrite Forall_forall in Hp. apply Hp, nth_In. lia.
  - apply IH. lia.
Qed.

Lemma chain_map b l : Sorted.StronglySorted lt l -> chain (map (fun io => (b, io)) l).
Proof.
  induction 1 as [|x l Hs IH Hx]; [constructor|]. cbn [map]. constructor; [exact IH|]. rewrite Forall_forall in *. intros p Hp. apply in_map_iff in Hp. destruct Hp as (k & <- & Hk).
  right. cbn. split; [reflexivity | now apply Hx].
Qed.

Lemma sorted_filter f l : Sorted.StronglySorted lt l -> Sorted.StronglySorted lt (filter f l).
Proof.
  induction 1 as [|x l Hs IH Hx]; [constructor|]. cbn [filter]. destruct (f x); [|exact IH]. constructor; [exact IH|]. rewrite Forall_forall in *. intros y Hy. apply filter_In in Hy. apply Hx, Hy.
Qed.
Lemma sorted_seq n : forall a, Sorted.StronglySorted lt (seq a n).
Proof.
  induction n as [|n IH]; intros a; [constructor|]. cbn [seq]. constructor; [apply IH|]. apply Forall_forall. intros y Hy. apply in_seq in Hy. lia.
Qed.

Lemma chain_app p q : chain p -> chain q -> (forall x y, In x p -> In y q -> earlier x y) -> chain (p ++ q).
Proof.
  induction 1 as [|x p Hs IH Hx]; intros Hq HH; [exact Hq|]. cbn [app]. constructor; [apply IH; [exact Hq | intros; apply HH; [right|]; assumption]|].
  apply Forall_app. split; [exact Hx|]. apply Forall_forall. intros y Hy. apply HH; [left; reflexivity | exact Hy].
Qed.

Lemma pairs_chain thr bs : forall b0, chain (pairs_from thr b0 bs).
Proof.
  induction bs as [|b bs IH]; intros b0; [constructor|]. rewrite pairs_cons. apply chain_app; [apply chain_map, sorted_filter, sorted_seq | apply IH|].
  intros x [y1 y2] Hx Hy. apply in_map_iff in Hx. destruct Hx as (k & <- & _). apply pairs_in in Hy. left. cbn. lia.
Qed.

Lemma flat_pairs {A} thr (g : oblock -> nat -> A) bs : forall b0, flat_map (fun b => map (g b) (occ_idx thr (o_occ b))) bs = map (fun p => g (nth (fst p - b0) bs o0) (snd p)) (pairs_from thr b0 bs).
Proof.
  induction bs as [|b bs IH]; intros b0; [reflexivity|]. rewrite pairs_cons, map_app, map_map. cbn [flat_map]. f_equal.
  - apply map_ext. intros io. cbn [fst snd]. rewrite Nat.sub_diag. reflexivity.
  - rewrite (IH (S b0)). apply map_ext_in. intros [x y] Hp. apply pairs_in in Hp. cbn [fst snd]. replace (x - b0)%nat with (S (x - S b0)) by lia. reflexivity.
Qed.

Lemma pairs_shift thr bs : forall b0 d, pairs_from thr (d + b0) bs = map (fun p => (d + fst p, snd p)%nat) (pairs_from thr b0 bs).
Proof.
  induction bs as [|b bs IH]; intros b0 d; [reflexivity|]. rewrite !pairs_cons, map_app, map_map. f_equal. replace (S (d + b0)) with (d + S b0)%nat by lia. apply IH.
Qed.

Lemma l_pairs thr lmax bs : forall b0, flat_map (fun ib => map (fun _ => (fst ib mod (lmax + 1))%nat) (occ_idx thr (o_occ (snd ib)))) (combine (seq b0 (length bs)) bs) = map (fun p => (fst p mod (lmax + 1))%nat) (pairs_from thr b0 bs).
Proof.
  induction bs as [|b bs IH]; intros b0; [reflexivity|]. rewrite pairs_cons, map_app, map_map. cbn [length seq combine flat_map fst snd]. f_equal. apply IH.
Qed.

Lemma norb_pairs thr bs b0 : fold_left (fun n b => n + length (occ_idx thr (o_occ b)))%nat bs 0%nat = length (pairs_from thr b0 bs).
Proof.
  enough (G : forall n, fold_left (fun n b => n + length (occ_idx thr (o_occ b)))%nat bs n = (n + length (pairs_from thr b0 bs))%nat) by apply G.
  revert b0. induction bs as [|b bs IH]; intros b0 n; [cbn; lia|]. cbn [fold_left]. rewrite (IH (S b0)), pairs_cons, app_length, map_length. lia.
Qed.

Lemma table_ok thr np lmax bstart sel bs : exists ps, written thr bs ps /\
  let t := save_table thr np lmax bstart sel bs in
  t_norb t = length ps /\ t_l t = map (fun p => ((bstart + fst p) mod (lmax + 1))%nat) ps /\
  t_occ t = map (fun p => nth (snd p) (o_occ (nth (fst p) bs o0)) 0) ps /\ t_E t = map (fun p => o_E (nth (fst p) bs o0) (snd p)) ps /\
  forall ir, t_col t ir = map (fun p => phase np (o_val (nth (fst p) bs o0) (snd p)) * sel (nth (fst p) bs o0) (snd p) ir) ps.
Proof.
  exists (pairs_from thr 0 bs). split; [split|].
  - intros b io. rewrite pairs_in, Nat.sub_0_r, occ_idx_in. split; intros H; intuition lia.
  - apply chain_nth, pairs_chain.
  - assert (Z : forall A (g : oblock -> nat -> A), flat_map (fun b => map (g b) (occ_idx thr (o_occ b))) bs = map (fun p => g (nth (fst p) bs o0) (snd p)) (pairs_from thr 0 bs)).
    { intros A g. rewrite (flat_pairs thr g bs 0). apply map_ext. intros p. rewrite Nat.sub_0_r. reflexivity. }
    cbv zeta. unfold save_table. cbn [t_norb t_l t_occ t_E t_col]. split; [apply norb_pairs|]. split; [|split; [|split]].
    + rewrite l_pairs. rewrite <- (Nat.add_0_r bstart) at 1. rewrite pairs_shift, map_map. reflexivity.
    + apply (Z R (fun b io => nth io (o_occ b) 0)).
    + apply (Z R o_E).
    + intros ir. apply (Z R (fun b io => phase np (o_val b io) * sel b io ir)).
Qed.
