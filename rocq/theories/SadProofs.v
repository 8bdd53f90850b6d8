(** Proofs about the density tools of the spherically averaged atom. *)
Require Import Reals Lra Lia List Arith Bool ZArith ZifyBool ZifyNat.
Require Import Verif.Prelude Verif.FEModel Verif.SadModel Verif.SadSpec.
Import ListNotations.
Open Scope R_scope.

(* ------------------------------------------------------------------ *)
(** * Wrapped scans *)
Lemma wrap_id z : (0 <= z < 2 ^ 64)%Z -> wrap z = z.
Proof. intros H. apply Z.mod_small. exact H. Qed.
Lemma wrap_m1 : wrap (-1) = (2 ^ 64 - 1)%Z.
Proof. reflexivity. Qed.
Lemma wrap_pred n i : small n -> (i <= n)%nat -> (0 < i)%nat -> wrap (Z.of_nat i - 1) = Z.of_nat (i - 1).
Proof. intros Hn H1 H2. unfold small in Hn. rewrite wrap_id; lia. Qed.

(** The scan visits n-1, n-2, ... 0 and then wraps. *)
Lemma scan_down_spec n stop i fuel : small n -> (i <= n)%nat -> (i < fuel)%nat ->
  (exists j, (j < i)%nat /\ scan_down fuel (Z.of_nat n) (wrap (Z.of_nat i - 1)) stop = Ok (Z.of_nat j) /\
     stop j = true /\ forall k, (j < k)%nat -> (k < i)%nat -> stop k = false) \/
  (scan_down fuel (Z.of_nat n) (wrap (Z.of_nat i - 1)) stop = Ok (2 ^ 64 - 1)%Z /\ forall k, (k < i)%nat -> stop k = false).
Proof.
  intros Hn. revert fuel. induction i as [|i IH]; intros fuel Hi Hf.
  - right. split; [|lia]. destruct fuel as [|fuel]; [lia|]. cbn [scan_down].
    change (wrap (Z.of_nat 0 - 1)) with (2 ^ 64 - 1)%Z. unfold small in Hn.
    destruct (2 ^ 64 - 1 <? Z.of_nat n)%Z eqn:E; [lia|reflexivity].
  - destruct fuel as [|fuel]; [lia|]. cbn [scan_down].
    rewrite (wrap_pred n (S i)) by (auto; lia). replace (S i - 1)%nat with i by lia.
    destruct (Z.of_nat i <? Z.of_nat n)%Z eqn:E; [|lia]. rewrite Nat2Z.id.
    destruct (stop i) eqn:Es.
    + left. exists i. repeat split; auto; lia.
    + destruct (IH fuel) as [(j & Hj & Eq & Hs & Ha)|(Eq & Ha)]; try lia.
      * left. exists j. split; [lia|]. split; [exact Eq|]. split; [exact Hs|].
        intros k H1 H2. destruct (Nat.eq_dec k i) as [->|]; [exact Es|apply Ha; lia].
      * right. split; [exact Eq|]. intros k Hk. destruct (Nat.eq_dec k i) as [->|]; [exact Es|apply Ha; lia].
Qed.

(* ------------------------------------------------------------------ *)
(** * Extrema *)
Lemma max_coeff_ge n v i : (i <= n)%nat -> v i <= max_coeff n v.
Proof.
  induction n as [|n IH]; intros Hi; cbn [max_coeff].
  - replace i with 0%nat by lia. lra.
  - destruct (Nat.eq_dec i (S n)) as [->|]; [apply Rmax_r|].
    apply Rle_trans with (max_coeff n v); [apply IH; lia|apply Rmax_l].
Qed.
Lemma max_coeff_in n v : exists i, (i <= n)%nat /\ max_coeff n v = v i.
Proof.
  induction n as [|n (i & Hi & E)]; cbn [max_coeff]; [exists 0%nat; auto|].
  unfold Rmax. destruct (Rle_dec (max_coeff n v) (v (S n))); [exists (S n); auto|exists i; split; [lia|exact E]].
Qed.
Lemma max_coeff_above n v t : t < max_coeff n v <-> exists i, (i <= n)%nat /\ t < v i.
Proof.
  split.
  - intros H. destruct (max_coeff_in n v) as (i & Hi & E). exists i. rewrite <- E. auto.
  - intros (i & Hi & H). apply Rlt_le_trans with (v i); [exact H|apply max_coeff_ge; exact Hi].
Qed.

Lemma arg_max_spec n v : (arg_max n v <= n)%nat /\ (forall i, (i <= n)%nat -> v i <= v (arg_max n v)) /\
  (forall i, (i < arg_max n v)%nat -> v i < v (arg_max n v)).
Proof.
  induction n as [|n (H1 & H2 & H3)]; cbn [arg_max].
  - split; [lia|]. split; intros i Hi; [replace i with 0%nat by lia; lra|lia].
  - destruct (Rltb_spec (v (arg_max n v)) (v (S n))) as [H|H].
    + split; [lia|]. split; intros i Hi.
      * destruct (Nat.eq_dec i (S n)) as [->|]; [lra|]. specialize (H2 i ltac:(lia)). lra.
      * specialize (H2 i ltac:(lia)). lra.
    + split; [lia|]. split; intros i Hi.
      * destruct (Nat.eq_dec i (S n)) as [->|]; [lra|]. apply H2. lia.
      * apply H3. lia.
Qed.
Lemma arg_min_spec n v : (arg_min n v <= n)%nat /\ (forall i, (i <= n)%nat -> v (arg_min n v) <= v i) /\
  (forall i, (i < arg_min n v)%nat -> v (arg_min n v) < v i).
Proof.
  induction n as [|n (H1 & H2 & H3)]; cbn [arg_min].
  - split; [lia|]. split; intros i Hi; [replace i with 0%nat by lia; lra|lia].
  - destruct (Rltb_spec (v (S n)) (v (arg_min n v))) as [H|H].
    + split; [lia|]. split; intros i Hi.
      * destruct (Nat.eq_dec i (S n)) as [->|]; [lra|]. specialize (H2 i ltac:(lia)). lra.
      * specialize (H2 i ltac:(lia)). lra.
    + split; [lia|]. split; intros i Hi.
      * destruct (Nat.eq_dec i (S n)) as [->|]; [lra|]. apply H2. lia.
      * apply H3. lia.
Qed.

(* ------------------------------------------------------------------ *)
(** * The assembled arrays *)
Lemma segments_fold nel npts (f : nat -> nat -> R) v0 :
  let v := fold_left (fun (n : vec) iel => fun i => if ((1 + iel * npts <=? i) && (i <? 1 + iel * npts + npts))%nat%bool
                                            then f iel (i - (1 + iel * npts))%nat else n i) (seq 0 nel) v0 in
  v 0%nat = v0 0%nat /\ forall iel ip, (iel < nel)%nat -> (ip < npts)%nat -> v (1 + iel * npts + ip)%nat = f iel ip.
Proof.
  induction nel as [|nel IH]; intros v; subst v; [split; [reflexivity|lia]|].
  rewrite seq_S, fold_left_app. cbn [fold_left]. rewrite Nat.add_0_l. cbv zeta in IH. destruct IH as [I0 I1].
  split.
  - destruct (1 + nel * npts <=? 0)%nat eqn:E; [lia|]. cbn [andb]. exact I0.
  - intros iel ip He Hp. destruct (Nat.eq_dec iel nel) as [->|Hne].
    + generalize (nel * npts)%nat. intros k.
      destruct (Nat.leb_spec (1 + k) (1 + k + ip)); [|lia].
      destruct (Nat.ltb_spec (1 + k + ip) (1 + k + npts)); [|lia]. cbn [andb].
      replace (1 + k + ip - (1 + k))%nat with ip by lia. reflexivity.
    + assert (E : (1 + nel * npts <=? 1 + iel * npts + ip)%nat = false) by (apply Nat.leb_gt; nia).
      rewrite E. cbn [andb]. apply I1; lia.
Qed.
Lemma segments_ok nel npts z f : (1 <= nel)%nat ->
  exists v, segments nel npts z f = Ok v /\ v 0%nat = z /\
    forall iel ip, (iel < nel)%nat -> (ip < npts)%nat -> v (1 + iel * npts + ip)%nat = f iel ip.
Proof.
  intros H. unfold segments. destruct (Nat.eqb_spec nel 0); [lia|]. eexists. split; [reflexivity|].
  destruct (segments_fold nel npts f (fun i => if (i =? 0)%nat then z else 0)) as [I0 I1]. split; [exact I0|exact I1].
Qed.
Lemma segments_none nel npts z f : nel = 0%nat -> segments nel npts z f = UB.
Proof. intros ->. reflexivity. Qed.

(** Sum over the array, point by point. *)
Lemma array_sum nel npts (v : vec) :
  sum (1 + nel * npts) v = v 0%nat + sum nel (fun iel => sum npts (fun ip => v (1 + iel * npts + ip)%nat)).
Proof.
  change (1 + nel * npts)%nat with (S (nel * npts)). rewrite sum_shift. f_equal.
  rewrite <- (sum_flatten nel npts (fun i j => v (1 + i * npts + j)%nat)). apply sum_ext. intros k Hk. f_equal.
  destruct (Nat.eq_dec npts 0) as [->|Hn]; [lia|]. pose proof (Nat.div_mod k npts Hn). lia.
Qed.

(* ------------------------------------------------------------------ *)
(** * Prefix and suffix sums *)
Lemma upd_same v i x : upd v i x i = x.
Proof. unfold upd. rewrite Nat.eqb_refl. reflexivity. Qed.
Lemma upd_other v i x j : j <> i -> upd v i x j = v j.
Proof. intros H. unfold upd. destruct (Nat.eqb_spec j i); [contradiction|reflexivity]. Qed.

Lemma prefix_fold z m : let v := fold_left (fun (z : vec) iel => upd z iel (z iel + z (iel - 1)%nat)) (seq 1 m) z in
  (forall i, (i <= m)%nat -> v i = sum (S i) z) /\ (forall i, (m < i)%nat -> v i = z i).
Proof.
  induction m as [|m IH]; intros v; subst v.
  - split; intros i Hi; [|reflexivity]. replace i with 0%nat by lia. cbn [seq fold_left sum]. ring.
  - rewrite seq_S, fold_left_app. cbn [fold_left]. cbv zeta in IH. destruct IH as [I1 I2].
    replace (1 + m)%nat with (S m) by lia. split; intros i Hi.
    + destruct (Nat.eq_dec i (S m)) as [->|Hne].
      * rewrite upd_same, I2 by lia. replace (S m - 1)%nat with m by lia. rewrite I1 by lia.
        change (sum (S (S m)) z) with (sum (S m) z + z (S m)). ring.
      * rewrite upd_other by exact Hne. apply I1. lia.
    + rewrite upd_other by lia. apply I2. lia.
Qed.
Lemma prefix_ok nel z i : (i < nel)%nat -> prefix nel z i = sum (S i) z.
Proof. intros H. unfold prefix. destruct (prefix_fold z (nel - 1)) as [I _]. apply I. lia. Qed.

Definition tail_sum (n : nat) (m : vec) (j : nat) : R := sum (n - j) (fun k => m (j + k)%nat).
Lemma tail_sum_step n m j : (j < n)%nat -> tail_sum n m j = m j + tail_sum n m (S j).
Proof.
  intros H. unfold tail_sum. replace (n - j)%nat with (S (n - S j)) by lia. rewrite sum_shift. f_equal.
  - f_equal. lia.
  - apply sum_ext. intros k _. f_equal. lia.
Qed.
Lemma suffix_loop_ok n m i fuel v : small n -> (S i <= n)%nat -> (i < fuel)%nat ->
  (forall j, (j < i)%nat -> v j = m j) -> (forall j, (i <= j)%nat -> (j < n)%nat -> v j = tail_sum n m j) ->
  exists w, suffix_loop fuel (Z.of_nat n) (wrap (Z.of_nat i - 1)) v = Ok w /\
    forall j, (j < n)%nat -> w j = tail_sum n m j.
Proof.
  intros Hn. revert fuel v. induction i as [|i IH]; intros fuel v Hi Hf Hlo Hhi.
  - destruct fuel as [|fuel]; [lia|]. cbn [suffix_loop].
    change (wrap (Z.of_nat 0 - 1)) with (2 ^ 64 - 1)%Z. unfold small in Hn.
    destruct (2 ^ 64 - 1 <? Z.of_nat n)%Z eqn:E; [lia|]. exists v. split; [reflexivity|]. intros j Hj. apply Hhi; lia.
  - destruct fuel as [|fuel]; [lia|]. cbn [suffix_loop].
    rewrite (wrap_pred n (S i)) by (auto; lia). replace (S i - 1)%nat with i by lia.
    destruct (Z.of_nat i <? Z.of_nat n)%Z eqn:E; [|lia]. rewrite Nat2Z.id.
    apply IH; [lia|lia| |].
    + intros j Hj. rewrite upd_other by lia. apply Hlo. lia.
    + intros j H1 H2. destruct (Nat.eq_dec j i) as [->|Hne].
      * rewrite upd_same, (Hlo i), (Hhi (S i)), (tail_sum_step n m i) by lia. reflexivity.
      * rewrite upd_other by lia. apply Hhi; lia.
Qed.
Lemma suffix_ok nel m : small nel -> (1 <= nel)%nat ->
  exists w, suffix nel m = Ok w /\ forall j, (j < nel)%nat -> w j = tail_sum nel m j.
Proof.
  intros Hn H. unfold suffix. replace (Z.of_nat nel - 2)%Z with (Z.of_nat (nel - 1) - 1)%Z by lia.
  apply suffix_loop_ok; auto; try lia. intros j H1 H2. replace j with (nel - 1)%nat by lia.
  unfold tail_sum. replace (nel - (nel - 1))%nat with 1%nat by lia. cbn [sum]. rewrite Nat.add_0_r. ring.
Qed.

(** Pairs stored column by column. *)
Lemma column_pairs n (f : nat -> R) (P : nat -> nat -> R) :
  sum (n * n) (fun c => f c * P (c mod n)%nat (c / n)%nat) = sum n (fun a => sum n (fun b => f (b * n + a)%nat * P a b)).
Proof.
  rewrite (sum_swap n n (fun a b => f (b * n + a)%nat * P a b)).
  rewrite <- (sum_flatten n n (fun b a => f (b * n + a)%nat * P a b)). apply sum_ext. intros k Hk.
  assert (Hn : n <> 0%nat) by (intros ->; lia). pose proof (Nat.div_mod k n Hn).
  replace (k / n * n + k mod n)%nat with k by lia. reflexivity.
Qed.

Lemma screening_ok nel npts xq rad first len zm mo pot P : small nel -> (1 <= nel)%nat ->
  (forall iel ip, (iel < nel)%nat -> (ip < npts)%nat -> rad iel (xq ip) <> 0) ->
  exists V, coulomb_screening nel npts xq rad first len zm mo pot P = Ok V /\ V 0%nat = 0 /\
    forall iel ip, (iel < nel)%nat -> (ip < npts)%nat ->
      V (1 + iel * npts + ip)%nat =
        sum iel (fun j => block_trace (first j) (len j) P (zm j))
        + rad iel (xq ip) * (sum (len iel) (fun a => sum (len iel) (fun b =>
                                pot iel ip (b * len iel + a)%nat * P (first iel + a)%nat (first iel + b)%nat))
                             + above nel (fun j => block_trace (first j) (len j) P (mo j)) iel).
Proof.
  intros Hn H Hr. unfold coulomb_screening.
  destruct (suffix_ok nel (fun iel => trace_with first len P iel (mo iel)) Hn H) as (w & -> & Hw). cbn [bind].
  match goal with |- exists V, segments _ _ _ ?f = _ /\ _ => destruct (segments_ok nel npts 0 f H) as (V & E & E0 & EV) end.
  exists V. split; [exact E|]. split; [exact E0|]. intros iel ip He Hp. rewrite EV by auto. clear E E0 EV. cbv zeta.
  specialize (Hr iel ip He Hp). set (r := rad iel (xq ip)) in *.
  rewrite (column_pairs (len iel) (pot iel ip) (fun a b => P (first iel + a)%nat (first iel + b)%nat)).
  set (v := sum (len iel) _).
  assert (Hup : (if negb (iel =? nel - 1)%nat then w (iel + 1)%nat else 0) = above nel (fun j => block_trace (first j) (len j) P (mo j)) iel).
  { unfold above. destruct (Nat.eqb_spec iel (nel - 1)) as [Ei|Hne]; cbn [negb].
    - replace (nel - S iel)%nat with 0%nat by lia. reflexivity.
    - rewrite Hw by lia. unfold tail_sum. replace (nel - (iel + 1))%nat with (nel - S iel)%nat by lia.
      apply sum_ext. intros k _. replace (iel + 1 + k)%nat with (S iel + k)%nat by lia. reflexivity. }
  rewrite <- Hup. clear Hup.
  assert (Hdn : sum iel (fun j => block_trace (first j) (len j) P (zm j))
                = (if (0 <? iel)%nat then prefix nel (fun j => trace_with first len P j (zm j)) (iel - 1)%nat else 0)).
  { destruct (Nat.ltb_spec 0 iel) as [Hi|Hi].
    - rewrite prefix_ok by lia. replace (S (iel - 1)) with iel by lia. reflexivity.
    - replace iel with 0%nat by lia. reflexivity. }
  rewrite Hdn. clear Hdn.
  destruct (0 <? iel)%nat, (negb (iel =? nel - 1)%nat); field; exact Hr.
Qed.
