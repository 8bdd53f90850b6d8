(** Proofs: the series of the modified spherical Bessel functions. *)
Require Import Reals List Arith Bool Lia Lra.
Require Import Verif.Prelude Verif.BsModel Verif.BsSpec.
Import ListNotations.
Open Scope R_scope.

Lemma odd_pos n : 0 < odd_factorial n.
Proof. induction n; cbn [odd_factorial]; [lra|]. pose proof (pos_INR n). apply Rmult_lt_0_compat; lra. Qed.
Lemma dfac_odd L : bs_dfac L = odd_factorial (S L).
Proof.
  induction L as [|L IH]; [cbn; ring|]. cbn [bs_dfac]. rewrite IH. change (odd_factorial (S (S L))) with (odd_factorial (S L) * (2 * INR (S L) + 1)).
  f_equal. rewrite plus_INR, mult_INR. cbn [INR]. ring.
Qed.
Lemma term_den_pos k n : 0 < 2 ^ k * INR (fact k) * odd_factorial n.
Proof.
  apply Rmult_lt_0_compat; [|apply odd_pos]. apply Rmult_lt_0_compat; [apply pow_lt; lra | apply INR_fact_lt_0].
Qed.
Lemma term_0 L x : il_term L x 0 = x ^ L / bs_dfac L.
Proof.
  unfold il_term. rewrite dfac_odd. replace (L + 2 * 0)%nat with L by lia. replace (L + 0 + 1)%nat with (S L) by lia.
  cbn [pow fact INR]. f_equal. ring.
Qed.
Lemma term_S L x k : il_term L x (S k) = il_term L x k * ((1 / 2 * x * x) / (INR (S k) * INR (2 * L + 2 * S k + 1))).
Proof.
  unfold il_term. replace (L + 2 * S k)%nat with (S (S (L + 2 * k))) by lia.
  replace (L + S k + 1)%nat with (S (L + k + 1)) by lia. cbn [odd_factorial].
  replace (INR (2 * L + 2 * S k + 1)) with (2 * INR (L + k + 1) + 1).
  2:{ rewrite !plus_INR, !mult_INR, (S_INR k). cbn [INR]. ring. }
  replace (INR (fact (S k))) with (INR (S k) * INR (fact k)) by (rewrite <- mult_INR; reflexivity).
  cbn [pow].
  pose proof (odd_pos (L + k + 1)). pose proof (pos_INR (L + k + 1)). pose proof (INR_fact_lt_0 k).
  assert (0 < INR (S k)) by (apply lt_0_INR; lia). assert (0 < 2 ^ k) by (apply pow_lt; lra).
  field. repeat split; lra.
Qed.
Lemma term_abs L x k : il_term L (- x) k = (if Nat.odd L then -1 else 1) * il_term L x k.
Proof.
  unfold il_term. replace (- x) with ((-1) * x) by ring. rewrite Rpow_mult_distr.
  rewrite pow_add, pow_mult. replace ((-1) ^ 2) with 1 by ring. rewrite pow1.
  assert (E : (-1) ^ L = if Nat.odd L then -1 else 1).
  { clear. induction L as [|L IH]; [reflexivity|]. cbn [pow]. rewrite IH, Nat.odd_succ, <- Nat.negb_odd. destruct (Nat.odd L); cbn; ring. }
  rewrite E. unfold Rdiv. ring.
Qed.
Lemma term_pos L x k : 0 <= x -> 0 <= il_term L x k.
Proof.
  intros Hx. unfold il_term. apply Rmult_le_pos; [apply pow_le; exact Hx|].
  apply Rlt_le, Rinv_0_lt_compat, term_den_pos.
Qed.

(** * Small arguments *)
Section Small.
Variables (L : nat) (x : R).
Hypothesis Hx : 0 <= x < 1 / 2.
Lemma term_ratio k : il_term L x (S k) <= / 24 * il_term L x k.
Proof.
  rewrite term_S. rewrite Rmult_comm. apply Rmult_le_compat_r; [apply term_pos; lra|].
  assert (A : 1 <= INR (S k)) by (apply (le_INR 1); lia).
  assert (B : 3 <= INR (2 * L + 2 * S k + 1)) by (replace 3 with (INR 3) by (cbn; ring); apply le_INR; lia).
  assert (C : 3 <= INR (S k) * INR (2 * L + 2 * S k + 1)).
  { apply (Rle_trans _ (1 * 3)); [lra|]. apply Rmult_le_compat; lra. }
  assert (D : 1 / 2 * x * x <= 1 / 8).
  { assert (x * x <= 1 / 2 * (1 / 2)) by (apply Rmult_le_compat; lra). lra. }
  assert (E : 0 <= 1 / 2 * x * x) by (assert (0 <= x * x) by (apply Rmult_le_pos; lra); lra).
  apply (Rle_trans _ (1 / 8 * / 3)); [|lra]. unfold Rdiv at 1. apply Rmult_le_compat; [exact E | | exact D |].
  - apply Rlt_le, Rinv_0_lt_compat. lra.
  - apply Rinv_le_contravar; lra.
Qed.
Lemma term_geo k j : il_term L x (k + j) <= (/ 24) ^ j * il_term L x k.
Proof.
  induction j as [|j IH]; [rewrite Nat.add_0_r; cbn; lra|]. rewrite Nat.add_succ_r.
  eapply Rle_trans; [apply term_ratio|]. cbn [pow]. rewrite Rmult_assoc. apply Rmult_le_compat_l; [lra | exact IH].
Qed.
(** What is left after the term [k]. *)
Lemma tail_bound k n : sum n (fun j => il_term L x (S k + j)) <= / 23 * il_term L x k.
Proof.
  assert (G : sum n (fun j => il_term L x (S k + j)) <= / 23 * (1 - (/ 24) ^ n) * il_term L x k).
  { induction n as [|n IH]; [cbn; lra|]. cbn [sum pow].
    pose proof (term_geo k (S n)) as T. replace (k + S n)%nat with (S k + n)%nat in T by lia. cbn [pow] in T.
    eapply Rle_trans; [apply Rplus_le_compat; [exact IH | exact T]|]. right. field. }
  eapply Rle_trans; [exact G|]. apply Rmult_le_compat_r; [apply term_pos; lra|].
  assert (0 <= (/ 24) ^ n) by (apply pow_le; lra). lra.
Qed.
Lemma sums_mono n m : (n <= m)%nat -> sum n (il_term L x) <= sum m (il_term L x).
Proof.
  induction 1 as [|m _ IH]; [lra|]. cbn [sum]. pose proof (term_pos L x m ltac:(lra)). lra.
Qed.
Lemma sums_upper k n : sum n (il_term L x) <= sum (S k) (il_term L x) + / 23 * il_term L x k.
Proof.
  destruct (Nat.le_gt_cases n (S k)) as [H|H].
  - pose proof (sums_mono n (S k) H). pose proof (term_pos L x k ltac:(lra)). lra.
  - replace n with (S k + (n - S k))%nat by lia. rewrite sum_split. apply Rplus_le_compat_l. apply tail_bound.
Qed.
Lemma series_exists : exists s, is_il L x s.
Proof.
  unfold is_il. destruct (growing_cv (fun n => sum n (il_term L x))) as (s & Hs).
  - intros n. apply sums_mono. lia.
  - exists (sum 1 (il_term L x) + / 23 * il_term L x 0). intros y (n & ->). apply sums_upper.
  - exists s. exact Hs.
Qed.
Lemma series_between s k : is_il L x s ->
  sum (S k) (il_term L x) <= s <= sum (S k) (il_term L x) + / 23 * il_term L x k.
Proof.
  intros H. split.
  - apply (growing_ineq (fun n => sum n (il_term L x))); [|exact H]. intros n. apply sums_mono. lia.
  - apply Rnot_lt_le. intros C. set (d := s - (sum (S k) (il_term L x) + / 23 * il_term L x k)).
    destruct (H d ltac:(unfold d; lra)) as (N & HN). specialize (HN N ltac:(lia)). unfold R_dist in HN.
    pose proof (sums_upper k N) as U. apply Rabs_def2 in HN. unfold d in HN. lra.
Qed.

(** The loop returns a partial sum; the last term is small. *)
Lemma loop_sum tol fuel : forall k, (1 <= k)%nat -> 0 <= tol ->
  exists m, (k <= m <= k + fuel)%nat /\
    bs_loop tol (1 / 2 * x * x) L fuel k (il_term L x (k - 1)) (sum k (il_term L x)) = sum m (il_term L x) /\
    (m = (k + fuel)%nat \/ il_term L x (m - 1) <= tol * sum m (il_term L x)).
Proof.
  induction fuel as [|f IH]; intros k Hk Ht; cbn [bs_loop].
  - exists k. split; [lia|]. split; [reflexivity | left; lia].
  - assert (E : il_term L x (k - 1) * ((1 / 2 * x * x) / (INR k * INR (2 * L + 2 * k + 1))) = il_term L x k).
    { destruct k as [|k]; [lia|]. rewrite term_S. cbn [Nat.sub]. rewrite Nat.sub_0_r. reflexivity. }
    rewrite E. change (sum k (il_term L x) + il_term L x k) with (sum (S k) (il_term L x)).
    pose proof (term_pos L x k ltac:(lra)) as Tp.
    pose proof (sums_mono 0 (S k) ltac:(lia)) as Sp. change (sum 0 (il_term L x)) with 0 in Sp.
    rewrite (Rabs_right (il_term L x k)) by lra. rewrite (Rabs_right (sum (S k) (il_term L x))) by lra.
    destruct (Rleb_spec (il_term L x k) (tol * sum (S k) (il_term L x))) as [C|C].
    + exists (S k). split; [lia|]. split; [reflexivity|]. right. replace (S k - 1)%nat with k by lia. exact C.
    + destruct (IH (S k) ltac:(lia) Ht) as (m & Hm & Em & Hl). exists m. split; [lia|]. split.
      * replace (S k - 1)%nat with k in Em by lia. exact Em.
      * destruct Hl as [Hl|Hl]; [left; lia | right; exact Hl].
Qed.
Lemma small_value cyl eps : 0 <= eps -> exists m, (1 <= m <= 256)%nat /\
  bessel_il cyl eps x L = sum m (il_term L x) /\
  (m = 256%nat \/ il_term L x (m - 1) <= eps * (1 / 100) * sum m (il_term L x)).
Proof.
  intros He. destruct (loop_sum (eps * (1 / 100)) 255 1 ltac:(lia) ltac:(lra)) as (m & Hm & Em & Hl).
  exists m. split; [lia|]. split; [|destruct Hl as [Hl|Hl]; [left; lia | right; exact Hl]].
  unfold bessel_il. rewrite (Rabs_right x) by lra. destruct (Rltb_spec x (1 / 2)) as [_|C]; [|lra].
  destruct (Rltb_spec x 0) as [C|_]; [lra|]. cbn [andb]. cbn [sum Nat.sub] in Em. rewrite Rplus_0_l, term_0 in Em.
  revert Em. generalize 255%nat. intros F Em. exact Em.
Qed.
Lemma small_error cyl eps s : 100 * (/ 24) ^ 255 <= eps -> is_il L x s ->
  0 <= s - bessel_il cyl eps x L <= eps / 2300 * bessel_il cyl eps x L.
Proof.
  intros He Hs. assert (Hq : 0 <= (/ 24) ^ 255) by (apply pow_le; lra).
  pose proof (term_geo 0 255) as G. change (0 + 255)%nat with 255%nat in G. revert He Hq G. generalize ((/ 24) ^ 255). intros q He Hq G.
  assert (He0 : 0 <= eps) by lra.
  destruct (small_value cyl eps He0) as (m & Hm & -> & Hl).
  destruct m as [|m]; [lia|]. destruct (series_between s m Hs) as [A B]. split; [lra|].
  replace (S m - 1)%nat with m in Hl by lia.
  assert (C : il_term L x m <= eps * (1 / 100) * sum (S m) (il_term L x)); [|lra].
  destruct Hl as [Hl|Hl]; [|exact Hl]. assert (m = 255)%nat as -> by lia.
  eapply Rle_trans; [exact G|].
  apply Rmult_le_compat; [exact Hq | apply term_pos; lra | lra |].
  pose proof (sums_mono 1 256 ltac:(lia)) as M. replace (sum 1 (il_term L x)) with (il_term L x 0) in M by (cbn; ring). exact M.
Qed.
End Small.

(** * Parity *)
Lemma loop_zero tol r2 L f k : bs_loop tol r2 L f k 0 0 = 0.
Proof.
  destruct f as [|f]; [reflexivity|]. cbn [bs_loop]. rewrite Rmult_0_l, Rplus_0_r, Rabs_R0, Rmult_0_r.
  destruct (Rleb_spec 0 0) as [_|C]; [reflexivity | lra].
Qed.
Lemma il_parity cyl eps r L : bessel_il cyl eps (- r) L = (if Nat.odd L then -1 else 1) * bessel_il cyl eps r L.
Proof.
  destruct (Req_dec r 0) as [->|Hr].
  - rewrite Ropp_0. destruct (Nat.odd L) eqn:O; [|ring].
    enough (bessel_il cyl eps 0 L = 0) as -> by ring.
    unfold bessel_il. rewrite Rabs_R0. destruct (Rltb_spec 0 (1 / 2)) as [_|C]; [|lra]. destruct (Rltb_spec 0 0) as [C|_]; [lra|].
    cbn [andb]. destruct L as [|L]; [discriminate|].
    replace (0 ^ S L / bs_dfac (S L)) with 0 by (cbn [pow]; unfold Rdiv; ring).
    apply loop_zero.
  - unfold bessel_il. rewrite Rabs_Ropp. set (v := if Rltb (Rabs r) (1 / 2) then _ else _).
    destruct (Rltb_spec (- r) 0) as [A|A], (Rltb_spec r 0) as [B|B]; try lra; destruct (Nat.odd L); cbn [andb]; ring.
Qed.
Lemma is_il_parity L x s : is_il L x s -> is_il L (- x) ((if Nat.odd L then -1 else 1) * s).
Proof.
  intros H. unfold is_il in *. set (c := if Nat.odd L then -1 else 1).
  assert (E : forall n, c * sum n (il_term L x) = sum n (il_term L (- x))).
  { intros n. rewrite <- sum_scal. apply sum_ext. intros k _. rewrite term_abs. reflexivity. }
  assert (C : Un_cv (fun _ => c) c) by (intros e He; exists 0%nat; intros; unfold R_dist; rewrite Rminus_diag_eq, Rabs_R0 by reflexivity; exact He).
  pose proof (CV_mult _ _ _ _ C H) as M. intros e He. destruct (M e He) as (N & HN). exists N. intros n Hn.
  rewrite <- E. apply HN. exact Hn.
Qed.
Lemma il_unique L x s t : is_il L x s -> is_il L x t -> s = t.
Proof. intros A B. exact (UL_sequence _ _ _ A B). Qed.

Theorem il_small cyl eps r L : Rabs r < 1 / 2 -> 100 * (/ 24) ^ 255 <= eps ->
  exists s, is_il L r s /\ Rabs (bessel_il cyl eps r L - s) <= eps / 2300 * Rabs (bessel_il cyl eps r L).
Proof.
  intros Hr He. pose proof (small_error L) as SE. revert He SE. assert (Hq : 0 <= (/ 24) ^ 255) by (apply pow_le; lra). revert Hq.
  generalize ((/ 24) ^ 255). intros q Hq He SE. assert (He0 : 0 <= eps) by lra.
  assert (P : forall x, 0 <= x < 1 / 2 -> exists s, is_il L x s /\ Rabs (bessel_il cyl eps x L - s) <= eps / 2300 * Rabs (bessel_il cyl eps x L)).
  { intros x Hx. destruct (series_exists L x Hx) as (s & Hs). exists s. split; [exact Hs|].
    destruct (SE x Hx cyl eps s He Hs) as [A B].
    rewrite Rabs_minus_sym, (Rabs_right (s - bessel_il cyl eps x L)) by lra.
    destruct (small_value L x Hx cyl eps He0) as (m & Hm & E & _). rewrite Rabs_right; [exact B|].
    rewrite E. pose proof (sums_mono L x Hx 0 m ltac:(lia)) as M. cbn [sum] in M. lra. }
  destruct (Rle_lt_dec 0 r) as [G|G].
  - apply P. rewrite Rabs_right in Hr by lra. lra.
  - rewrite Rabs_left in Hr by exact G. destruct (P (- r) ltac:(lra)) as (s & Hs & Hb).
    exists ((if Nat.odd L then -1 else 1) * s). split.
    + replace r with (- - r) by ring. apply is_il_parity. exact Hs.
    + rewrite il_parity in Hb. destruct (Nat.odd L).
      * rewrite Rabs_mult in Hb. replace (Rabs (-1)) with 1 in Hb by (rewrite Rabs_left; lra). rewrite Rmult_1_l in Hb.
        replace (bessel_il cyl eps r L - -1 * s) with (- (-1 * bessel_il cyl eps r L - s)) by ring. rewrite Rabs_Ropp. exact Hb.
      * rewrite !Rmult_1_l in Hb. rewrite Rmult_1_l. exact Hb.
Qed.

(** * The series is the Bessel function *)
Lemma term_rec L x k : x * il_term L x (S k) = x * il_term (S (S L)) x k + (2 * INR L + 3) * il_term (S L) x (S k).
Proof.
  unfold il_term.
  replace (L + 2 * S k)%nat with (S (S (L + 2 * k))) by lia.
  replace (S (S L) + 2 * k)%nat with (S (S (L + 2 * k))) by lia.
  replace (S L + 2 * S k)%nat with (S (S (S (L + 2 * k)))) by lia.
  replace (L + S k + 1)%nat with (S (L + k + 1)) by lia.
  replace (S (S L) + k + 1)%nat with (S (S (L + k + 1))) by lia.
  replace (S L + S k + 1)%nat with (S (S (L + k + 1))) by lia.
  cbn [odd_factorial]. replace (INR (fact (S k))) with (INR (S k) * INR (fact k)) by (rewrite <- mult_INR; reflexivity).
  rewrite !S_INR. rewrite !plus_INR. cbn [INR pow].
  pose proof (odd_pos (L + k + 1)). pose proof (pos_INR L). pose proof (pos_INR k). pose proof (INR_fact_lt_0 k).
  assert (0 < 2 ^ k) by (apply pow_lt; lra).
  field. repeat split; lra.
Qed.
Lemma term_rec0 L x : x * il_term L x 0 = (2 * INR L + 3) * il_term (S L) x 0.
Proof.
  unfold il_term. replace (L + 2 * 0)%nat with L by lia. replace (S L + 2 * 0)%nat with (S L) by lia.
  replace (L + 0 + 1)%nat with (S L) by lia. replace (S L + 0 + 1)%nat with (S (S L)) by lia.
  change (odd_factorial (S (S L))) with (odd_factorial (S L) * (2 * INR (S L) + 1)).
  rewrite S_INR. cbn [pow fact INR]. pose proof (odd_pos (S L)). pose proof (pos_INR L). field. split; lra.
Qed.
Lemma cv_const c : Un_cv (fun _ => c) c.
Proof. intros e He. exists 0%nat. intros. unfold R_dist. rewrite Rminus_diag_eq, Rabs_R0 by reflexivity. exact He. Qed.
Lemma cv_shift u l : Un_cv u l -> Un_cv (fun n => u (S n)) l.
Proof. intros H e He. destruct (H e He) as (N & HN). exists N. intros n Hn. apply HN. lia. Qed.
Lemma cv_ext u v l : (forall n, u n = v n) -> Un_cv u l -> Un_cv v l.
Proof. intros E H e He. destruct (H e He) as (N & HN). exists N. intros n Hn. rewrite <- E. apply HN. exact Hn. Qed.
Theorem il_recurrence L x s0 s1 s2 : is_il L x s0 -> is_il (S L) x s1 -> is_il (S (S L)) x s2 ->
  x * s0 - x * s2 = (2 * INR L + 3) * s1.
Proof.
  intros H0 H1 H2.
  assert (E : forall n, x * sum (S n) (il_term L x) - x * sum n (il_term (S (S L)) x) = (2 * INR L + 3) * sum (S n) (il_term (S L) x)).
  { induction n as [|n IH].
    - cbn [sum]. rewrite !Rplus_0_l. rewrite term_rec0. ring.
    - change (sum (S (S n)) ?f) with (sum (S n) f + f (S n)). change (sum (S n) (il_term (S (S L)) x)) with (sum n (il_term (S (S L)) x) + il_term (S (S L)) x n).
      rewrite !Rmult_plus_distr_l, <- IH, term_rec. ring. }
  apply (UL_sequence (fun n => (2 * INR L + 3) * sum (S n) (il_term (S L) x))).
  - apply (cv_ext (fun n => x * sum (S n) (il_term L x) - x * sum n (il_term (S (S L)) x))); [exact E|].
    apply CV_minus; apply CV_mult; try apply cv_const; [apply (cv_shift _ _ H0) | exact H2].
  - apply CV_mult; [apply cv_const | apply (cv_shift _ _ H1)].
Qed.

(** i_0 and i_1. *)
Lemma sum_f_R0_sum f n : sum_f_R0 f n = sum (S n) f.
Proof. induction n as [|n IH]; [cbn; ring|]. cbn [sum_f_R0]. rewrite IH. reflexivity. Qed.
Definition et (x : R) (i : nat) : R := / INR (fact i) * x ^ i.
Lemma exp_cv x : Un_cv (fun n => sum n (et x)) (exp x).
Proof.
  unfold exp. destruct (exist_exp x) as (l & Hl). cbn [proj1_sig]. intros e He. destruct (Hl e He) as (N & HN).
  exists (S N). intros n Hn. destruct n as [|n]; [lia|]. rewrite <- sum_f_R0_sum. apply HN. lia.
Qed.
Lemma cv_sub u l : Un_cv u l -> Un_cv (fun n => u (2 * n)%nat) l.
Proof. intros H e He. destruct (H e He) as (N & HN). exists N. intros n Hn. apply HN. lia. Qed.
Lemma pairs f n : sum (2 * n) f = sum n (fun k => f (2 * k)%nat + f (2 * k + 1)%nat).
Proof.
  induction n as [|n IH]; [reflexivity|]. replace (2 * S n)%nat with (S (S (2 * n))) by lia. cbn [sum]. rewrite IH.
  replace (2 * n + 1)%nat with (S (2 * n)) by lia. ring.
Qed.
Lemma et_opp_even x k : et (- x) (2 * k) = et x (2 * k).
Proof. unfold et. replace (- x) with ((-1) * x) by ring. rewrite Rpow_mult_distr, pow_mult. replace ((-1) ^ 2) with 1 by ring. rewrite pow1. ring. Qed.
Lemma et_opp_odd x k : et (- x) (2 * k + 1) = - et x (2 * k + 1).
Proof. unfold et. replace (- x) with ((-1) * x) by ring. rewrite Rpow_mult_distr, pow_add, pow_mult. replace ((-1) ^ 2) with 1 by ring. rewrite pow1. ring. Qed.
Lemma sinh_cv x : Un_cv (fun n => sum n (fun k => et x (2 * k + 1))) (sinh x).
Proof.
  unfold sinh. apply (cv_ext (fun n => (sum (2 * n) (et x) - sum (2 * n) (et (- x))) * / 2)).
  - intros n. rewrite !pairs, <- sum_minus, <- sum_scal_r. apply sum_ext. intros k _. rewrite et_opp_even, et_opp_odd. field.
  - apply CV_mult; [|apply cv_const]. apply CV_minus; [apply (cv_sub (fun n => sum n (et x))) | apply (cv_sub (fun n => sum n (et (- x))))]; apply exp_cv.
Qed.
Lemma cosh_cv x : Un_cv (fun n => sum n (fun k => et x (2 * k))) (cosh x).
Proof.
  unfold cosh. apply (cv_ext (fun n => (sum (2 * n) (et x) + sum (2 * n) (et (- x))) * / 2)).
  - intros n. rewrite !pairs, <- sum_plus, <- sum_scal_r. apply sum_ext. intros k _. rewrite et_opp_even, et_opp_odd. field.
  - apply CV_mult; [|apply cv_const]. apply CV_plus; [apply (cv_sub (fun n => sum n (et x))) | apply (cv_sub (fun n => sum n (et (- x))))]; apply exp_cv.
Qed.
(** (2k+1)! = 2^k k! (2k+1)!! *)
Lemma fact_odd k : INR (fact (2 * k + 1)) = 2 ^ k * INR (fact k) * odd_factorial (k + 1).
Proof.
  induction k as [|k IH]; [cbn; ring|].
  replace (2 * S k + 1)%nat with (S (S (2 * k + 1))) by lia.
  change (fact (S (S (2 * k + 1)))) with (S (S (2 * k + 1)) * (S (2 * k + 1) * fact (2 * k + 1)))%nat.
  rewrite !mult_INR, IH. replace (S k + 1)%nat with (S (k + 1)) by lia. cbn [odd_factorial].
  change (fact (S k)) with (S k * fact k)%nat. rewrite mult_INR, !S_INR, !plus_INR, mult_INR. cbn [INR pow]. ring.
Qed.
Theorem il_0 x s : is_il 0 x s -> x * s = sinh x.
Proof.
  intros H. apply (UL_sequence (fun n => sum n (fun k => et x (2 * k + 1)))); [|apply sinh_cv].
  apply (cv_ext (fun n => x * sum n (il_term 0 x))); [|apply CV_mult; [apply cv_const | exact H]].
  intros n. rewrite <- sum_scal. apply sum_ext. intros k _. unfold il_term, et. rewrite fact_odd.
  cbn [Nat.add]. rewrite (pow_add x (2 * k) 1). pose proof (term_den_pos k (k + 1)). cbn [pow]. field. split.
  - pose proof (odd_pos (k + 1)). lra.
  - split; [apply INR_fact_neq_0 | apply pow_nonzero; lra].
Qed.
Theorem il_1 x s : is_il 1 x s -> x * x * s = x * cosh x - sinh x.
Proof.
  intros H. apply (UL_sequence (fun n => sum (S n) (fun k => x * et x (2 * k) - et x (2 * k + 1)))).
  2:{ apply (cv_shift (fun n => sum n (fun k => x * et x (2 * k) - et x (2 * k + 1)))).
      apply (cv_ext (fun n => x * sum n (fun k => et x (2 * k)) - sum n (fun k => et x (2 * k + 1)))).
      - intros n. rewrite <- sum_scal, <- sum_minus. reflexivity.
      - apply CV_minus; [apply CV_mult; [apply cv_const | apply cosh_cv] | apply sinh_cv]. }
  apply (cv_ext (fun n => x * x * sum n (il_term 1 x))); [|apply CV_mult; [apply cv_const | exact H]].
  intros n. rewrite <- sum_scal. rewrite sum_shift.
  replace (x * et x (2 * 0) - et x (2 * 0 + 1)) with 0 by (unfold et; cbn; field). rewrite Rplus_0_l.
  apply sum_ext. intros k _. unfold il_term, et.
  replace (2 * S k + 1)%nat with (S (S (2 * k + 1))) by lia. replace (2 * S k)%nat with (S (2 * k + 1)) by lia.
  change (fact (S (S (2 * k + 1)))) with (S (S (2 * k + 1)) * fact (S (2 * k + 1)))%nat.
  change (fact (S (2 * k + 1))) with (S (2 * k + 1) * fact (2 * k + 1))%nat. rewrite !mult_INR, fact_odd.
  replace (1 + k + 1)%nat with (S (k + 1)) by lia. cbn [odd_factorial]. replace (1 + 2 * k)%nat with (2 * k + 1)%nat by lia.
  rewrite !S_INR, !plus_INR, !mult_INR. cbn [INR pow].
  pose proof (odd_pos (k + 1)). pose proof (pos_INR k). pose proof (INR_fact_neq_0 k). assert (2 ^ k <> 0) by (apply pow_nonzero; lra).
  field. repeat split; try assumption; lra.
Qed.

(** * Inverse hyperbolic functions *)
Lemma inv_uniq a b : a <> 0 -> a * b = 1 -> / a = b.
Proof. intros H E. apply (Rmult_eq_reg_l a); [|exact H]. rewrite E. apply Rinv_r. exact H. Qed.
Lemma exp_half_sum a : 0 < a -> (exp (ln a) + exp (- ln a)) / 2 = (a + / a) / 2.
Proof. intros H. rewrite exp_Ropp, exp_ln by exact H. reflexivity. Qed.
Lemma acosh_arg x : 1 <= x -> 1 <= x + sqrt (x * x - 1) /\ / (x + sqrt (x * x - 1)) = x - sqrt (x * x - 1).
Proof.
  intros H. pose proof (sqrt_pos (x * x - 1)) as P.
  assert (Q : 0 <= x * x - 1) by (assert (1 * 1 <= x * x) by (apply Rmult_le_compat; lra); lra).
  split; [lra|]. apply inv_uniq; [lra|].
  replace ((x + sqrt (x * x - 1)) * (x - sqrt (x * x - 1))) with (x * x - sqrt (x * x - 1) * sqrt (x * x - 1)) by ring.
  rewrite sqrt_sqrt by exact Q. ring.
Qed.
Lemma arcosh_pos x : 0 <= arcosh x.
Proof.
  unfold arcosh, acosh. destruct (acosh_arg (Rmax x 1) (Rmax_r x 1)) as [A _].
  rewrite <- ln_1. destruct (Rle_lt_or_eq_dec _ _ A) as [B|B]; [left; apply ln_increasing; lra | rewrite <- B; right; reflexivity].
Qed.
Lemma cosh_arcosh x : cosh (arcosh x) = Rmax x 1.
Proof.
  unfold arcosh, acosh. destruct (acosh_arg (Rmax x 1) (Rmax_r x 1)) as [A B].
  unfold cosh. rewrite exp_half_sum by lra. rewrite B. field.
Qed.
Lemma cosh_ge_1 m : 1 <= cosh m.
Proof.
  unfold cosh. pose proof (exp_pos m) as P. rewrite exp_Ropp.
  assert (Q : 0 <= (exp m - 1) * (exp m - 1) * / exp m).
  { apply Rmult_le_pos; [apply Rle_0_sqr | apply Rlt_le, Rinv_0_lt_compat, P]. }
  replace ((exp m - 1) * (exp m - 1) * / exp m) with (exp m + / exp m - 2) in Q by (field; lra). lra.
Qed.
Lemma arcosh_cosh m : 0 <= m -> arcosh (cosh m) = m.
Proof.
  intros H. unfold arcosh, acosh. rewrite Rmax_left by apply cosh_ge_1.
  replace (cosh m * cosh m - 1) with (sinh m * sinh m).
  2:{ unfold cosh, sinh. rewrite exp_Ropp. pose proof (exp_pos m). field. lra. }
  rewrite sqrt_square.
  - replace (cosh m + sinh m) with (exp m) by (unfold cosh, sinh; field). apply ln_exp.
  - unfold sinh. rewrite exp_Ropp. assert (1 <= exp m).
    { rewrite <- exp_0. destruct (Rle_lt_or_eq_dec _ _ H) as [B|B]; [left; apply exp_increasing; exact B | rewrite <- B; right; reflexivity]. }
    assert (/ exp m <= 1) by (rewrite <- Rinv_1; apply Rinv_le_contravar; lra). lra.
Qed.
Lemma sinh_arsinh x : sinh (arsinh x) = x.
Proof.
  change (arsinh x) with (ln (x + sqrt (x * x + 1))). 
  assert (A : Rabs x < sqrt (x * x + 1)).
  { rewrite <- (sqrt_Rsqr_abs x). apply sqrt_lt_1; unfold Rsqr; pose proof (Rle_0_sqr x) as Q; unfold Rsqr in Q; lra. }
  pose proof (Rle_abs (- x)) as B. rewrite Rabs_Ropp in B.
  assert (P : 0 < x + sqrt (x * x + 1)) by lra.
  unfold sinh. rewrite exp_Ropp, exp_ln by exact P.
  assert (I : / (x + sqrt (x * x + 1)) = sqrt (x * x + 1) - x).
  { apply inv_uniq; [lra|]. replace ((x + sqrt (x * x + 1)) * (sqrt (x * x + 1) - x)) with (sqrt (x * x + 1) * sqrt (x * x + 1) - x * x) by ring.
    rewrite sqrt_sqrt; [ring|]. pose proof (Rle_0_sqr x) as Q; unfold Rsqr in Q; lra. }
  rewrite I. field.
Qed.
Lemma arsinh_sinh m : arsinh (sinh m) = m.
Proof.
  unfold arsinh. replace (sinh m * sinh m + 1) with (cosh m * cosh m).
  2:{ unfold cosh, sinh. rewrite exp_Ropp. pose proof (exp_pos m). field. lra. }
  rewrite sqrt_square by (pose proof (cosh_ge_1 m); lra).
  replace (sinh m + cosh m) with (exp m) by (unfold cosh, sinh; field). apply ln_exp.
Qed.

(** * Vectors, values *)
Lemma map_at (f : R -> R) l i : (i < length l)%nat -> nth i (map f l) 0 = f (nth i l 0).
Proof. intros H. rewrite (nth_indep _ 0 (f 0)) by (rewrite map_length; exact H). apply map_nth. Qed.
Lemma il_vector cyl eps r L : length (bessel_il_vec cyl eps r L) = length r /\
  forall i, (i < length r)%nat -> nth i (bessel_il_vec cyl eps r L) 0 = bessel_il cyl eps (nth i r 0) L.
Proof.
  split; [apply map_length|]. intros i Hi. unfold bessel_il_vec. apply (map_at (fun x => bessel_il cyl eps x L)). exact Hi.
Qed.
Lemma inverse_vectors x : length (arcosh_vec x) = length x /\ length (arsinh_vec x) = length x /\
  forall i, (i < length x)%nat -> cosh (nth i (arcosh_vec x) 0) = Rmax (nth i x 0) 1 /\ sinh (nth i (arsinh_vec x) 0) = nth i x 0.
Proof.
  split; [apply map_length|]. split; [apply map_length|]. intros i Hi. unfold arcosh_vec, arsinh_vec. rewrite !map_at by exact Hi.
  split; [apply cosh_arcosh | apply sinh_arsinh].
Qed.
Lemma eps_room : 100 * (/ 24) ^ 255 <= / 2 ^ 112.
Proof.
  assert (A : (/ 24) ^ 255 <= (/ 24) ^ 27).
  { replace ((/ 24) ^ 255) with ((/ 24) ^ 27 * (/ 24) ^ 228) by (rewrite <- pow_add; reflexivity).
    rewrite <- (Rmult_1_r ((/ 24) ^ 27)) at 2. apply Rmult_le_compat_l; [apply pow_le; lra|].
    rewrite <- (pow1 228). apply pow_incr. lra. }
  revert A. generalize ((/ 24) ^ 255). intros q A.
  assert (B : 100 * (/ 24) ^ 27 <= / 2 ^ 112); [|lra].
  rewrite pow_inv. apply (Rmult_le_reg_r (24 ^ 27)); [apply pow_lt; lra|]. apply (Rmult_le_reg_r (2 ^ 112)); [apply pow_lt; lra|].
  replace (100 * / 24 ^ 27 * 24 ^ 27 * 2 ^ 112) with (100 * 2 ^ 112) by (field; apply pow_nonzero; lra).
  replace (/ 2 ^ 112 * 24 ^ 27 * 2 ^ 112) with (24 ^ 27) by (field; apply pow_nonzero; lra).
  rewrite !pow_IZR, <- mult_IZR. apply IZR_le. vm_compute. discriminate.
Qed.
Lemma zero_values cyl : bessel_il cyl (/ 2 ^ 52) 0 0 = 1 /\ bessel_il cyl (/ 2 ^ 52) 0 3 = 0.
Proof.
  assert (P : 0 < / 2 ^ 52) by (apply Rinv_0_lt_compat, pow_lt; lra). revert P. generalize (/ 2 ^ 52). intros e P.
  assert (N : Rltb 0 0 = false) by (destruct (Rltb_spec 0 0); [lra | reflexivity]).
  unfold bessel_il. rewrite Rabs_R0, N. cbn [andb]. destruct (Rltb_spec 0 (1 / 2)) as [_|C]; [|lra]. split.
  - replace (0 ^ 0 / bs_dfac 0) with 1 by (cbn; field).
    replace (1 / 2 * 0 * 0) with 0 by ring.
    change 255%nat with (S 254). generalize 254%nat. intros g. cbn [bs_loop].
    replace (1 * (0 / (INR 1 * INR (2 * 0 + 2 * 1 + 1)))) with 0 by (unfold Rdiv; ring).
    rewrite Rabs_R0, Rplus_0_r, Rabs_R1. destruct (Rleb_spec 0 (e * (1 / 100) * 1)) as [_|C]; [reflexivity | lra].
  - replace (0 ^ 3 / bs_dfac 3) with 0 by (unfold Rdiv; cbn [pow]; ring). apply loop_zero.
Qed.
