(** Proofs about the Legendre tables. *)
Require Import Reals List Arith Bool ZArith Lia Lra.
Require Import Verif.Prelude Verif.LegModel Verif.LegSpec Verif.LegMath.
Import ListNotations.
Open Scope R_scope.

(** * Loops *)
Definition runs (r : res vec) (Q : vec -> Prop) : Prop := exists a, r = Ok a /\ Q a.
Lemma runs_ok a (Q : vec -> Prop) : Q a -> runs (Ok a) Q.
Proof. intros H. exists a. split; [reflexivity | exact H]. Qed.
Lemma runs_bind r f (Q Q' : vec -> Prop) : runs r Q -> (forall a, Q a -> runs (f a) Q') -> runs (bind r f) Q'.
Proof. intros (a & -> & H) Hf. apply Hf. exact H. Qed.
Lemma runs_imp r (Q Q' : vec -> Prop) : runs r Q -> (forall a, Q a -> Q' a) -> runs r Q'.
Proof. intros (a & E & H) Hi. exists a. split; [exact E | apply Hi; exact H]. Qed.

Lemma for_app ks ks' body a : for_ (ks ++ ks') body a = bind (for_ ks body a) (for_ ks' body).
Proof. revert a. induction ks as [|k r IH]; intros a; cbn [app for_]; [reflexivity|]. destruct (body k a); cbn [bind]; try reflexivity. apply IH. Qed.
Lemma for_up (Inv : nat -> vec -> Prop) body s n a : Inv 0%nat a ->
  (forall k b, (k < n)%nat -> Inv k b -> runs (body (s + k)%nat b) (Inv (S k))) ->
  runs (for_ (seq s n) body a) (Inv n).
Proof.
  intros H0 Hs. induction n as [|n IH]; [apply runs_ok; exact H0|].
  replace (S n) with (n + 1)%nat by lia. rewrite seq_app, for_app. cbn [seq]. apply (runs_bind _ _ (Inv n)).
  - apply IH. intros k b Hk. apply Hs. lia.
  - intros b Hb. cbn [for_]. replace (n + 1)%nat with (S n) by lia. apply (runs_bind _ _ (Inv (S n))); [apply Hs; [lia | exact Hb]|].
    intros c Hc. apply runs_ok. exact Hc.
Qed.
Lemma for_down (Inv : nat -> vec -> Prop) body s n a : Inv n a ->
  (forall k b, (k < n)%nat -> Inv (S k) b -> runs (body (s + k)%nat b) (Inv k)) ->
  runs (for_ (rev (seq s n)) body a) (Inv 0%nat).
Proof.
  revert a. induction n as [|n IH]; intros a H0 Hs; [apply runs_ok; exact H0|].
  replace (S n) with (n + 1)%nat by lia. rewrite seq_app, rev_app_distr. cbn [seq rev app for_].
  apply (runs_bind _ _ (Inv n)); [apply Hs; [lia | exact H0]|]. intros b Hb. apply IH; [exact Hb|]. intros k c Hk. apply Hs. lia.
Qed.

(** * Cells *)
Section Cells.
Variables lmax mmax : nat.
Notation ix l m := (idx l m lmax).
Notation sz := (size lmax mmax).
Lemma ix_range l m : (l <= lmax)%nat -> (m <= mmax)%nat -> (ix l m < sz)%nat.
Proof. intros Hl Hm. unfold idx, size. nia. Qed.
Lemma ix_inj l m l' m' : (l <= lmax)%nat -> (l' <= lmax)%nat -> ix l m = ix l' m' -> l = l' /\ m = m'.
Proof. unfold idx. intros Hl Hl' E. assert (m = m') by nia. subst. split; [lia | reflexivity]. Qed.
Lemma rd_cell a l m (k : R -> res vec) Q : (l <= lmax)%nat -> (m <= mmax)%nat -> runs (k (a (ix l m))) Q -> runs (bind (rd sz a (ix l m)) k) Q.
Proof. intros Hl Hm H. unfold rd. rewrite (proj2 (Nat.ltb_lt _ _)) by (apply ix_range; assumption). exact H. Qed.

(** The cells of [done] hold the target. *)
Definition tab (T : nat -> nat -> R) (done : nat -> nat -> Prop) (a : vec) : Prop :=
  forall l m, (l <= lmax)%nat -> (m <= mmax)%nat -> done l m -> a (ix l m) = T l m.
Lemma tab_sub T (d d' : nat -> nat -> Prop) a : (forall l m, (l <= lmax)%nat -> (m <= mmax)%nat -> d' l m -> d l m) -> tab T d a -> tab T d' a.
Proof. intros H Ht l m Hl Hm Hd. apply Ht; [exact Hl | exact Hm | apply H; assumption]. Qed.
Lemma wr_cell a l m v (Q : vec -> Prop) : (l <= lmax)%nat -> (m <= mmax)%nat ->
  (forall b, b (ix l m) = v -> (forall l' m', (l' <= lmax)%nat -> (m' <= mmax)%nat -> (l' <> l \/ m' <> m) -> b (ix l' m') = a (ix l' m')) -> Q b) ->
  runs (wr sz a (ix l m) v) Q.
Proof.
  intros Hl Hm H. unfold wr. rewrite (proj2 (Nat.ltb_lt _ _)) by (apply ix_range; assumption). apply runs_ok. apply H.
  - rewrite Nat.eqb_refl. reflexivity.
  - intros l' m' Hl' Hm' Hne. destruct (Nat.eqb_spec (ix l' m') (ix l m)) as [E|]; [|reflexivity].
    apply ix_inj in E; [lia | assumption | assumption].
Qed.
Lemma wr_tab T (d d' : nat -> nat -> Prop) a l m v : (l <= lmax)%nat -> (m <= mmax)%nat -> tab T d a -> v = T l m ->
  (forall l' m', (l' <= lmax)%nat -> (m' <= mmax)%nat -> d' l' m' -> d l' m' \/ (l' = l /\ m' = m)) ->
  runs (wr sz a (ix l m) v) (tab T d').
Proof.
  intros Hl Hm Ht -> Hd. apply wr_cell; [assumption | assumption|]. intros b Hb Hk l' m' Hl' Hm' H.
  destruct (Hd l' m' Hl' Hm' H) as [H'|(-> & ->)]; [|exact Hb].
  destruct (Nat.eq_dec l' l) as [->|]; [destruct (Nat.eq_dec m' m) as [->|]; [exact Hb|]|];
    (rewrite Hk by (try assumption; lia); apply Ht; assumption).
Qed.
End Cells.

(** * The factor of order m *)
Definition fac (x : R) : R := - sign_factor x * w_of x.
Lemma sign_cases x : (Rabs x <= 1 /\ sign_factor x = 1) \/ (1 < Rabs x /\ sign_factor x = -1).
Proof. unfold sign_factor. destruct (Rleb_spec (Rabs x) 1); [left | right]; split; (reflexivity || lra). Qed.
Lemma sign_sq x : sign_factor x * sign_factor x = 1.
Proof. destruct (sign_cases x) as [(_ & ->)|(_ & ->)]; ring. Qed.
Lemma sq_abs x : x * x = Rabs x * Rabs x.
Proof. rewrite <- Rabs_mult, Rabs_right; [reflexivity | nra]. Qed.
Lemma w_arg x : 0 <= sign_factor x * (1 - x * x).
Proof. rewrite sq_abs. pose proof (Rabs_pos x). destruct (sign_cases x) as [(H1 & ->)|(H1 & ->)]; nra. Qed.
Lemma w_sq x : w_of x * w_of x = sign_factor x * (1 - x * x).
Proof. unfold w_of, sqrt_clamped. rewrite Rmax_left by apply w_arg. apply sqrt_sqrt. apply w_arg. Qed.
Lemma w_nz x : off_unit x -> w_of x <> 0.
Proof.
  intros H E. pose proof (w_sq x) as W. rewrite E in W. rewrite (sq_abs x) in W. pose proof (Rabs_pos x). unfold off_unit in H.
  assert (Z : 1 - Rabs x * Rabs x = 0) by (destruct (sign_cases x) as [(_ & Es)|(_ & Es)]; rewrite Es in W; lra).
  assert (Z2 : (1 - Rabs x) * (1 + Rabs x) = 0) by lra. apply Rmult_integral in Z2. apply H. lra.
Qed.
Lemma assoc_fac D l m x : associated D l m x = fac x ^ m * D m l x.
Proof.
  unfold associated, fac, w_of, sqrt_clamped. rewrite Rmax_left by apply w_arg. unfold sign_factor.
  destruct (Rle_dec (Rabs x) 1) as [H|H]; destruct (Rleb_spec (Rabs x) 1); try lra.
  - rewrite <- Rpow_mult_distr. f_equal. f_equal. rewrite Rmult_1_l. ring.
  - f_equal. f_equal. replace (-1 * (1 - x * x)) with (x * x - 1) by ring. ring.
Qed.
Lemma INR_odd m : INR (2 * m + 1) = 2 * INR m + 1.
Proof. rewrite plus_INR, mult_INR. cbn. ring. Qed.

(** * First kind *)
Section FirstTable.
Variables (lmax mmax : nat) (D : nat -> nat -> R -> R) (x : R).
Hypothesis HP : first_kind D.
Notation T := (fun l m => associated D l m x).
Notation ix l m := (idx l m lmax).
Notation sz := (size lmax mmax).

Lemma P_zero l m : (l < m)%nat -> associated D l m x = 0.
Proof. intros H. rewrite assoc_fac, (P_above D HP) by exact H. ring. Qed.

(** The up step, for any table whose target satisfies the recurrence. *)
Lemma up_step_ok (U : nat -> nat -> R) (d d' : nat -> nat -> Prop) a m l : (1 <= l)%nat -> (l + 1 <= lmax)%nat -> (m <= mmax)%nat -> m <> (l + 1)%nat ->
  (INR l + 1 - INR m) * U (l + 1)%nat m = (2 * INR l + 1) * x * U l m - (INR l + INR m) * U (l - 1)%nat m ->
  tab lmax mmax U d a -> d l m -> d (l - 1)%nat m ->
  (forall l' m', (l' <= lmax)%nat -> (m' <= mmax)%nat -> d' l' m' -> d l' m' \/ (l' = l + 1 /\ m' = m)%nat) ->
  runs (up_step lmax mmax m x l a) (tab lmax mmax U d').
Proof.
  intros H1 H2 Hm Hne E Ht D1 D2 Hd. unfold up_step. apply rd_cell; [lia | exact Hm|]. apply rd_cell; [lia | exact Hm|].
  apply (wr_tab lmax mmax U d); try assumption.
  rewrite (Ht l m), (Ht (l - 1)%nat m) by (assumption || lia). rewrite INR_odd, plus_INR.
  assert (Hz : INR l + 1 - INR m <> 0).
  { rewrite <- (S_INR l). intros Z. apply Hne. replace (l + 1)%nat with (S l) by lia. apply INR_eq. lra. }
  apply (Rmult_eq_reg_l (INR l + 1 - INR m)); [|exact Hz]. rewrite E. field. exact Hz.
Qed.

Lemma plm_table : runs (compute_plm lmax mmax x) (tab lmax mmax T (fun _ _ => True)).
Proof.
  unfold compute_plm, seed_plm.
  set (up := fun l m : nat => (l < m)%nat).
  apply (runs_bind _ _ (tab lmax mmax T (fun l m => (l <= m + 1)%nat))).
  - apply (runs_bind _ _ (tab lmax mmax T (fun l m => up l m \/ (l = 0 /\ m = 0)%nat))).
    { apply (wr_tab lmax mmax T up); try lia.
      - intros l m _ _ H. rewrite P_zero by exact H. reflexivity.
      - rewrite assoc_fac. destruct HP as (_ & _ & E & _). rewrite E. cbn. ring.
      - intros l m _ _ H. exact H. }
    intros a Ha. apply (runs_bind _ _ (tab lmax mmax T (fun l m => up l m \/ l = m))).
    + eapply runs_imp.
      { apply (for_up (fun k => tab lmax mmax T (fun l m => up l m \/ (l = m /\ m <= k)%nat))).
        - eapply tab_sub; [|exact Ha]. unfold up. cbv beta. intros l m _ _ H. lia.
        - intros k b Hk Hb. replace (1 + k - 1)%nat with k by lia. apply rd_cell; [lia | lia|].
          apply (wr_tab lmax mmax T (fun l m => up l m \/ (l = m /\ m <= k)%nat)); [lia | lia | exact Hb | |].
          + rewrite (Hb k k) by lia. cbv beta. rewrite !assoc_fac. replace (1 + k)%nat with (S k) by lia. rewrite (P_diag D HP).
            replace (2 * S k - 1)%nat with (2 * k + 1)%nat by lia. rewrite INR_odd. unfold fac. cbn [pow]. ring.
          + unfold up. cbv beta. intros l m _ _ H. lia. }
      intros b Hb. eapply tab_sub; [|exact Hb]. unfold up. cbv beta. intros l m Hl Hm H. lia.
    + clear a Ha. intros a Ha. eapply runs_imp.
      { apply (for_up (fun k => tab lmax mmax T (fun l m => up l m \/ l = m \/ (l = m + 1 /\ m < k)%nat))).
        - eapply tab_sub; [|exact Ha]. unfold up. cbv beta. intros l m _ _ H. lia.
        - intros k b Hk Hb. cbn [Nat.add]. apply rd_cell; [lia | lia|].
          apply (wr_tab lmax mmax T (fun l m => up l m \/ l = m \/ (l = m + 1 /\ m < k)%nat)); [lia | lia | exact Hb | |].
          + rewrite (Hb k k) by lia. cbv beta. rewrite !assoc_fac. replace (k + 1)%nat with (S k) by lia. rewrite (P_sub D HP), INR_odd. ring.
          + unfold up. cbv beta. intros l m _ _ H. lia. }
      intros b Hb. eapply tab_sub; [|exact Hb]. unfold up. cbv beta. intros l m Hl Hm H. lia.
  - intros a Ha. eapply runs_imp.
    { apply (for_up (fun k => tab lmax mmax T (fun l m => (l <= m + 1)%nat \/ (m < k)%nat))).
      - eapply tab_sub; [|exact Ha]. cbv beta. intros l m _ _ H. lia.
      - intros k b Hk Hb. cbn [Nat.add]. unfold recur_plm_in_l. eapply runs_imp.
        { apply (for_up (fun j => tab lmax mmax T (fun l m => (l <= m + 1)%nat \/ (m < k)%nat \/ (m = k /\ l <= k + 1 + j)%nat))).
          - eapply tab_sub; [|exact Hb]. cbv beta. intros l m _ _ H. lia.
          - intros j c Hj Hc. apply (up_step_ok T (fun l m => (l <= m + 1)%nat \/ (m < k)%nat \/ (m = k /\ l <= k + 1 + j)%nat)); try lia; try exact Hc.
            cbv beta. rewrite !assoc_fac. pose proof (P_rec D HP k (k + j) x) as E.
              replace (k + 1 + j + 1)%nat with (S (S (k + j))) by lia. replace (k + 1 + j)%nat with (S (k + j)) by lia. replace (S (k + j) - 1)%nat with (k + j)%nat by lia.
              rewrite S_INR. replace ((INR (k + j) + 1 + 1 - INR k) * (fac x ^ k * D k (S (S (k + j))) x)) with (fac x ^ k * ((INR (k + j) + 2 - INR k) * D k (S (S (k + j))) x)) by ring.
              rewrite E. ring. }
        intros c Hc. eapply tab_sub; [|exact Hc]. cbv beta. intros l m Hl Hm H. lia. }
    intros b Hb. eapply tab_sub; [|exact Hb]. cbv beta. intros l m Hl Hm _. lia.
Qed.
End FirstTable.

(** * Second kind *)
Lemma ln_abs_lim x : x <> 0 -> derivable_pt_lim (fun y => ln (Rabs y)) x (/ x).
Proof.
  intros Hx. destruct (Rlt_dec 0 x) as [H|H].
  - apply (local_lim ln); [|apply derivable_pt_lim_ln; exact H]. exists x. split; [exact H|]. intros y Hy.
    apply Rabs_def2 in Hy. rewrite Rabs_right by lra. reflexivity.
  - apply (local_lim (fun y => ln (- y))).
    + exists (- x). split; [lra|]. intros y Hy. apply Rabs_def2 in Hy. rewrite Rabs_left by lra. reflexivity.
    + eapply lim_eq; [|apply (derivable_pt_lim_comp (fun y => - y) ln); [apply derivable_pt_lim_opp; apply lim_id | apply derivable_pt_lim_ln; lra]].
      field. lra.
Qed.
Lemma off_nz x : off_unit x -> x + 1 <> 0 /\ x - 1 <> 0.
Proof. unfold off_unit. intros H. split; intros E; apply H; [replace x with (-1) by lra; rewrite Rabs_left; lra | replace x with 1 by lra; apply Rabs_R1]. Qed.
Lemma off_u x : off_unit x -> x * x - 1 <> 0.
Proof. intros H. destruct (off_nz x H). replace (x * x - 1) with ((x + 1) * (x - 1)) by ring. apply Rmult_integral_contrapositive. auto. Qed.
Lemma q00_ln x : off_unit x -> q00 x = 1 / 2 * ln (Rabs ((x + 1) / (x - 1))).
Proof.
  intros H. destruct (off_nz x H) as (A & B). unfold q00, Rdiv. rewrite Rabs_mult, Rabs_inv.
  rewrite ln_mult by (try apply Rinv_0_lt_compat; apply Rabs_pos_lt; assumption).
  rewrite ln_Rinv by (apply Rabs_pos_lt; assumption). ring.
Qed.
Lemma q00_lim x : off_unit x -> derivable_pt_lim q00 x (- / (x * x - 1)).
Proof.
  intros H. destruct (off_nz x H) as (A & B). unfold q00. eapply lim_eq; [|apply lim_scal; apply lim_minus].
  2:{ apply (derivable_pt_lim_comp (fun y => y + 1) (fun y => ln (Rabs y))); [apply lim_plus; [apply lim_id | apply lim_const] | apply ln_abs_lim; exact A]. }
  2:{ apply (derivable_pt_lim_comp (fun y => y - 1) (fun y => ln (Rabs y))); [apply lim_minus; [apply lim_id | apply lim_const] | apply ln_abs_lim; exact B]. }
  pose proof (off_u x H). field. repeat split; assumption.
Qed.

Section SecondTable.
Variables (D : nat -> nat -> R -> R).
Hypothesis HQ : second_kind D.
Lemma Q00_val x : off_unit x -> D 0%nat 0%nat x = q00 x.
Proof. intros H. destruct HQ as (_ & _ & E & _). rewrite E, q00_ln by exact H. reflexivity. Qed.
Lemma Q_h1 x : off_unit x -> D 0%nat 1%nat x = x * D 0%nat 0%nat x + -1.
Proof. intros H. destruct HQ as (_ & _ & _ & E). rewrite E by exact H. ring. Qed.
Lemma Q10_val x : off_unit x -> D 1%nat 0%nat x = - / (x * x - 1).
Proof.
  intros H. destruct HQ as (Hd & _). apply (der_eq off_unit (D 0%nat 0%nat) q00 x _ _ open_off); [intros; apply Q00_val; assumption | exact H | apply Hd; exact H | apply q00_lim; exact H].
Qed.
Lemma Q_h0 x : off_unit x -> (x * x - 1) * D 1%nat 0%nat x = -1.
Proof. intros H. rewrite Q10_val by exact H. field. apply off_u. exact H. Qed.
Lemma Q_rec m k x : off_unit x -> (INR k + 2 - INR m) * D m (S (S k)) x = (2 * INR k + 3) * x * D m (S k) x - (INR k + 1 + INR m) * D m k x.
Proof. destruct HQ as (Hd & Hb & _). exact (rec_m off_unit D (-1) open_off Hd Hb Q_h1 Q_h0 m k x). Qed.
Lemma Q_ode m l x : off_unit x -> (x * x - 1) * D (S (S m)) l x + 2 * (INR m + 1) * x * D (S m) l x + (INR m * (INR m + 1) - INR l * (INR l + 1)) * D m l x = 0.
Proof. destruct HQ as (Hd & Hb & _). exact (ode_m off_unit D (-1) open_off Hd Hb Q_h1 Q_h0 m l x). Qed.
Lemma Q11_val x : off_unit x -> D 1%nat 1%nat x = D 0%nat 0%nat x + x * D 1%nat 0%nat x.
Proof. destruct HQ as (Hd & _). exact (first_slope off_unit D (-1) open_off Hd Q_h1 x). Qed.

Variables (lmax mmax : nat) (x : R).
Hypothesis Hx : off_unit x.
Notation T := (fun l m => associated D l m x).
Notation ix l m := (idx l m lmax).
Notation sz := (size lmax mmax).

Lemma T00 : T 0%nat 0%nat = q00 x.
Proof. cbv beta. rewrite assoc_fac, Q00_val by exact Hx. cbn. ring. Qed.
Lemma T10 : T 1%nat 0%nat = x * q00 x - 1.
Proof. cbv beta. rewrite assoc_fac, Q_h1, Q00_val by exact Hx. cbn. ring. Qed.
Lemma w2 : x * x - 1 = - sign_factor x * (w_of x * w_of x).
Proof. rewrite w_sq. destruct (sign_cases x) as [(_ & ->)|(_ & ->)]; ring. Qed.
Lemma s_nz : sign_factor x <> 0.
Proof. destruct (sign_cases x) as [(_ & ->)|(_ & ->)]; lra. Qed.
Lemma fac_w a : fac x * - / (x * x - 1) * a = a * -1 / w_of x.
Proof.
  pose proof (w_nz x Hx) as W. unfold fac. rewrite w2. destruct (sign_cases x) as [(_ & ->)|(_ & ->)]; field; exact W.
Qed.
Lemma T01 : T 0%nat 1%nat = -1 / w_of x.
Proof. cbv beta. rewrite assoc_fac, Q10_val by exact Hx. cbn [pow]. rewrite Rmult_1_r. rewrite <- (Rmult_1_r (fac x * _)), fac_w. rewrite Rmult_1_l. reflexivity. Qed.
Lemma T11 : T 1%nat 1%nat = - sign_factor x * w_of x * (q00 x + x / (1 - x * x)).
Proof.
  cbv beta. rewrite assoc_fac, Q11_val, Q00_val, Q10_val by exact Hx. cbn [pow]. unfold fac. pose proof (off_u x Hx). field. lra.
Qed.

Lemma T_up m k : (INR (k + 1) + 1 - INR m) * T (k + 1 + 1)%nat m = (2 * INR (k + 1) + 1) * x * T (k + 1)%nat m - (INR (k + 1) + INR m) * T (k + 1 - 1)%nat m.
Proof.
  cbv beta. rewrite !assoc_fac. pose proof (Q_rec m k x Hx) as E. replace (k + 1 + 1)%nat with (S (S k)) by lia. replace (k + 1 - 1)%nat with k by lia.
  replace (k + 1)%nat with (S k) by lia. rewrite S_INR.
  replace ((INR k + 1 + 1 - INR m) * (fac x ^ m * D m (S (S k)) x)) with (fac x ^ m * ((INR k + 2 - INR m) * D m (S (S k)) x)) by ring. rewrite E. ring.
Qed.
Lemma T_m l m : T l (m + 2)%nat = - INR (2 * (m + 1)) * x / w_of x * T l (m + 1)%nat - sign_factor x * INR (l + (m + 1)) * (INR l - INR (m + 1) + 1) * T l m.
Proof.
  cbv beta. rewrite !assoc_fac. pose proof (Q_ode m l x Hx) as E. pose proof (w_nz x Hx) as W. rewrite w2 in E.
  replace (m + 2)%nat with (S (S m)) by lia. replace (m + 1)%nat with (S m) by lia. rewrite mult_INR, plus_INR, !(S_INR m). cbn [pow]. change (INR 2) with 2.
  set (d2 := D (S (S m)) l x) in *. set (d1 := D (S m) l x) in *. set (d0 := D m l x) in *. set (n := INR m) in *. set (j := INR l) in *. set (p := fac x ^ m).
  assert (F : sign_factor x * w_of x * w_of x * d2 = 2 * (n + 1) * x * d1 + (n * (n + 1) - j * (j + 1)) * d0) by lra.
  unfold fac. pose proof (sign_sq x) as S2.
  replace (- sign_factor x * w_of x * (- sign_factor x * w_of x * p) * d2) with (sign_factor x * p * (sign_factor x * w_of x * w_of x * d2)) by ring.
  rewrite F. field. exact W.
Qed.

(** Columns of order 0 and 1 done give all columns. *)
Lemma m_up a : tab lmax mmax T (fun _ m => (m <= 1)%nat) a -> runs (recur_qlm_in_m_up lmax mmax x a) (tab lmax mmax T (fun _ _ => True)).
Proof.
  intros Ha. unfold recur_qlm_in_m_up. destruct (Nat.ltb_spec mmax 2) as [L|L].
  - apply runs_ok. eapply tab_sub; [|exact Ha]. cbv beta. intros. lia.
  - destruct (Reqb_spec (w_of x) 0) as [E|_]; [exfalso; exact (w_nz x Hx E)|]. eapply runs_imp.
    { apply (for_up (fun k => tab lmax mmax T (fun l m => (m <= 1)%nat \/ (l < k)%nat))).
      - eapply tab_sub; [|exact Ha]. cbv beta. intros l m _ _ H. lia.
      - intros k b Hk Hb. cbn [Nat.add]. eapply runs_imp.
        { apply (for_up (fun j => tab lmax mmax T (fun l m => (m <= 1)%nat \/ (l < k)%nat \/ (l = k /\ m <= j + 1)%nat))).
          - eapply tab_sub; [|exact Hb]. cbv beta. intros l m _ _ H. lia.
          - intros j c Hj Hc. apply rd_cell; [lia | lia|]. apply rd_cell; [lia | lia|].
            apply (wr_tab lmax mmax T (fun l m => (m <= 1)%nat \/ (l < k)%nat \/ (l = k /\ m <= j + 1)%nat)); [lia | lia | exact Hc | |].
            + rewrite (Hc k (1 + j)%nat), (Hc k (1 + j - 1)%nat) by lia. cbv beta. replace (1 + j - 1)%nat with j by lia. replace (1 + j + 1)%nat with (j + 2)%nat by lia.
              replace (1 + j)%nat with (j + 1)%nat by lia. symmetry. apply T_m.
            + cbv beta. intros l m _ _ H. lia. }
        intros c Hc. eapply tab_sub; [|exact Hc]. cbv beta. intros l m Hl Hm H. lia. }
    intros b Hb. eapply tab_sub; [|exact Hb]. cbv beta. intros. lia.
Qed.

Lemma seed_table a : runs (seed_qlm lmax mmax x a) (tab lmax mmax T (fun l m => (l <= 1 /\ m <= 1)%nat)).
Proof.
  unfold seed_qlm. apply (runs_bind _ _ (tab lmax mmax T (fun l m => (l = 0 /\ m = 0)%nat))).
  { apply (wr_tab lmax mmax T (fun _ _ => False)); try lia.
    - intros l m _ _ [].
    - symmetry. apply T00. }
  intros b Hb. apply (runs_bind _ _ (tab lmax mmax T (fun l m => (l <= 1 /\ m = 0)%nat))).
  { destruct (Nat.leb_spec 1 lmax) as [L|L].
    - apply (wr_tab lmax mmax T (fun l m => (l = 0 /\ m = 0)%nat)); try lia; [exact Hb | symmetry; apply T10].
    - apply runs_ok. eapply tab_sub; [|exact Hb]. cbv beta. intros; lia. }
  clear b Hb. intros b Hb. destruct (Nat.leb_spec 1 mmax) as [M|M].
  2:{ apply runs_ok. eapply tab_sub; [|exact Hb]. cbv beta. intros; lia. }
  destruct (Reqb_spec (w_of x) 0) as [E|_]; [exfalso; exact (w_nz x Hx E)|].
  apply (runs_bind _ _ (tab lmax mmax T (fun l m => (l <= 1 /\ m = 0 \/ l = 0 /\ m = 1)%nat))).
  { apply (wr_tab lmax mmax T (fun l m => (l <= 1 /\ m = 0)%nat)); try lia; [exact Hb | symmetry; apply T01]. }
  clear b Hb. intros b Hb. destruct (Nat.leb_spec 1 lmax) as [L|L].
  - apply (wr_tab lmax mmax T (fun l m => (l <= 1 /\ m = 0 \/ l = 0 /\ m = 1)%nat)); try lia; [exact Hb | symmetry; apply T11].
  - apply runs_ok. eapply tab_sub; [|exact Hb]. cbv beta. intros; lia.
Qed.

(** The upward recurrence. *)
Lemma col_up (d : nat -> nat -> Prop) a m : (m <= 1)%nat -> (m <= mmax)%nat -> (2 <= lmax)%nat ->
  (forall l, (l <= 1)%nat -> d l m) -> tab lmax mmax T d a ->
  runs (recur_qlm_in_l_up lmax mmax m x a) (tab lmax mmax T (fun l m' => d l m' \/ m' = m)).
Proof.
  intros Hm1 Hm HL Hd Ha. unfold recur_qlm_in_l_up. eapply runs_imp.
  { apply (for_up (fun j => tab lmax mmax T (fun l m' => d l m' \/ (m' = m /\ l <= 1 + j)%nat))).
    - eapply tab_sub; [|exact Ha]. cbv beta. intros l m' _ _ [H|(-> & H)]; [exact H | apply Hd; lia].
    - intros j c Hj Hc. apply (up_step_ok lmax mmax x T (fun l m' => d l m' \/ (m' = m /\ l <= 1 + j)%nat)); try lia; [|exact Hc|].
      + replace (1 + j)%nat with (j + 1)%nat by lia. apply T_up.
      + cbv beta. intros l m' _ _ [H|(-> & H)]; [left; left; exact H|]. destruct (Nat.eq_dec l (1 + j + 1)); [right; lia | left; right; lia]. }
  intros b Hb. eapply tab_sub; [|exact Hb]. cbv beta. intros l m' Hl _ [H| ->]; [left; exact H | right; lia].
Qed.
Lemma upward a : tab lmax mmax T (fun l m => (l <= 1 /\ m <= 1)%nat) a -> runs (compute_qlm_upward lmax mmax x a) (tab lmax mmax T (fun _ _ => True)).
Proof.
  intros Ha. unfold compute_qlm_upward. apply (runs_bind _ _ (tab lmax mmax T (fun l m => (m = 0 \/ l <= 1 /\ m <= 1)%nat))).
  { destruct (Nat.leb_spec 2 lmax) as [L|L].
    - eapply runs_imp; [apply (col_up (fun l m => (l <= 1 /\ m <= 1)%nat)); try lia; exact Ha|].
      intros b Hb. eapply tab_sub; [|exact Hb]. cbv beta. intros; lia.
    - apply runs_ok. eapply tab_sub; [|exact Ha]. cbv beta. intros; lia. }
  clear a Ha. intros a Ha. apply (runs_bind _ _ (tab lmax mmax T (fun l m => (m <= 1)%nat))); [|intros b Hb; apply m_up; exact Hb].
  destruct (Nat.leb_spec 1 mmax) as [M|M]; cbn [andb].
  - destruct (Nat.leb_spec 2 lmax) as [L|L].
    + eapply runs_imp; [apply (col_up (fun l m => (m = 0 \/ l <= 1 /\ m <= 1)%nat)); try lia; exact Ha|].
      intros b Hb. eapply tab_sub; [|exact Hb]. cbv beta. intros; lia.
    + apply runs_ok. eapply tab_sub; [|exact Ha]. cbv beta. intros; lia.
  - apply runs_ok. eapply tab_sub; [|exact Ha]. cbv beta. intros; lia.
Qed.

(** Christoffel's form. *)
Lemma christ_step k : christ x (S k) = (snd (christ x k),
  let u := fst (christ x k) in let v := snd (christ x k) in let n := INR (S k) in let inv := 1 / (n + 1) in let a := 2 * n + 1 in
  mkFour ((a * x * fP v - n * fP u) * inv) ((a * x * fW v - n * fW u) * inv)
         ((a * (fP v + x * fPp v) - n * fPp u) * inv) ((a * (fW v + x * fWp v) - n * fWp u) * inv)).
Proof. cbn [christ]. destruct (christ x k) as (u, v). reflexivity. Qed.
Definition form (l : nat) (f : four) : Prop :=
  D 0%nat l x = fP f * D 0%nat 0%nat x - fW f /\ D 1%nat l x = fPp f * D 0%nat 0%nat x + fP f * D 1%nat 0%nat x - fWp f.
Lemma christ_form k : form k (fst (christ x k)) /\ form (S k) (snd (christ x k)).
Proof.
  induction k as [|k (IA & IB)].
  - split; split; cbn [christ fst snd fP fW fPp fWp].
    + ring.
    + ring.
    + rewrite Q_h1 by exact Hx. ring.
    + rewrite Q11_val by exact Hx. ring.
  - rewrite christ_step. cbn [fst snd]. split; [exact IB|]. destruct IA as (A0 & A1). destruct IB as (B0 & B1).
    destruct HQ as (Hd & Hb & _). pose proof (bonnet_m off_unit D open_off Hd Hb 0 k x Hx) as E0. pose proof (bonnet_m off_unit D open_off Hd Hb 1 k x Hx) as E1.
    cbn [Nat.sub INR] in E0, E1. rewrite A0, B0 in E0. rewrite B0, A1, B1 in E1. split; cbv zeta; cbn [fP fW fPp fWp]; rewrite S_INR; pose proof (pos_INR k) as Hk.
    + apply (Rmult_eq_reg_l (INR k + 2)); [|lra]. rewrite E0. field. lra.
    + apply (Rmult_eq_reg_l (INR k + 2)); [|lra]. rewrite E1. field. lra.
Qed.
Lemma christoffel a : 1 < Rabs x -> runs (compute_qlm_christoffel lmax mmax x a) (tab lmax mmax T (fun _ _ => True)).
Proof.
  intros Hout. unfold compute_qlm_christoffel.
  assert (Hw : sqrt (Rmax (x * x - 1) 0) = w_of x).
  { unfold w_of, sqrt_clamped. destruct (sign_cases x) as [(H & _)|(_ & ->)]; [lra|]. f_equal. f_equal. ring. }
  assert (Hs : sign_factor x = -1) by (destruct (sign_cases x) as [(H & _)|(_ & E)]; [lra | exact E]).
  rewrite Hw. apply (runs_bind _ _ (tab lmax mmax T (fun _ m => m = 0%nat))).
  { eapply runs_imp.
    { apply (for_up (fun k => tab lmax mmax T (fun l m => (m = 0 /\ l < k)%nat))).
      - intros l m _ _ (_ & H). lia.
      - intros k b Hk Hb. cbn [Nat.add]. apply (wr_tab lmax mmax T (fun l m => (m = 0 /\ l < k)%nat)); try lia; [exact Hb|].
        destruct (christ_form k) as ((E & _) & _). cbv beta. rewrite assoc_fac. unfold christ_at. cbn [pow]. rewrite E, Q00_val by exact Hx. ring. }
    intros b Hb. eapply tab_sub; [|exact Hb]. cbv beta. intros; lia. }
  clear a. intros a Ha. apply (runs_bind _ _ (tab lmax mmax T (fun _ m => (m <= 1)%nat))); [|intros b Hb; apply m_up; exact Hb].
  destruct (Nat.leb_spec 1 mmax) as [M|M].
  - apply (runs_bind _ _ (tab lmax mmax T (fun l m => m = 0%nat \/ (m = 1 /\ l = 0)%nat))).
    { apply (wr_tab lmax mmax T (fun _ m => m = 0%nat)); try lia; [exact Ha | symmetry; apply T01]. }
    clear a Ha. intros a Ha. eapply runs_imp.
    { apply (for_up (fun k => tab lmax mmax T (fun l m => m = 0%nat \/ (m = 1 /\ l <= k)%nat))).
      - eapply tab_sub; [|exact Ha]. cbv beta. intros; lia.
      - intros k b Hk Hb. apply (wr_tab lmax mmax T (fun l m => m = 0%nat \/ (m = 1 /\ l <= k)%nat)); try lia; [exact Hb|].
        destruct (christ_form (1 + k)) as ((_ & E) & _). cbv beta. rewrite assoc_fac. unfold christ_at. cbn [pow]. rewrite Rmult_1_r, E, Q00_val, Q10_val by exact Hx.
        replace (fac x * (fPp (fst (christ x (1 + k))) * q00 x + fP (fst (christ x (1 + k))) * - / (x * x - 1) - fWp (fst (christ x (1 + k)))))
          with (fac x * fPp (fst (christ x (1 + k))) * q00 x + fac x * - / (x * x - 1) * fP (fst (christ x (1 + k))) - fac x * fWp (fst (christ x (1 + k)))) by ring.
        rewrite fac_w. unfold fac. rewrite Hs. unfold Rdiv. ring. }
    intros b Hb. eapply tab_sub; [|exact Hb]. cbv beta. intros; lia.
  - apply runs_ok. eapply tab_sub; [|exact Ha]. cbv beta. intros; lia.
Qed.

(** Miller's algorithm. *)
Section Miller.
Variables (cf : R -> nat -> nat -> res R) (seed_low : R).
Hypothesis Hseed : seed_low <> 0.
(** Descending solutions vanish with two neighbours. *)
Lemma vanish m k : (m <= 1)%nat -> T (S k) m = 0 -> T k m = 0 -> T 0%nat m = 0.
Proof.
  intros Hm. induction k as [|k IH]; intros A B; [exact B|]. apply IH; [exact B|].
  pose proof (T_up m k) as E. replace (k + 1 + 1)%nat with (S (S k)) in E by lia. replace (k + 1 - 1)%nat with k in E by lia. replace (k + 1)%nat with (S k) in E by lia.
  cbv beta in *. rewrite A, B in E. rewrite S_INR in E. pose proof (pos_INR k). pose proof (pos_INR m).
  apply (Rmult_eq_reg_l (INR k + 1 + INR m)); [lra | lra].
Qed.
Lemma T0_nz m : (m <= 1)%nat -> 1 < Rabs x -> T 0%nat m <> 0.
Proof.
  intros Hm Ho. destruct m as [|[|m]]; [| |lia].
  - rewrite T00. unfold q00. destruct (off_nz x Hx) as (A & B). intros E.
    assert (E2 : ln (Rabs (x + 1)) = ln (Rabs (x - 1))) by lra. apply ln_inv in E2; [|apply Rabs_pos_lt; assumption|apply Rabs_pos_lt; assumption].
    assert (F : (x + 1) * (x + 1) = (x - 1) * (x - 1)) by (rewrite (sq_abs (x + 1)), (sq_abs (x - 1)), E2; reflexivity).
    assert (x = 0) by lra. subst x. rewrite Rabs_R0 in Ho. lra.
  - rewrite T01. pose proof (w_nz x Hx) as W. intros E. apply (Rmult_eq_compat_r (w_of x)) in E. unfold Rdiv in E. rewrite Rmult_assoc, Rinv_l in E by exact W. lra.
Qed.

Definition exact_ratio (m : nat) : Prop := exists rho, cf x lmax m = Ok rho /\ T lmax m = rho * T (lmax - 1)%nat m.
Lemma column (d : nat -> nat -> Prop) a m low0 : (m <= 1)%nat -> (m <= mmax)%nat -> (1 <= lmax)%nat -> 1 < Rabs x ->
  exact_ratio m -> low0 = T 0%nat m -> tab lmax mmax T d a ->
  runs (miller_column lmax mmax cf seed_low m x low0 a) (tab lmax mmax T (fun l m' => (d l m' /\ m' <> m) \/ m' = m)).
Proof.
  intros Hm1 Hm HL Ho (rho & Ecf & Er) Elow Ha. unfold miller_column. rewrite Ecf. cbn [bind].
  assert (Hnz : T (lmax - 1)%nat m <> 0).
  { intros E. apply (T0_nz m Hm1 Ho). apply (vanish m (lmax - 1) Hm1); [|exact E]. replace (S (lmax - 1)) with lmax by lia. rewrite Er, E. ring. }
  set (c := seed_low / T (lmax - 1)%nat m).
  assert (Hc : c <> 0) by (unfold c, Rdiv; apply Rmult_integral_contrapositive; split; [exact Hseed | apply Rinv_neq_0_compat; exact Hnz]).
  set (U := fun l m' => if (m' =? m)%nat then c * T l m else T l m').
  assert (Um : forall l, U l m = c * T l m) by (intros l; unfold U; rewrite Nat.eqb_refl; reflexivity).
  assert (Uo : forall l m', m' <> m -> U l m' = T l m') by (intros l m' H; unfold U; rewrite (proj2 (Nat.eqb_neq _ _) H); reflexivity).
  set (d0 := fun l m' => d l m' /\ m' <> m).
  assert (Ha0 : tab lmax mmax U d0 a) by (intros l m' Hl Hm' (H & Hne); rewrite Uo by exact Hne; apply Ha; assumption).
  apply (runs_bind _ _ (tab lmax mmax U (fun l m' => d0 l m' \/ (l = lmax - 1 /\ m' = m)%nat))).
  { apply (wr_tab lmax mmax U d0); try lia; [exact Ha0 | | auto]. rewrite Um. unfold c. field. exact Hnz. }
  clear a Ha Ha0. intros a Ha. apply (runs_bind _ _ (tab lmax mmax U (fun l m' => d0 l m' \/ (lmax - 1 <= l /\ m' = m)%nat))).
  { apply (wr_tab lmax mmax U (fun l m' => d0 l m' \/ (l = lmax - 1 /\ m' = m)%nat)); try lia; [exact Ha | |].
    - rewrite Um, Er. unfold c. field. exact Hnz.
    - cbv beta. intros l m' Hl _ [H|H]; [left; left; exact H|]. destruct (Nat.eq_dec l lmax); [right; lia | left; right; lia]. }
  clear a Ha. intros a Ha. apply (runs_bind _ _ (tab lmax mmax U (fun l m' => d0 l m' \/ m' = m))).
  { unfold recur_qlm_in_l_down. eapply runs_imp.
    { apply (for_down (fun j => tab lmax mmax U (fun l m' => d0 l m' \/ (j <= l /\ m' = m)%nat))).
      - exact Ha.
      - intros j b Hj Hb. apply rd_cell; [lia | lia|]. apply rd_cell; [lia | lia|].
        apply (wr_tab lmax mmax U (fun l m' => d0 l m' \/ (S j <= l /\ m' = m)%nat)); [lia | lia | exact Hb | |].
        + rewrite (Hb (1 + j)%nat m), (Hb (1 + j + 1)%nat m) by lia. replace (1 + j - 1)%nat with j by lia. rewrite !Um, INR_odd, !plus_INR.
          pose proof (T_up m j) as E. replace (j + 1 - 1)%nat with j in E by lia. replace (j + 1)%nat with (1 + j)%nat in E by lia. rewrite !plus_INR in E.
          pose proof (pos_INR j). pose proof (pos_INR m). change (INR 1) with 1 in *.
          apply (Rmult_eq_reg_l (1 + INR j + INR m)); [|lra].
          replace ((1 + INR j + INR m) * (c * T j m)) with (c * ((1 + INR j + INR m) * T j m)) by ring.
          replace ((1 + INR j + INR m) * T j m) with ((2 * (1 + INR j) + 1) * x * T (1 + j)%nat m - (1 + INR j + 1 - INR m) * T (1 + j + 1)%nat m) by lra.
          cbv beta. field. lra.
        + cbv beta. intros l m' _ _ [H|H]; [left; left; exact H|]. destruct (Nat.eq_dec l (1 + j - 1)); [right; lia | left; right; lia]. }
    intros b Hb. eapply tab_sub; [|exact Hb]. cbv beta. intros l m' _ _ [H|H]; [left; exact H | right; lia]. }
  clear a Ha. intros a Ha. apply rd_cell; [lia | lia|].
  assert (E0 : a (ix 0 m) = c * T 0%nat m) by (rewrite (Ha 0%nat m), Um by (auto; lia); reflexivity).
  rewrite E0. clear E0. set (sc := low0 / (c * T 0%nat m)). pose proof (T0_nz m Hm1 Ho) as Z0.
  assert (Esc : sc = / c) by (unfold sc; rewrite Elow; field; split; assumption).
  eapply runs_imp.
  { apply (for_up (fun k => tab lmax mmax (fun l m' => if ((m' =? m) && (k <=? l))%nat%bool then U l m' else T l m') (fun l m' => d0 l m' \/ m' = m))).
    - intros l m' Hl Hm' H. rewrite (Ha l m' Hl Hm' H). cbn [Nat.leb]. rewrite andb_true_r. destruct (Nat.eqb_spec m' m); [reflexivity | apply Uo; assumption].
    - intros k b Hk Hb. cbn [Nat.add]. apply rd_cell; [lia | lia|]. apply wr_cell; [lia | lia|]. intros b' Hv Hk' l m' Hl Hm' H.
      destruct (Nat.eq_dec l k) as [->|Hlk]; [destruct (Nat.eq_dec m' m) as [->|Hmm]|].
      + rewrite Hv, (Hb k m) by (auto; lia). rewrite Nat.eqb_refl, Nat.leb_refl, (proj2 (Nat.leb_gt (S k) k)) by lia. cbn [andb]. rewrite Um, Esc. cbv beta. field. exact Hc.
      + rewrite Hk' by (try assumption; right; assumption). rewrite (Hb k m' Hl Hm' H). rewrite (proj2 (Nat.eqb_neq _ _) Hmm). reflexivity.
      + rewrite Hk' by (try assumption; left; assumption). rewrite (Hb l m' Hl Hm' H). destruct (Nat.eqb_spec m' m); cbn [andb]; [|reflexivity].
        destruct (Nat.leb_spec k l); destruct (Nat.leb_spec (S k) l); reflexivity || lia. }
  intros b Hb l m' Hl Hm' H. rewrite (Hb l m' Hl Hm') by (unfold d0; exact H). rewrite (proj2 (Nat.leb_gt (lmax + 1) l)) by lia. rewrite andb_false_r. reflexivity.
Qed.
Lemma miller a : 1 < Rabs x -> ((1 <= lmax)%nat -> exact_ratio 0 /\ exact_ratio 1) ->
  tab lmax mmax T (fun l m => (l <= 1 /\ m <= 1)%nat) a -> runs (compute_qlm_miller lmax mmax cf seed_low x a) (tab lmax mmax T (fun _ _ => True)).
Proof.
  intros Ho Hr Ha. unfold compute_qlm_miller. apply (runs_bind _ _ (tab lmax mmax T (fun l m => (m = 0 \/ l <= 1 /\ m = 1)%nat))).
  { destruct (Nat.leb_spec 1 lmax) as [L|L].
    - destruct (Hr L) as (R0 & _). eapply runs_imp; [apply (column (fun l m => (l <= 1 /\ m <= 1)%nat)); try lia; try assumption; symmetry; apply T00|].
      intros b Hb. eapply tab_sub; [|exact Hb]. cbv beta. intros; lia.
    - apply runs_ok. eapply tab_sub; [|exact Ha]. cbv beta. intros; lia. }
  clear a Ha. intros a Ha. apply (runs_bind _ _ (tab lmax mmax T (fun l m => (m <= 1)%nat))); [|intros b Hb; apply m_up; exact Hb].
  destruct (Nat.leb_spec 1 mmax) as [M|M]; cbn [andb].
  - destruct (Nat.leb_spec 1 lmax) as [L|L].
    + destruct (Hr L) as (_ & R1). eapply runs_imp; [apply (column (fun l m => (m = 0 \/ l <= 1 /\ m = 1)%nat)); try lia; try assumption; symmetry; apply T01|].
      intros b Hb. eapply tab_sub; [|exact Hb]. cbv beta. intros; lia.
    + apply runs_ok. eapply tab_sub; [|exact Ha]. cbv beta. intros; lia.
  - apply runs_ok. eapply tab_sub; [|exact Ha]. cbv beta. intros; lia.
Qed.
Lemma qlm_table : (1 < Rabs x -> (1 <= lmax)%nat -> exact_ratio 0 /\ exact_ratio 1) ->
  runs (compute_qlm lmax mmax cf seed_low x) (tab lmax mmax T (fun _ _ => True)).
Proof.
  intros Hr. unfold compute_qlm. destruct (Reqb_spec (Rabs x) 1) as [E|_]; [exfalso; exact (Hx E)|].
  eapply runs_bind; [apply seed_table|]. intros a Ha. cbv beta in Ha. destruct (Rleb_spec (Rabs x) 1) as [H|H].
  - apply upward. exact Ha.
  - destruct (below_xmax lmax x).
    + apply christoffel. lra.
    + apply miller; [lra | intros L; apply Hr; [lra | exact L] | exact Ha].
Qed.
End Miller.
End SecondTable.

(** * The public functions *)
Lemma plm_ok D lmax mmax x : first_kind D -> (0 <= lmax)%Z -> (0 <= mmax)%Z ->
  exists a, plm lmax mmax x = Ok a /\ forall l m, (l <= Z.to_nat lmax)%nat -> (m <= Z.to_nat mmax)%nat ->
    a (m * (Z.to_nat lmax + 1) + l)%nat = associated D l m x.
Proof.
  intros HD Hl Hm. unfold plm. rewrite (proj2 (Z.ltb_ge _ _) Hl), (proj2 (Z.ltb_ge _ _) Hm). cbn [orb].
  destruct (plm_table (Z.to_nat lmax) (Z.to_nat mmax) D x HD) as (a & E & H). exists a. split; [exact E|]. intros l m Hl' Hm'. apply H; auto.
Qed.
Lemma plm_negative lmax mmax x : (lmax < 0)%Z \/ (mmax < 0)%Z -> plm lmax mmax x = Throw InvalidArgument.
Proof. intros H. unfold plm. destruct (Z.ltb_spec lmax 0); destruct (Z.ltb_spec mmax 0); cbn [orb]; reflexivity || lia. Qed.
Lemma plm_above D l m x : first_kind D -> (l < m)%nat -> associated D l m x = 0.
Proof. intros H. apply P_zero. exact H. Qed.

Lemma qlm_ok D cf seed_low lmax mmax x : second_kind D -> (0 <= lmax)%Z -> (0 <= mmax)%Z -> Rabs x <> 1 -> seed_low <> 0 ->
  (1 < Rabs x -> (1 <= lmax)%Z -> forall m, (m <= 1)%nat ->
     exists rho, cf x (Z.to_nat lmax) m = Ok rho /\ associated D (Z.to_nat lmax) m x = rho * associated D (Z.to_nat lmax - 1) m x) ->
  exists a, qlm cf seed_low lmax mmax x = Ok a /\ forall l m, (l <= Z.to_nat lmax)%nat -> (m <= Z.to_nat mmax)%nat ->
    a (m * (Z.to_nat lmax + 1) + l)%nat = associated D l m x.
Proof.
  intros HD Hl Hm Hx Hs Hr. unfold qlm. rewrite (proj2 (Z.ltb_ge _ _) Hl), (proj2 (Z.ltb_ge _ _) Hm). cbn [orb].
  destruct (qlm_table D HD (Z.to_nat lmax) (Z.to_nat mmax) x Hx cf seed_low Hs) as (a & E & H).
  { intros Ho L. split; apply Hr; try assumption; lia. }
  exists a. split; [exact E|]. intros l m Hl' Hm'. apply H; auto.
Qed.
Lemma qlm_negative cf s lmax mmax x : (lmax < 0)%Z \/ (mmax < 0)%Z -> qlm cf s lmax mmax x = Throw InvalidArgument.
Proof. intros H. unfold qlm. destruct (Z.ltb_spec lmax 0); destruct (Z.ltb_spec mmax 0); cbn [orb]; reflexivity || lia. Qed.
Lemma qlm_singular cf s lmax mmax x : (0 <= lmax)%Z -> (0 <= mmax)%Z -> Rabs x = 1 -> qlm cf s lmax mmax x = Throw DomainError.
Proof.
  intros Hl Hm E. unfold qlm. rewrite (proj2 (Z.ltb_ge _ _) Hl), (proj2 (Z.ltb_ge _ _) Hm). cbn [orb]. unfold compute_qlm.
  destruct (Reqb_spec (Rabs x) 1); [reflexivity | contradiction].
Qed.
(** The algorithms agree on their common range. *)
Lemma agree D cf seed_low lmax mmax x a b : second_kind D -> 1 < Rabs x -> seed_low <> 0 ->
  ((1 <= lmax)%nat -> forall m, (m <= 1)%nat ->
     exists rho, cf x lmax m = Ok rho /\ associated D lmax m x = rho * associated D (lmax - 1) m x) ->
  seed_qlm lmax mmax x a = Ok b ->
  exists u v w, compute_qlm_upward lmax mmax x b = Ok u /\ compute_qlm_christoffel lmax mmax x b = Ok v /\
    compute_qlm_miller lmax mmax cf seed_low x b = Ok w /\
    forall l m, (l <= lmax)%nat -> (m <= mmax)%nat -> u (idx l m lmax) = v (idx l m lmax) /\ v (idx l m lmax) = w (idx l m lmax).
Proof.
  intros HD Ho Hs Hr Eb. assert (Hx : off_unit x) by (unfold off_unit; lra).
  destruct (seed_table D HD lmax mmax x Hx a) as (b' & Eb' & Hb). rewrite Eb in Eb'. injection Eb' as <-.
  destruct (upward D HD lmax mmax x Hx b Hb) as (u & Eu & Hu). destruct (christoffel D HD lmax mmax x Hx b Ho) as (v & Ev & Hv).
  destruct (miller D HD lmax mmax x Hx cf seed_low Hs b Ho) as (w & Ew & Hw).
  { intros L. split; apply Hr; try assumption; lia. }
  { exact Hb. }
  exists u, v, w. repeat (split; [assumption|]). intros l m Hl Hm. rewrite Hu, Hv, Hw by auto. split; reflexivity.
Qed.
(** Entries above the diagonal are not zero. *)
Lemma above_nonzero D x : second_kind D -> Rabs x <> 1 -> associated D 0 1 x <> 0.
Proof.
  intros HD Hx. rewrite (T01 D HD x Hx). pose proof (w_nz x Hx) as W. intros E. apply (Rmult_eq_compat_r (w_of x)) in E. unfold Rdiv in E.
  rewrite Rmult_assoc, Rinv_l in E by exact W. lra.
Qed.
Lemma above_table D cf s lmax mmax x : second_kind D -> (0 <= lmax)%Z -> (1 <= mmax)%Z -> Rabs x < 1 -> s <> 0 ->
  exists a, qlm cf s lmax mmax x = Ok a /\ a (1 * (Z.to_nat lmax + 1) + 0)%nat <> 0.
Proof.
  intros HD Hl Hm Hx Hs. destruct (qlm_ok D cf s lmax mmax x HD Hl) as (a & E & H); [lia | lra | exact Hs | lra|].
  exists a. split; [exact E|]. rewrite H by lia. apply above_nonzero; [exact HD | lra].
Qed.
