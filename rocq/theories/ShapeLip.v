(** The Lagrange tables: closed form of the nested loops, derivatives. *)
Require Import Reals List Arith Bool Lia Lra.
Require Import Verif.Prelude Verif.FEModel Verif.ShapeTables Verif.ShapeModel Verif.ShapeSpec.
Import ListNotations.
Open Scope R_scope.

Section Sym.
Variables (fi : nat).
(** Sum over the n-element subsets of the indices below N other than fi. *)
Fixpoint esym (a b : nat -> R) (N n : nat) : R :=
  match N with
  | O => match n with O => 1 | _ => 0 end
  | S M => if (M =? fi)%nat then esym a b M n
           else a M * esym a b M n + b M * match n with O => 0 | S k => esym a b M k end
  end.
Definition skip (ds : list nat) (ip : nat) : bool := (existsb (Nat.eqb ip) ds || (ip =? fi)%nat)%bool.
Fixpoint pr (a : nat -> R) (ds l : list nat) : R :=
  match l with [] => 1 | ip :: r => (if skip ds ip then 1 else a ip) * pr a ds r end.
Fixpoint pb (b : nat -> R) (ds : list nat) : R := match ds with [] => 1 | d :: r => b d * pb b r end.

Lemma pr_app a ds l l' : pr a ds (l ++ l') = pr a ds l * pr a ds l'.
Proof. induction l; cbn; [ring | rewrite IHl; ring]. Qed.
Lemma pr_ext a ds ds' l : (forall i, In i l -> skip ds i = skip ds' i) -> pr a ds l = pr a ds' l.
Proof.
  induction l; intros H; cbn; [reflexivity|].
  rewrite IHl, (H a0); [reflexivity | left; reflexivity | intros; apply H; right; assumption].
Qed.
Lemma fold_pr a ds l acc :
  fold_left (fun acc ip => if (existsb (Nat.eqb ip) ds || (ip =? fi)%nat)%bool then acc else acc * a ip) l acc
  = acc * pr a ds l.
Proof.
  revert acc; induction l as [|i l IH]; intros acc; cbn [fold_left pr]; [ring|].
  rewrite IH. unfold skip. destruct (_ || _)%bool; ring.
Qed.
Lemma esym0 a b N : esym a b N 0 = pr a [] (seq 0 N).
Proof.
  induction N; cbn [esym]; [reflexivity|].
  rewrite seq_S, pr_app, IHN. cbn [pr plus]. unfold skip; cbn [existsb orb].
  destruct (N =? fi)%nat; ring.
Qed.
Lemma skip_out ds i lo : (forall d, In d ds -> (lo <= d)%nat) -> (i < lo)%nat -> skip ds i = skip [] i.
Proof.
  intros H Hi. unfold skip. cbn [existsb orb].
  replace (existsb (Nat.eqb i) ds) with false; [reflexivity|].
  symmetry. apply not_true_iff_false. intros E. apply existsb_exists in E.
  destruct E as [d [Hd E]]. apply Nat.eqb_eq in E. apply H in Hd. lia.
Qed.
Lemma esym_S a b N n :
  esym a b N (S n)
  = sum N (fun d => if (d =? fi)%nat then 0 else pr a [] (seq (S d) (N - S d)) * (b d * esym a b d n)).
Proof.
  induction N; [reflexivity|]. cbn [esym sum].
  replace (N - N)%nat with 0%nat by lia. cbn [seq pr].
  assert (E : forall c, sum N (fun d => if (d =? fi)%nat then 0 else pr a [] (seq (S d) (S N - S d)) * (b d * esym a b d n))
              = c * sum N (fun d => if (d =? fi)%nat then 0 else pr a [] (seq (S d) (N - S d)) * (b d * esym a b d n))
              \/ c <> if (N =? fi)%nat then 1 else a N).
  { intros c. destruct (Req_dec c (if (N =? fi)%nat then 1 else a N)) as [->|]; [left | right; assumption].
    rewrite <- sum_scal. apply sum_ext. intros d Hd. destruct (d =? fi)%nat; [ring|].
    replace (S N - S d)%nat with (S (N - S d)) by lia. rewrite seq_S, pr_app. cbn [pr].
    replace (S d + (N - S d))%nat with N by lia. unfold skip; cbn [existsb orb].
    destruct (N =? fi)%nat; ring. }
  destruct (E (if (N =? fi)%nat then 1 else a N)) as [E'|E']; [|congruence].
  rewrite E', IHN. destruct (N =? fi)%nat eqn:Ef; [ring|].
  replace (S N - S N)%nat with 0%nat by lia. cbn [seq pr]. ring.
Qed.
End Sym.

Section Lip.
Variables (N : nat) (x0 : vec) (fi : nat).
Hypothesis Hd : forall i, (i < N)%nat -> i <> fi -> x0 fi - x0 i <> 0.
Let a (x : R) (i : nat) : R := (x - x0 i) / (x0 fi - x0 i).
Let b (i : nat) : R := / (x0 fi - x0 i).

Lemma lip_div_inv ds acc : (forall d, In d ds -> (d < N)%nat /\ d <> fi) -> acc <> 0 ->
  / fold_left (fun acc d => acc * (x0 fi - x0 d)) ds acc = / acc * pb b ds.
Proof.
  revert acc; induction ds as [|d ds IH]; intros acc H Ha; cbn [fold_left pb]; [ring|].
  assert (x0 fi - x0 d <> 0) by (apply Hd; apply H; left; reflexivity).
  rewrite IH; [|intros; apply H; right; assumption | apply Rmult_integral_contrapositive; split; assumption].
  unfold b. field. split; assumption.
Qed.

Lemma nest_esym x n : forall bound ds, (bound <= N)%nat ->
  (forall d, In d ds -> (bound <= d < N)%nat /\ d <> fi) ->
  lip_nest N x0 fi x n bound ds
  = pr fi (a x) ds (seq bound (N - bound)) * pb b ds * esym fi (a x) b bound n.
Proof.
  induction n; intros bound ds Hb Hds; cbn [lip_nest].
  - unfold lip_prod, lip_div. unfold Rdiv at 1.
    rewrite (fold_pr fi (a x) ds), lip_div_inv; [|intros d H; destruct (Hds d H); split; [lia|assumption] | lra].
    rewrite esym0. replace (seq 0 N) with (seq 0 bound ++ seq bound (N - bound))
      by (rewrite <- seq_app; f_equal; lia).
    rewrite pr_app.
    rewrite (pr_ext fi (a x) ds [] (seq 0 bound)).
    2:{ intros i Hi. apply in_seq in Hi. apply (skip_out fi ds i bound); [|lia].
        intros d H; apply Hds in H; lia. }
    field.
  - rewrite esym_S, <- sum_scal. apply sum_ext. intros d Hdb.
    destruct (d =? fi)%nat eqn:Ef; [ring|]. apply Nat.eqb_neq in Ef.
    rewrite IHn; [|lia|].
    2:{ intros e [<-|H]; [split; [lia|assumption] | apply Hds in H; split; [lia | tauto]]. }
    replace (N - d)%nat with (1 + ((bound - S d) + (N - bound)))%nat by lia.
    rewrite !seq_app, !pr_app. cbn [seq pr pb].
    replace (d + 1)%nat with (S d) by lia.
    replace (S d + (bound - S d))%nat with bound by lia.
    replace (skip fi (d :: ds) d) with true
      by (unfold skip; cbn [existsb]; rewrite Nat.eqb_refl; reflexivity).
    rewrite (pr_ext fi (a x) (d :: ds) [] (seq (S d) (bound - S d))).
    2:{ intros i Hi. apply in_seq in Hi. unfold skip; cbn [existsb].
        replace (i =? d)%nat with false by (symmetry; apply Nat.eqb_neq; lia).
        apply (skip_out fi ds i bound); [|lia]. intros e H; apply Hds in H; lia. }
    rewrite (pr_ext fi (a x) (d :: ds) ds (seq bound (N - bound))).
    2:{ intros i Hi. apply in_seq in Hi. unfold skip; cbn [existsb].
        replace (i =? d)%nat with false by (symmetry; apply Nat.eqb_neq; lia). reflexivity. }
    ring.
Qed.

Lemma lip_esym x n : lip_dnf N x0 n fi x = lip_factor n * esym fi (a x) b N n.
Proof.
  unfold lip_dnf. rewrite nest_esym; [|lia|intros d []].
  replace (N - N)%nat with 0%nat by lia. cbn [seq pr pb]. ring.
Qed.

Lemma der_lin c d x : derivable_pt_lim (fun y => (y - c) / d) x (/ d).
Proof.
  replace (/ d) with ((1 - 0) * / d) by ring.
  unfold Rdiv. apply (derivable_pt_lim_ext (fun y => (id y - fct_cte c y) * fct_cte (/ d) y)); [intros; reflexivity|].
  replace ((1 - 0) * / d) with ((1 - 0) * fct_cte (/ d) x + (id x - fct_cte c x) * 0) by (unfold fct_cte; ring).
  apply (derivable_pt_lim_mult (fun y => id y - fct_cte c y)).
  - apply derivable_pt_lim_minus; [apply derivable_pt_lim_id | apply derivable_pt_lim_const].
  - apply derivable_pt_lim_const.
Qed.

Lemma esym_der M n x :
  derivable_pt_lim (fun y => esym fi (a y) b M n) x (INR (S n) * esym fi (a x) b M (S n)).
Proof.
  revert n; induction M; intros n; cbn [esym].
  - replace (INR (S n) * 0) with 0 by ring. apply derivable_pt_lim_const.
  - destruct (M =? fi)%nat eqn:Ef; [apply IHM|].
    assert (E : INR (S n) * (a x M * esym fi (a x) b M (S n) + b M * esym fi (a x) b M n)
       = (b M * esym fi (a x) b M n + a x M * (INR (S n) * esym fi (a x) b M (S n)))
         + b M * (INR n * match n with O => 0 | S k => esym fi (a x) b M n end)).
    { rewrite S_INR. destruct n; [cbn [INR]|]; ring. }
    rewrite E. clear E.
    apply (derivable_pt_lim_plus (fun y => a y M * esym fi (a y) b M n)
            (fun y => b M * match n with O => 0 | S k => esym fi (a y) b M k end)).
    + apply (derivable_pt_lim_mult (fun y => a y M)); [|apply IHM]. unfold a, b. apply der_lin.
    + apply derivable_pt_lim_scal. destruct n; [replace (INR 0 * 0) with 0 by ring; apply derivable_pt_lim_const|].
      apply IHM.
Qed.
End Lip.

Lemma lip_factor_S n : (n < 20)%nat -> lip_factor (S n) = INR (S n) * lip_factor n.
Proof.
  intros H. unfold lip_factor. rewrite INR_IZR_INZ.
  do 20 (destruct n as [|n]; [cbn; lra|]). lia.
Qed.

Lemma distinct_fi N x0 fi : distinct N x0 -> (fi < N)%nat ->
  forall i, (i < N)%nat -> i <> fi -> x0 fi - x0 i <> 0.
Proof. intros H Hf i Hi Hn E. apply Hn. apply H; [assumption..|lra]. Qed.

Lemma lip_der N x0 n fi x : distinct N x0 -> (fi < N)%nat -> (n < 20)%nat ->
  derivable_pt_lim (lip_dnf N x0 n fi) x (lip_dnf N x0 (S n) fi x).
Proof.
  intros H Hf Hn. pose proof (distinct_fi N x0 fi H Hf) as Hd.
  rewrite lip_esym by assumption.
  apply (derivable_pt_lim_ext (fun y => lip_factor n * esym fi (fun i => (y - x0 i) / (x0 fi - x0 i)) (fun i => / (x0 fi - x0 i)) N n)).
  { intros y. symmetry. apply lip_esym. assumption. }
  rewrite lip_factor_S by assumption.
  match goal with |- derivable_pt_lim _ _ (?u * ?f * ?e) => replace (u * f * e) with (f * (u * e)) by ring end.
  apply derivable_pt_lim_scal. apply esym_der.
Qed.

(** Values: the plain product. *)
Lemma lip_val N x0 fi x : distinct N x0 -> (fi < N)%nat ->
  lip_dnf N x0 0 fi x = pr fi (fun i => (x - x0 i) / (x0 fi - x0 i)) [] (seq 0 N).
Proof.
  intros H Hf. rewrite lip_esym by (apply distinct_fi; assumption).
  rewrite esym0. unfold lip_factor; cbn [nth]. ring.
Qed.
Lemma pr_zero fi a l i : In i l -> i <> fi -> a i = 0 -> pr fi a [] l = 0.
Proof.
  induction l as [|k l IH]; intros Hi Hn Ha; [destruct Hi|]. cbn [pr]. destruct Hi as [->|Hi].
  - unfold skip; cbn [existsb orb]. rewrite (proj2 (Nat.eqb_neq i fi)) by assumption. rewrite Ha. ring.
  - rewrite IH by assumption. ring.
Qed.
Lemma pr_one fi a l : (forall i, In i l -> i <> fi -> a i = 1) -> pr fi a [] l = 1.
Proof.
  induction l as [|k l IH]; intros Ha; [reflexivity|]. cbn [pr].
  rewrite IH by (intros; apply Ha; [right|]; assumption). unfold skip; cbn [existsb orb].
  destruct (k =? fi)%nat eqn:E; [ring|]. rewrite Ha; [ring | left; reflexivity | apply Nat.eqb_neq; assumption].
Qed.
Lemma lip_nodes N x0 i j : distinct N x0 -> (i < N)%nat -> (j < N)%nat ->
  lip_dnf N x0 0 i (x0 j) = if (i =? j)%nat then 1 else 0.
Proof.
  intros H Hi Hj. rewrite lip_val by assumption. destruct (i =? j)%nat eqn:E.
  - apply Nat.eqb_eq in E; subst j. apply pr_one. intros k Hk Hn. apply in_seq in Hk.
    field. apply (distinct_fi N x0 i H Hi); [lia | assumption].
  - apply Nat.eqb_neq in E. apply (pr_zero i _ _ j); [apply in_seq; lia | congruence |].
    field. apply (distinct_fi N x0 i H Hi); [assumption | congruence].
Qed.
