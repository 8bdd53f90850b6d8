(** Lemmas on exchange_tei and the pivoted factorisations. *)
Require Import Reals ZArith List Bool Arith Lia Lra Permutation.
Require Import Verif.Prelude Verif.AngModel Verif.CholModel Verif.CholSpec.
Import ListNotations.
Local Open Scope R_scope.

(* ---------- exchange_tei ---------- *)

Lemma fold_set (f : mat -> nat -> mat) l : forall M r c k v,
  (forall M x, In x l -> x <> k -> f M x r c = M r c) ->
  (forall M, f M k r c = v) -> In k l -> NoDup l -> fold_left f l M r c = v.
Proof.
  induction l as [|x l IH]; intros M r c k v Hk Hv Hin Hd; [destruct Hin|].
  inversion Hd; subst. simpl. destruct Hin as [->|Hin].
  - assert (K : forall l M, (forall M y, In y l -> f M y r c = M r c) -> fold_left f l M r c = M r c).
    { clear. induction l; intros M H; simpl; auto. rewrite IHl.
      - apply H; left; auto.
      - intros; apply H; right; auto. }
    rewrite K; auto. intros M0 y Hy. apply Hk; [right; auto|]. intros ->. tauto.
  - apply (IH _ r c k v); auto. intros; apply Hk; auto. right; auto.
Qed.

Lemma fold_keep (f : mat -> nat -> mat) l : forall M r c,
  (forall M x, In x l -> f M x r c = M r c) -> fold_left f l M r c = M r c.
Proof.
  induction l; intros M r c H; simpl; auto. rewrite IHl.
  - apply H; left; auto.
  - intros; apply H; right; auto.
Qed.

Lemma pair_inj n a b a' b' : (a < n)%nat -> (a' < n)%nat ->
  (b * n + a = b' * n + a')%nat -> a = a' /\ b = b'.
Proof. intros. assert (b = b') by nia. subst. lia. Qed.

Lemma store_miss K r c r' c' x : (r <> r' \/ c <> c')%nat -> store K r' c' x r c = K r c.
Proof.
  intros H. unfold store. destruct (Nat.eqb_spec r r'); destruct (Nat.eqb_spec c c'); auto; lia.
Qed.

Lemma store_hit K r c x : store K r c x r c = x.
Proof. unfold store. now rewrite !Nat.eqb_refl. Qed.

Lemma exchange_loops_entry Ni Nj Nk Nl tei i j k l :
  (i < Ni)%nat -> (j < Nj)%nat -> (k < Nk)%nat -> (l < Nl)%nat ->
  exchange_loops Ni Nj Nk Nl tei (k * Nj + j)%nat (l * Ni + i)%nat =
  tei (j * Ni + i)%nat (l * Nk + k)%nat.
Proof.
  intros Hi Hj Hk Hl. unfold exchange_loops.
  apply (fold_set _ _ _ _ _ i); [| |apply in_seq; lia|apply seq_NoDup].
  - intros M ii Hii Hne. apply in_seq in Hii.
    apply fold_keep. intros M1 jj Hjj. apply fold_keep. intros M2 kk Hkk.
    apply fold_keep. intros M3 ll Hll. apply store_miss. right. intros E.
    apply pair_inj in E; lia.
  - intros M. apply (fold_set _ _ _ _ _ j); [| |apply in_seq; lia|apply seq_NoDup].
    + intros M1 jj Hjj Hne. apply in_seq in Hjj. apply fold_keep. intros M2 kk Hkk.
      apply fold_keep. intros M3 ll Hll. apply store_miss. left. intros E.
      apply pair_inj in E; lia.
    + intros M1. apply (fold_set _ _ _ _ _ k); [| |apply in_seq; lia|apply seq_NoDup].
      * intros M2 kk Hkk Hne. apply fold_keep. intros M3 ll Hll. apply store_miss. left. intros E.
        apply pair_inj in E; lia.
      * intros M2. apply (fold_set _ _ _ _ _ l); [| |apply in_seq; lia|apply seq_NoDup].
        -- intros M3 ll Hll Hne. apply store_miss. right. intros E. apply pair_inj in E; lia.
        -- intros M3. apply store_hit.
Qed.

Lemma exchange_tei_ok tei Ni Nj Nk Nl :
  drows tei = (Ni * Nj)%nat -> dcols tei = (Nk * Nl)%nat ->
  exists K, exchange_tei tei Ni Nj Nk Nl = Ok K /\
    drows K = (Nj * Nk)%nat /\ dcols K = (Ni * Nl)%nat /\
    forall i j k l, (i < Ni)%nat -> (j < Nj)%nat -> (k < Nk)%nat -> (l < Nl)%nat ->
      dent K (pair_ix Nj j k) (pair_ix Ni i l) = dent tei (pair_ix Ni i j) (pair_ix Nk k l).
Proof.
  intros Hr Hc. unfold exchange_tei. rewrite Hr, Hc, !Nat.eqb_refl. cbn [negb].
  eexists. split; [reflexivity|]. cbn [drows dcols dent]. repeat split.
  intros. unfold pair_ix. now apply exchange_loops_entry.
Qed.

(** Every index below m*n is the pair index of exactly one pair. *)
Lemma pair_ix_split n m r : (r < n * m)%nat -> exists a b, (a < n)%nat /\ (b < m)%nat /\ r = pair_ix n a b.
Proof.
  intros H. assert (n <> 0)%nat by (intros ->; simpl in H; lia).
  exists (r mod n)%nat, (r / n)%nat. unfold pair_ix.
  pose proof (Nat.div_mod r n ltac:(auto)). pose proof (Nat.mod_upper_bound r n ltac:(auto)).
  repeat split; auto; [|lia].
  apply Nat.div_lt_upper_bound; auto.
Qed.

Lemma exchange_tei_bijective tei Ni Nj Nk Nl K :
  exchange_tei tei Ni Nj Nk Nl = Ok K ->
  forall r c, (r < drows K)%nat -> (c < dcols K)%nat ->
  exists i j k l, ((i < Ni)%nat /\ (j < Nj)%nat /\ (k < Nk)%nat /\ (l < Nl)%nat) /\
    r = pair_ix Nj j k /\ c = pair_ix Ni i l /\
    dent K r c = dent tei (pair_ix Ni i j) (pair_ix Nk k l) /\
    forall i' j' k' l', ((i' < Ni)%nat /\ (j' < Nj)%nat /\ (k' < Nk)%nat /\ (l' < Nl)%nat) ->
      r = pair_ix Nj j' k' -> c = pair_ix Ni i' l' -> i' = i /\ j' = j /\ k' = k /\ l' = l.
Proof.
  intros E r c Hr Hc. unfold exchange_tei in E.
  destruct (Nat.eqb_spec (drows tei) (Ni * Nj)); [|discriminate].
  destruct (Nat.eqb_spec (dcols tei) (Nk * Nl)); [|discriminate].
  injection E as <-. cbn [drows dcols dent] in *.
  destruct (pair_ix_split Nj Nk r Hr) as (j & k & Hj & Hk & ->).
  destruct (pair_ix_split Ni Nl c Hc) as (i & l & Hi & Hl & ->).
  exists i, j, k, l. repeat split; auto.
  - unfold pair_ix. now apply exchange_loops_entry.
  - destruct H as (? & ? & ? & ?). unfold pair_ix in H1. apply pair_inj in H1; lia.
  - destruct H as (? & ? & ? & ?). unfold pair_ix in H0. apply pair_inj in H0; lia.
  - destruct H as (? & ? & ? & ?). unfold pair_ix in H0. apply pair_inj in H0; lia.
  - destruct H as (? & ? & ? & ?). unfold pair_ix in H1. apply pair_inj in H1; lia.
Qed.

Lemma sum_pair n m f :
  sum (n * m) f = sum m (fun b => sum n (fun a => f (pair_ix n a b))).
Proof.
  rewrite (Nat.mul_comm n m). rewrite <- sum_flatten.
  destruct (Nat.eq_dec n 0) as [->|Hn].
  - rewrite Nat.mul_0_r. reflexivity.
  - apply sum_ext. intros k Hk. f_equal. unfold pair_ix.
    pose proof (Nat.div_mod k n Hn). lia.
Qed.

Lemma exchange_contraction tei Ni Nj Nk Nl K (P : mat) :
  exchange_tei tei Ni Nj Nk Nl = Ok K ->
  forall j k, (j < Nj)%nat -> (k < Nk)%nat ->
    sum (Ni * Nl) (fun c => dent K (pair_ix Nj j k) c * P (c mod Ni)%nat (c / Ni)%nat) =
    sum Nl (fun l => sum Ni (fun i => dent tei (pair_ix Ni i j) (pair_ix Nk k l) * P i l)).
Proof.
  intros E j k Hj Hk. unfold exchange_tei in E.
  destruct (Nat.eqb_spec (drows tei) (Ni * Nj)); [|discriminate].
  destruct (Nat.eqb_spec (dcols tei) (Nk * Nl)); [|discriminate].
  injection E as <-. cbn [dent].
  rewrite sum_pair. apply sum_ext. intros l Hl. apply sum_ext. intros i Hi.
  unfold pair_ix. rewrite exchange_loops_entry by auto. f_equal.
  rewrite (Nat.add_comm (l * Ni)), Nat.mod_add, Nat.div_add by lia.
  rewrite Nat.mod_small, Nat.div_small by lia. reflexivity.
Qed.

Lemma exchange_tei_throws tei Ni Nj Nk Nl :
  (drows tei <> Ni * Nj \/ dcols tei <> Nk * Nl)%nat <->
  exchange_tei tei Ni Nj Nk Nl = Throw LogicError.
Proof.
  unfold exchange_tei.
  destruct (Nat.eqb_spec (drows tei) (Ni * Nj)); destruct (Nat.eqb_spec (dcols tei) (Nk * Nl));
    cbn [negb]; split; intros; try discriminate; try lia; auto.
Qed.

(* ---------- positive semidefinite matrices ---------- *)

Lemma psd_diag n A i : psd n A -> (i < n)%nat -> 0 <= A i i.
Proof.
  intros [_ H] Hi. specialize (H (fun k => if Nat.eqb k i then 1 else 0)).
  rewrite (sum_single n i) in H; auto.
  - rewrite (sum_single n i) in H; auto.
    + rewrite Nat.eqb_refl in H. lra.
    + intros j Hj Hne. destruct (Nat.eqb_spec j i); [tauto|]. ring.
  - intros k Hk Hne. apply sum_zero'. intros j Hj. destruct (Nat.eqb_spec k i); [tauto|]. ring.
Qed.

Lemma sum_two n i j f : (i < n)%nat -> (j < n)%nat -> i <> j ->
  (forall k, (k < n)%nat -> k <> i -> k <> j -> f k = 0) -> sum n f = f i + f j.
Proof.
  intros Hi Hj Hij H.
  rewrite (sum_ext n f (fun k => (if Nat.eqb k i then f k else 0) + (if Nat.eqb k j then f k else 0))).
  2:{ intros k Hk. destruct (Nat.eqb_spec k i); destruct (Nat.eqb_spec k j); try lia; try lra.
      rewrite H by auto. ring. }
  rewrite sum_plus. rewrite (sum_single n i), (sum_single n j); auto.
  - rewrite !Nat.eqb_refl. reflexivity.
  - intros k Hk Hne. destruct (Nat.eqb_spec k j); tauto.
  - intros k Hk Hne. destruct (Nat.eqb_spec k i); tauto.
Qed.

Lemma psd_offdiag n A i j t : psd n A -> (i < n)%nat -> (j < n)%nat ->
  A i i <= t -> A j j <= t -> Rabs (A i j) <= t.
Proof.
  intros HA Hi Hj Hii Hjj. destruct (Nat.eq_dec i j) as [->|Hne].
  - rewrite Rabs_pos_eq; auto. now apply (psd_diag n).
  - assert (Q : forall s, s * s = 1 -> 0 <= A i i + A j j + 2 * s * A i j).
    { intros s Hs. destruct HA as [Hsym H].
      specialize (H (fun k => if Nat.eqb k i then 1 else if Nat.eqb k j then s else 0)).
      rewrite (sum_two n i j) in H; auto.
      - rewrite !(sum_two n i j) in H; auto.
        + rewrite !Nat.eqb_refl in H. destruct (Nat.eqb_spec j i); [lia|].
          rewrite (Hsym j i) in H by auto.
          replace (A i i + A j j + 2 * s * A i j) with
            (1 * A i i * 1 + 1 * A i j * s + (s * A i j * 1 + s * A j j * s)); [exact H|].
          replace (s * A j j * s) with (s * s * A j j) by ring. rewrite Hs. ring.
        + intros k Hk H1 H2. destruct (Nat.eqb_spec k i); [tauto|].
          destruct (Nat.eqb_spec k j); [tauto|]. ring.
        + intros k Hk H1 H2. destruct (Nat.eqb_spec k i); [tauto|].
          destruct (Nat.eqb_spec k j); [tauto|]. ring.
      - intros k Hk H1 H2. apply sum_zero'. intros l Hl. destruct (Nat.eqb_spec k i); [tauto|].
        destruct (Nat.eqb_spec k j); [tauto|]. ring. }
    pose proof (Q 1 ltac:(ring)). pose proof (Q (-1) ltac:(ring)).
    apply Rabs_le. lra.
Qed.

(** Removing one pivot keeps the rest positive semidefinite. *)
Lemma psd_schur n A p : psd n A -> (p < n)%nat -> 0 < A p p ->
  psd n (fun i j => A i j - A i p * A j p / A p p).
Proof.
  intros [Hs H] Hp Hpos. split.
  - intros i j Hi Hj. rewrite (Hs i j) by auto. field. lra.
  - intros v.
    set (t := sum n (fun i => A i p * v i) / A p p).
    specialize (H (fun k => v k - t * (if Nat.eqb k p then 1 else 0))).
    assert (E : sum n (fun i => sum n (fun j =>
        (v i - t * (if Nat.eqb i p then 1 else 0)) * A i j * (v j - t * (if Nat.eqb j p then 1 else 0)))) =
      sum n (fun i => sum n (fun j => v i * (A i j - A i p * A j p / A p p) * v j))).
    { transitivity (sum n (fun i => sum n (fun j => v i * A i j * v j))
        - 2 * t * sum n (fun i => A i p * v i) + t * t * A p p).
      - rewrite (sum_ext n _ (fun i =>
          (sum n (fun j => v i * A i j * v j) - t * (A i p * v i))
          + (if Nat.eqb i p then 1 else 0) * (- t * sum n (fun j => A i j * v j) + t * t * A i p))).
        2:{ intros i Hi. rewrite (sum_ext n _ (fun j =>
              (v i * A i j * v j + (if Nat.eqb i p then 1 else 0) * (- t) * (A i j * v j))
              + (if Nat.eqb j p then 1 else 0) * (- t * (v i * A i j) + (if Nat.eqb i p then 1 else 0) * (t * t * A i j)))).
            2:{ intros j Hj. ring. }
            rewrite sum_plus, sum_indicator. destruct (Nat.ltb_spec p n); [|lia].
            rewrite sum_plus. rewrite (sum_scal n ((if Nat.eqb i p then 1 else 0) * (- t)) (fun j => A i j * v j)).
            ring. }
        rewrite sum_plus, sum_indicator. destruct (Nat.ltb_spec p n); [|lia].
        rewrite sum_minus, sum_scal.
        rewrite (sum_ext n (fun j => A p j * v j) (fun j => A j p * v j)).
        2:{ intros j Hj. rewrite (Hs p j) by auto. ring. }
        ring.
      - rewrite (sum_ext n (fun i => sum n (fun j => v i * (A i j - A i p * A j p / A p p) * v j))
          (fun i => sum n (fun j => v i * A i j * v j) - (A i p * v i) * t)).
        2:{ intros i Hi. unfold t. rewrite (sum_ext n _ (fun j => v i * A i j * v j - (A i p * v i / A p p) * (A j p * v j))).
            2:{ intros j Hj. field. lra. }
            rewrite sum_minus, sum_scal. field. lra. }
        rewrite sum_minus, sum_scal_r. unfold t. field. lra. }
    rewrite <- E. exact H.
Qed.

Lemma psd_ext n A B : (forall i j, (i < n)%nat -> (j < n)%nat -> A i j = B i j) -> psd n A -> psd n B.
Proof.
  intros E [Hs H]. split.
  - intros i j Hi Hj. rewrite <- !E by auto. auto.
  - intros v. rewrite (sum_ext n _ (fun i => sum n (fun j => v i * A i j * v j))); auto.
    intros i Hi. apply sum_ext. intros j Hj. rewrite E by auto. reflexivity.
Qed.

(* ---------- pivoted Cholesky ---------- *)

Lemma residual_entry_ok A cols i p : residual_entry A cols i p = A i p - LLT cols i p.
Proof.
  unfold residual_entry, LLT.
  assert (H : forall s, fold_left (fun s c => s - c i * c p) cols s = s - lsum cols (fun c => c i * c p)).
  { induction cols; intros s; simpl; [ring|]. rewrite IHcols. ring. }
  apply H.
Qed.

Lemma LLT_app cols c i j : LLT (cols ++ [c]) i j = LLT cols i j + c i * c j.
Proof. unfold LLT. rewrite lsum_app. simpl. ring. Qed.

Lemma find_pivot_ok n D done tol :
  let '(p, v) := find_pivot n D done tol in
  (p = n /\ forall i, (i < n)%nat -> done i = false -> D i <= tol) \/
  ((p < n)%nat /\ done p = false /\ v = D p /\ tol < D p /\
   forall i, (i < n)%nat -> done i = false -> D i <= D p).
Proof.
  unfold find_pivot.
  set (f := fun pv i => let '(pivot, pivot_val) := pv in
    if negb (done i) && Rltb pivot_val (D i) then (i, D i) else (pivot, pivot_val)).
  assert (H : forall m, (m <= n)%nat ->
    let '(p, v) := fold_left f (seq 0 m) (n, tol) in
    (p = n /\ v = tol /\ forall i, (i < m)%nat -> done i = false -> D i <= tol) \/
    ((p < n)%nat /\ done p = false /\ v = D p /\ tol < D p /\
     forall i, (i < m)%nat -> done i = false -> D i <= D p)).
  { induction m; intros Hm.
    - left. repeat split; auto. intros; lia.
    - rewrite seq_S, fold_left_app. cbn [fold_left]. specialize (IHm ltac:(lia)).
      destruct (fold_left f (seq 0 m) (n, tol)) as [p v]. rewrite Nat.add_0_l. unfold f.
      destruct IHm as [(-> & -> & IH)|(Hp & Hd & -> & Ht & IH)].
      + destruct (done m) eqn:Em; cbn [negb andb].
        * left. repeat split; auto. intros i Hi Hdi.
          destruct (Nat.eq_dec i m) as [->|]; [congruence|]. apply IH; auto; lia.
        * destruct (Rltb_spec tol (D m)).
          -- right. repeat split; auto; try lia. intros i Hi Hdi.
             destruct (Nat.eq_dec i m) as [->|]; [lra|].
             assert (D i <= tol) by (apply IH; auto; lia). lra.
          -- left. repeat split; auto. intros i Hi Hdi.
             destruct (Nat.eq_dec i m) as [->|]; [lra|]. apply IH; auto; lia.
      + destruct (done m) eqn:Em; cbn [negb andb].
        * right. repeat split; auto. intros i Hi Hdi.
          destruct (Nat.eq_dec i m) as [->|]; [congruence|]. apply IH; auto; lia.
        * destruct (Rltb_spec (D p) (D m)).
          -- right. repeat split; auto; try lia; try lra. intros i Hi Hdi.
             destruct (Nat.eq_dec i m) as [->|]; [lra|].
             assert (D i <= D p) by (apply IH; auto; lia). lra.
          -- right. repeat split; auto. intros i Hi Hdi.
             destruct (Nat.eq_dec i m) as [->|]; [lra|]. apply IH; auto; lia. }
  specialize (H n (le_n n)). destruct (fold_left f (seq 0 n) (n, tol)) as [p v].
  destruct H as [(? & ? & ?)|?]; auto.
Qed.

Lemma setv_eq {A} (f : nat -> A) i x : setv f i x i = x.
Proof. unfold setv. now rewrite Nat.eqb_refl. Qed.
Lemma setv_neq {A} (f : nat -> A) i x k : k <> i -> setv f i x k = f k.
Proof. intros H. unfold setv. destruct (Nat.eqb_spec k i); tauto. Qed.

Lemma sqrt_div d : 0 < d -> d / sqrt d = sqrt d.
Proof.
  intros H. pose proof (sqrt_lt_R0 d H). apply (Rmult_eq_reg_r (sqrt d)); [|lra].
  unfold Rdiv. rewrite Rmult_assoc, Rinv_l, sqrt_def by lra. ring.
Qed.

Section CholLoop.
Variables (n : nat) (A : mat) (tol : R).
Hypothesis Htol : 0 <= tol.

Definition resid (cols : list vec) : mat := fun i j => A i j - LLT cols i j.

Definition chol_inv (D : vec) (done : nat -> bool) (cols : list vec) (piv : list nat) : Prop :=
  psd n (resid cols) /\
  (forall p j, (p < n)%nat -> (j < n)%nat -> done p = true -> resid cols p j = 0) /\
  (forall i, (i < n)%nat -> done i = false -> D i = resid cols i i) /\
  NoDup piv /\ length piv = length cols /\
  (forall p, In p piv <-> ((p < n)%nat /\ done p = true)).

Lemma chol_column D done cols piv p :
  chol_inv D done cols piv -> (p < n)%nat -> done p = false -> tol < D p ->
  let done' := setv done p true in
  let col := new_column A cols done' p (sqrt (D p)) in
  forall i, (i < n)%nat -> col i = resid cols i p / sqrt (resid cols p p).
Proof.
  intros (Hpsd & Hz & HD & _) Hp Hdp Ht done' col i Hi. unfold col, new_column.
  rewrite (HD p) in * by auto.
  destruct (Nat.eq_dec i p) as [->|Hne].
  - rewrite setv_eq, sqrt_div by lra. reflexivity.
  - rewrite setv_neq by auto. destruct (Nat.eqb_spec i p); [tauto|]. cbn [negb].
    unfold done'. rewrite setv_neq by auto. rewrite residual_entry_ok. fold (resid cols i p).
    destruct (done i) eqn:E; cbn [andb]; auto.
    rewrite Hz by auto. unfold Rdiv. ring.
Qed.

Lemma chol_step D done cols piv p :
  chol_inv D done cols piv -> (p < n)%nat -> done p = false -> tol < D p ->
  let done' := setv done p true in
  let col := new_column A cols done' p (sqrt (D p)) in
  let D' := fun i => if negb (done' i) then D i - col i * col i else D i in
  chol_inv D' done' (cols ++ [col]) (p :: piv).
Proof.
  intros HI Hp Hdp Ht done' col D'.
  pose proof (chol_column _ _ _ _ _ HI Hp Hdp Ht) as Hcol. fold done' in Hcol. fold col in Hcol.
  destruct HI as (Hpsd & Hz & HD & Hnd & Hlen & Hpiv).
  assert (Hpp : 0 < resid cols p p) by (rewrite <- (HD p) by auto; lra).
  assert (HE : forall i j, (i < n)%nat -> (j < n)%nat ->
     resid (cols ++ [col]) i j = resid cols i j - resid cols i p * resid cols j p / resid cols p p).
  { intros i j Hi Hj. unfold resid at 1. rewrite LLT_app. rewrite !Hcol by auto.
    pose proof (sqrt_lt_R0 _ Hpp).
    replace (resid cols i p / sqrt (resid cols p p) * (resid cols j p / sqrt (resid cols p p)))
      with (resid cols i p * resid cols j p / (sqrt (resid cols p p) * sqrt (resid cols p p))) by (field; lra).
    rewrite sqrt_def by lra. unfold resid. ring. }
  assert (Hsym := proj1 Hpsd).
  repeat split.
  - intros i j Hi Hj. rewrite !HE by auto. rewrite (Hsym i j) by auto. field. lra.
  - intros v. pose proof (psd_schur n _ p Hpsd Hp Hpp) as Hs.
    assert (Hs' : psd n (resid (cols ++ [col]))).
    { eapply psd_ext; [|exact Hs]. intros i j Hi Hj. cbv beta. now rewrite HE. }
    apply Hs'.
  - intros q j Hq Hj Hd. rewrite HE by auto. unfold done' in Hd.
    destruct (Nat.eq_dec q p) as [->|Hne].
    + rewrite (Hsym p j) by auto. field. lra.
    + rewrite setv_neq in Hd by auto. rewrite (Hz q j), (Hz q p) by auto. field. lra.
  - intros i Hi Hd. unfold D'. rewrite Hd. cbn [negb].
    assert (i <> p) by (intros ->; unfold done' in Hd; rewrite setv_eq in Hd; discriminate).
    unfold done' in Hd. rewrite setv_neq in Hd by auto.
    rewrite HD by auto. unfold resid at 2. rewrite LLT_app. unfold resid. ring.
  - constructor; auto. intros Hin. apply Hpiv in Hin. destruct Hin. congruence.
  - rewrite app_length. simpl. lia.
  - destruct H as [<-|H]; auto. apply Hpiv in H. tauto.
  - destruct H as [<-|H]; unfold done'.
    + apply setv_eq.
    + apply Hpiv in H. destruct H. destruct (Nat.eq_dec p0 p) as [->|]; [apply setv_eq|].
      rewrite setv_neq; auto.
  - intros [Hlt Hd]. unfold done' in Hd. destruct (Nat.eq_dec p0 p) as [->|]; [left; auto|].
    rewrite setv_neq in Hd by auto. right. apply Hpiv. auto.
Qed.

Lemma chol_loop_ok k : forall D done cols piv,
  chol_inv D done cols piv -> (length cols + k = n)%nat ->
  let L := chol_loop k n A tol D done cols in
  psd n (resid L) /\ (length L <= n)%nat /\
  (forall i, (i < n)%nat -> resid L i i <= tol) /\
  exists piv, NoDup piv /\ length piv = length L /\
    (forall p, In p piv -> (p < n)%nat) /\
    (forall p j, In p piv -> (j < n)%nat -> resid L p j = 0).
Proof.
  induction k; intros D done cols piv HI Hlen.
  - cbn [chol_loop]. cbv zeta. pose proof HI as (Hpsd & Hz & HD & Hnd & Hl & Hpiv).
    assert (Hall : forall i, (i < n)%nat -> done i = true).
    { intros i Hi. assert (In i piv); [|now apply Hpiv].
      apply (NoDup_length_incl Hnd (l' := seq 0 n)).
      - rewrite seq_length. lia.
      - intros x Hx. apply Hpiv in Hx. apply in_seq. lia.
      - apply in_seq. lia. }
    split; auto. split; [lia|]. split.
    + intros i Hi. rewrite Hz; auto.
    + exists piv. repeat split; auto.
      * intros p Hp. now apply Hpiv.
      * intros p j Hp Hj. apply Hpiv in Hp. apply Hz; tauto.
  - cbn [chol_loop]. pose proof (find_pivot_ok n D done tol) as HP.
    destruct (find_pivot n D done tol) as [p v].
    destruct HP as [(-> & Hle)|(Hp & Hd & -> & Ht & Hmax)].
    + rewrite Nat.eqb_refl. cbv zeta. pose proof HI as (Hpsd & Hz & HD & Hnd & Hl & Hpiv).
      split; auto. split; [lia|]. split.
      * intros i Hi. destruct (done i) eqn:E; [rewrite Hz; auto|]. rewrite <- HD; auto.
      * exists piv. repeat split; auto.
        -- intros p Hp. now apply Hpiv.
        -- intros p j Hp Hj. apply Hpiv in Hp. apply Hz; tauto.
    + destruct (Nat.eqb_spec p n); [lia|].
      pose proof (chol_step _ _ _ _ _ HI Hp Hd Ht) as HS.
      cbv zeta in HS |- *. eapply IHk; [exact HS|]. rewrite app_length. simpl. lia.
Qed.

(** Columns inherit every index symmetry of the matrix. *)
Lemma chol_loop_swap (s : nat -> nat) k : forall D done cols piv,
  (forall i, (i < n)%nat -> (s i < n)%nat) ->
  (forall i j, (i < n)%nat -> (j < n)%nat -> A (s i) j = A i j) ->
  chol_inv D done cols piv ->
  (forall c i, In c cols -> (i < n)%nat -> c (s i) = c i) ->
  forall c i, In c (chol_loop k n A tol D done cols) -> (i < n)%nat -> c (s i) = c i.
Proof.
  induction k; intros D done cols piv Hs HA HI Hc; [exact Hc|].
  cbn [chol_loop]. pose proof (find_pivot_ok n D done tol) as HP.
  destruct (find_pivot n D done tol) as [p v].
  destruct HP as [(-> & Hle)|(Hp & Hd & -> & Ht & Hmax)].
  - rewrite Nat.eqb_refl. exact Hc.
  - destruct (Nat.eqb_spec p n); [lia|].
    pose proof (chol_step _ _ _ _ _ HI Hp Hd Ht) as HS.
    pose proof (chol_column _ _ _ _ _ HI Hp Hd Ht) as Hcol.
    cbv zeta in HS, Hcol |- *. eapply IHk; eauto.
    intros c i Hin Hi. apply in_app_or in Hin. destruct Hin as [Hin|[<-|[]]]; auto.
    rewrite !Hcol by auto. f_equal. unfold resid. rewrite HA by auto. f_equal.
    unfold LLT. apply lsum_ext. intros c' Hc'. rewrite (Hc c' i); auto.
Qed.

Lemma chol_start : psd n A -> chol_inv (fun i => A i i) (fun _ => false) [] [].
Proof.
  intros H. unfold chol_inv.
  assert (E : forall i j, resid [] i j = A i j) by (intros; unfold resid, LLT; simpl; ring).
  split; [|repeat split; simpl; auto; try discriminate; try constructor; try tauto].
  - eapply psd_ext; [|exact H]. intros. now rewrite E.
  - intros [_ H1]. discriminate.
Qed.
End CholLoop.

Lemma pivoted_cholesky_ok A tol : dcols A = drows A -> 0 <= tol -> psd (drows A) (dent A) ->
  exists L, pivoted_cholesky A tol = Ok L /\ (length L <= drows A)%nat /\
    (forall i j, (i < drows A)%nat -> (j < drows A)%nat ->
       Rabs (dent A i j - LLT L i j) <= tol) /\
    psd (drows A) (fun i j => dent A i j - LLT L i j) /\
    exists piv, NoDup piv /\ length piv = length L /\
      forall p j, In p piv -> (j < drows A)%nat ->
        (p < drows A)%nat /\ dent A p j = LLT L p j.
Proof.
  intros Hsq Ht Hpsd. unfold pivoted_cholesky. rewrite Hsq, Nat.eqb_refl. cbn [negb].
  set (n := drows A) in *.
  destruct (chol_loop_ok n (dent A) tol Ht n _ _ _ _ (chol_start n (dent A) Hpsd) eq_refl)
    as (P & Hl & Hd & piv & Hnd & Hlp & Hlt & Hz).
  eexists. split; [reflexivity|]. split; auto. split.
  - intros i j Hi Hj. apply (psd_offdiag n _ i j tol P); auto; now apply Hd.
  - split; [exact P|]. exists piv. repeat split; auto.
    specialize (Hz p j H H0). unfold resid in Hz. lra.
Qed.

Lemma pivoted_cholesky_swap A tol L s : dcols A = drows A -> 0 <= tol -> psd (drows A) (dent A) ->
  pivoted_cholesky A tol = Ok L ->
  (forall i, (i < drows A)%nat -> (s i < drows A)%nat) ->
  (forall i j, (i < drows A)%nat -> (j < drows A)%nat -> dent A (s i) j = dent A i j) ->
  forall c i, In c L -> (i < drows A)%nat -> c (s i) = c i.
Proof.
  intros Hsq Ht Hpsd E Hs HA. unfold pivoted_cholesky in E.
  rewrite Hsq, Nat.eqb_refl in E. cbn [negb] in E. injection E as <-.
  eapply chol_loop_swap; eauto.
  - apply chol_start; auto.
  - intros c i [].
Qed.

Lemma pivoted_cholesky_throws A tol : dcols A <> drows A -> pivoted_cholesky A tol = Throw LogicError.
Proof.
  intros H. unfold pivoted_cholesky. destruct (Nat.eqb_spec (dcols A) (drows A)); [tauto|reflexivity].
Qed.

(* ---------- signed factorisation ---------- *)

Lemma max_abs_ok N d : (0 < N)%nat ->
  (fst (max_abs N d) < N)%nat /\ snd (max_abs N d) = Rabs (d (fst (max_abs N d))) /\
  forall i, (i < N)%nat -> Rabs (d i) <= snd (max_abs N d).
Proof.
  intros HN. unfold max_abs.
  set (f := fun pv i => if Rltb (snd pv) (Rabs (d i)) then (i, Rabs (d i)) else pv).
  assert (H : forall m, (m < N)%nat ->
    let pv := fold_left f (seq 1 m) (0%nat, Rabs (d 0%nat)) in
    (fst pv < N)%nat /\ snd pv = Rabs (d (fst pv)) /\
    forall i, (i <= m)%nat -> Rabs (d i) <= snd pv).
  { induction m; intros Hm.
    - simpl. repeat split; auto. intros i Hi. replace i with 0%nat by lia. lra.
    - rewrite seq_S, fold_left_app. cbn [fold_left]. specialize (IHm ltac:(lia)). cbv zeta in *.
      set (pv := fold_left f (seq 1 m) (0%nat, Rabs (d 0%nat))) in *.
      destruct IHm as (H1 & H2 & H3). unfold f.
      destruct (Rltb_spec (snd pv) (Rabs (d (1 + m)%nat))); cbn [fst snd].
      + repeat split; auto. intros i Hi. destruct (Nat.eq_dec i (S m)) as [->|]; [simpl; lra|].
        assert (Rabs (d i) <= snd pv) by (apply H3; lia). lra.
      + repeat split; auto. intros i Hi. destruct (Nat.eq_dec i (S m)) as [->|].
        * change (S m) with (1 + m)%nat. lra.
        * apply H3; lia. }
  destruct (H (N - 1)%nat ltac:(lia)) as (H1 & H2 & H3). repeat split; auto.
  intros i Hi. apply H3. lia.
Qed.

Lemma BsBT_app B s c i j : BsBT (B ++ [(s, c)]) i j = BsBT B i j + s * c i * c j.
Proof. unfold BsBT. rewrite lsum_app. simpl. ring. Qed.

Section Signed.
Variables (N : nat) (W : mat) (thresh dmax0 : R).
Hypothesis HN : (0 < N)%nat.
Hypothesis Hth : 0 <= thresh.
Hypothesis HW : symmetric N W.

Definition sresid (B : list (R * vec)) : mat := fun i j => W i j - BsBT B i j.

Definition signed_inv (d : vec) (B : list (R * vec)) (piv : list nat) : Prop :=
  symmetric N (sresid B) /\
  (forall i, (i < N)%nat -> d i = sresid B i i) /\
  (forall p j, In p piv -> (j < N)%nat -> sresid B p j = 0) /\
  NoDup piv /\ length piv = length B /\ (forall p, In p piv -> (p < N)%nat) /\
  (forall sc, In sc B -> fst sc = 1 \/ fst sc = -1).

Lemma signed_column_ok B p dp i :
  signed_column W B p dp i = sresid B i p / sqrt (Rabs dp).
Proof.
  unfold signed_column, sresid, BsBT. do 2 f_equal. apply lsum_ext. intros. ring.
Qed.

Lemma signed_step d B piv p : signed_inv d B piv -> (p < N)%nat -> d p <> 0 ->
  let s := if Rleb 0 (d p) then 1 else -1 in
  let col := signed_column W B p (d p) in
  let d' := setv (fun i => d i - s * (col i * col i)) p 0 in
  signed_inv d' (B ++ [(s, col)]) (p :: piv) /\
  forall i j, (i < N)%nat -> (j < N)%nat ->
    sresid (B ++ [(s, col)]) i j = sresid B i j - sresid B i p * sresid B j p / sresid B p p.
Proof.
  intros (Hsym & Hd & Hz & Hnd & Hl & Hlt & Hsg) Hp Hne s col d'.
  assert (Hsd : s / Rabs (d p) = / d p /\ (s = 1 \/ s = -1)).
  { unfold s. destruct (Rleb_spec 0 (d p)).
    - rewrite Rabs_pos_eq by auto. split; auto. field. auto.
    - rewrite Rabs_left by lra. split; auto. field. auto. }
  destruct Hsd as [Hsd Hs1].
  assert (HE : forall i j, (i < N)%nat -> (j < N)%nat ->
    sresid (B ++ [(s, col)]) i j = sresid B i j - sresid B i p * sresid B j p / sresid B p p).
  { intros i j Hi Hj. unfold sresid at 1. rewrite BsBT_app. unfold col. rewrite !signed_column_ok.
    assert (0 < Rabs (d p)) by (apply Rabs_pos_lt; auto).
    pose proof (sqrt_lt_R0 _ H).
    replace (s * (sresid B i p / sqrt (Rabs (d p))) * (sresid B j p / sqrt (Rabs (d p))))
      with (sresid B i p * sresid B j p * (s / (sqrt (Rabs (d p)) * sqrt (Rabs (d p))))) by (field; lra).
    rewrite sqrt_def by lra. rewrite Hsd, Hd by auto. unfold sresid, Rdiv. ring. }
  assert (Hpp : sresid B p p <> 0) by (rewrite <- Hd; auto).
  split; auto. repeat split.
  - intros i j Hi Hj. rewrite !HE by auto. rewrite (Hsym i j) by auto. field. auto.
  - intros i Hi. unfold d'. destruct (Nat.eq_dec i p) as [->|Hip].
    + rewrite setv_eq, HE by auto. field. auto.
    + rewrite setv_neq by auto. rewrite Hd by auto. unfold sresid. rewrite BsBT_app. ring.
  - intros q j [<-|Hq] Hj; (rewrite HE; [|auto|auto]).
    + rewrite (Hsym p j) by auto. field. auto.
    + rewrite (Hz q j), (Hz q p) by auto. field. auto.
  - constructor; [|exact Hnd]. intros Hin. apply (Hz p p) in Hin; auto.
  - rewrite app_length. simpl. lia.
  - intros q [<-|Hq]; auto.
  - intros sc Hin. apply in_app_or in Hin. destruct Hin as [|[<-|[]]]; auto.
Qed.

Lemma signed_loop_ok k : forall d B piv, signed_inv d B piv -> (length B + k = N)%nat ->
  0 <= dmax0 -> (dmax0 <= 0 -> forall i, (i < N)%nat -> d i = 0) ->
  let F := signed_loop k N W thresh dmax0 d B in
  symmetric N (sresid F) /\ (length F <= N)%nat /\
  (forall i, (i < N)%nat -> Rabs (sresid F i i) <= thresh * dmax0) /\
  (forall sc, In sc F -> fst sc = 1 \/ fst sc = -1) /\
  (psd N (sresid B) -> psd N (sresid F)) /\
  exists piv, NoDup piv /\ length piv = length F /\ (forall p, In p piv -> (p < N)%nat) /\
    forall p j, In p piv -> (j < N)%nat -> sresid F p j = 0.
Proof.
  induction k; intros d B piv HI Hlen Hd0 Hz0.
  - cbn [signed_loop]. cbv zeta. pose proof HI as (Hsym & Hd & Hz & Hnd & Hl & Hlt & Hsg).
    assert (Hall : forall i, (i < N)%nat -> In i piv).
    { intros i Hi. apply (NoDup_length_incl Hnd (l' := seq 0 N)).
      - rewrite seq_length. lia.
      - intros x Hx. apply in_seq. apply Hlt in Hx. lia.
      - apply in_seq. lia. }
    repeat split; auto; try lia.
    + intros i Hi. rewrite Hz, Rabs_R0 by auto. apply Rmult_le_pos; auto.
    + apply H.
    + exists piv. auto.
  - cbn [signed_loop]. destruct (max_abs_ok N d HN) as (Hp & Hv & Hmax).
    destruct (max_abs N d) as [p v]. cbn [fst snd] in *.
    pose proof HI as (Hsym & Hd & Hz & Hnd & Hl & Hlt & Hsg).
    assert (Hstop : v <= thresh * dmax0 ->
      symmetric N (sresid B) /\ (length B <= N)%nat /\
      (forall i, (i < N)%nat -> Rabs (sresid B i i) <= thresh * dmax0) /\
      (forall sc, In sc B -> fst sc = 1 \/ fst sc = -1) /\
      (psd N (sresid B) -> psd N (sresid B)) /\
      exists piv, NoDup piv /\ length piv = length B /\ (forall p, In p piv -> (p < N)%nat) /\
        forall p j, In p piv -> (j < N)%nat -> sresid B p j = 0).
    { intros Hle. repeat split; auto; try lia.
      - intros i Hi. rewrite <- Hd by auto. specialize (Hmax i Hi). lra.
      - apply H.
      - exists piv. auto. }
    destruct (Rleb_spec dmax0 0) as [H0|H0]; cbn [orb].
    { apply Hstop. rewrite Hv, (Hz0 H0 p Hp), Rabs_R0. apply Rmult_le_pos; auto. }
    destruct (Rleb_spec v (thresh * dmax0)) as [H1|H1]; [auto|].
    assert (Hdp : d p <> 0).
    { intros E. rewrite E, Rabs_R0 in Hv. assert (0 <= thresh * dmax0) by (apply Rmult_le_pos; auto). lra. }
    destruct (signed_step d B piv p HI Hp Hdp) as [HS HE]. cbv zeta in *.
    match goal with |- context [signed_loop k N W thresh dmax0 ?dd ?BB] =>
      destruct (IHk dd BB (p :: piv) HS) as (A1 & A2 & A3 & A4 & A5 & A6) end.
    + rewrite app_length. simpl. lia.
    + auto.
    + intros; lra.
    + split; [exact A1|]. split; [exact A2|]. split; [exact A3|]. split; [exact A4|].
      split; [|exact A6]. intros HP. apply A5.
      assert (Hpp : 0 < sresid B p p).
      { pose proof (psd_diag N _ p HP Hp) as Q. rewrite <- Hd in * by auto. lra. }
      eapply psd_ext; [|apply (psd_schur N _ p HP Hp Hpp)].
      intros i j Hi Hj. cbv beta. symmetry. apply HE; auto.
Qed.

Lemma signed_start : signed_inv (fun i => W i i) [] [].
Proof.
  assert (E : forall i j, sresid [] i j = W i j) by (intros; unfold sresid, BsBT; simpl; ring).
  repeat split; simpl; auto; try tauto; try constructor.
  intros i j Hi Hj. rewrite !E. now apply HW.
Qed.
End Signed.

Lemma signed_cholesky_ok N W thresh : (0 < N)%nat -> 0 <= thresh -> symmetric N W ->
  let F := signed_cholesky N W thresh in
  (length F <= N)%nat /\
  (forall sc, In sc F -> fst sc = 1 \/ fst sc = -1) /\
  (exists k, (k < N)%nat /\ forall i, (i < N)%nat ->
     Rabs (W i i - BsBT F i i) <= thresh * Rabs (W k k)) /\
  (exists piv, NoDup piv /\ length piv = length F /\
     forall p j, In p piv -> (j < N)%nat -> (p < N)%nat /\ W p j = BsBT F p j) /\
  (psd N W -> exists k, (k < N)%nat /\ forall i j, (i < N)%nat -> (j < N)%nat ->
     Rabs (W i j - BsBT F i j) <= thresh * W k k).
Proof.
  intros HN Hth HW F. unfold F, signed_cholesky.
  destruct (max_abs_ok N (fun i => W i i) HN) as (Hp & Hv & Hmax).
  set (m := snd (max_abs N (fun i => W i i))) in *.
  assert (Hm0 : 0 <= m) by (rewrite Hv; apply Rabs_pos).
  destruct (signed_loop_ok N W thresh m HN Hth N _ _ _ (signed_start N W HW) eq_refl Hm0)
    as (Hs & Hl & Hd & Hsg & Hpsd & piv & Hnd & Hlp & Hlt & Hz).
  { intros Hle i Hi. specialize (Hmax i Hi). pose proof (Rabs_pos (W i i)).
    destruct (Req_dec (W i i) 0); auto. pose proof (Rabs_pos_lt _ H0). lra. }
  set (G := signed_loop N N W thresh m (fun i => W i i) []) in *.
  split; auto. split; auto. split; [|split].
  - exists (fst (max_abs N (fun i => W i i))). split; auto. intros i Hi. rewrite <- Hv. now apply Hd.
  - exists piv. split; auto. split; auto. intros p j Hin Hj. split; auto.
    specialize (Hz p j Hin Hj). unfold sresid in Hz. lra.
  - intros HP. exists (fst (max_abs N (fun i => W i i))). split; auto. intros i j Hi Hj.
    assert (HP0 : psd N (sresid W [])).
    { eapply psd_ext; [|exact HP]. intros. unfold sresid, BsBT. simpl. ring. }
    specialize (Hpsd HP0).
    assert (m = W (fst (max_abs N (fun i => W i i))) (fst (max_abs N (fun i => W i i)))) as Hmm.
    { rewrite Hv. apply Rabs_pos_eq. now apply (psd_diag N). }
    rewrite <- Hmm. apply (psd_offdiag N _ i j _ Hpsd); auto.
    + eapply Rle_trans; [apply RRle_abs|]. now apply Hd.
    + eapply Rle_trans; [apply RRle_abs|]. now apply Hd.
Qed.

(** When the factor has N columns it reproduces W completely. *)
Lemma signed_cholesky_full N W thresh : (0 < N)%nat -> 0 <= thresh -> symmetric N W ->
  length (signed_cholesky N W thresh) = N ->
  forall i j, (i < N)%nat -> (j < N)%nat -> W i j = BsBT (signed_cholesky N W thresh) i j.
Proof.
  intros HN Ht HW HL i j Hi Hj.
  destruct (signed_cholesky_ok N W thresh HN Ht HW) as (_ & _ & _ & (piv & Hnd & Hlp & Hz) & _).
  apply Hz; auto. apply (NoDup_length_incl Hnd (l' := seq 0 N)).
  - rewrite seq_length. lia.
  - intros x Hx. apply (Hz x i) in Hx; auto. apply in_seq. lia.
  - apply in_seq. lia.
Qed.

Definition swap2 : mat := fun i j => if Nat.eqb i j then 0 else 1.

Lemma swap2_factor thresh : signed_cholesky 2 swap2 thresh = [].
Proof.
  unfold signed_cholesky, max_abs, swap2. cbn [seq Nat.sub fold_left fst snd].
  rewrite !Nat.eqb_refl, Rabs_R0.
  destruct (Rltb_spec 0 0); [lra|]. cbn [snd signed_loop].
  unfold max_abs. cbn [seq Nat.sub fold_left fst snd]. rewrite !Nat.eqb_refl, Rabs_R0.
  destruct (Rltb_spec 0 0); [lra|]. destruct (Rleb_spec 0 0); [reflexivity|lra].
Qed.

Lemma signed_incomplete : exists (N : nat) (W : mat), symmetric N W /\
  forall thresh, 0 <= thresh ->
  exists i j, (i < N)%nat /\ (j < N)%nat /\ W i j = 1 /\ BsBT (signed_cholesky N W thresh) i j = 0.
Proof.
  exists 2%nat, swap2. split.
  - intros i j _ _. unfold swap2. rewrite Nat.eqb_sym. reflexivity.
  - intros t Ht. exists 0%nat, 1%nat. rewrite swap2_factor. repeat split; auto.
Qed.

Lemma two_channel_ok n T00 T02 T22 :
  symmetric (2 * n) (two_channel n T00 T02 T22) /\
  (symmetric n T00 -> symmetric n T22 -> forall i j, (i < n)%nat -> (j < n)%nat ->
     two_channel n T00 T02 T22 i j = T00 i j /\
     two_channel n T00 T02 T22 i (n + j)%nat = - T02 i j /\
     two_channel n T00 T02 T22 (n + i)%nat j = - T02 j i /\
     two_channel n T00 T02 T22 (n + i)%nat (n + j)%nat = T22 i j).
Proof.
  split.
  - intros i j _ _. unfold two_channel. ring.
  - intros H0 H2 i j Hi Hj. unfold two_channel.
    destruct (Nat.ltb_spec i n); [|lia]. destruct (Nat.ltb_spec j n); [|lia].
    destruct (Nat.ltb_spec (n + i) n); [lia|]. destruct (Nat.ltb_spec (n + j) n); [lia|].
    replace (n + i - n)%nat with i by lia. replace (n + j - n)%nat with j by lia.
    rewrite (H0 j i), (H2 j i) by auto. repeat split; field.
Qed.

(** A positive semidefinite example with a non-trivial rank: ones. *)
Lemma ones_psd n : psd n (fun _ _ => 1).
Proof.
  split; [intros i j _ _; reflexivity|]. intros v.
  rewrite (sum_ext n _ (fun i => v i * sum n v)).
  2:{ intros i Hi. rewrite <- sum_scal. apply sum_ext. intros. ring. }
  rewrite sum_scal_r. apply Rle_0_sqr.
Qed.
