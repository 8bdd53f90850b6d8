Require Import Reals List Bool Arith Lia Lra Permutation FunctionalExtensionality.
Require Import Verif.Prelude Verif.AngModel Verif.AngProofs Verif.TwoDProofs Verif.ScfModel Verif.ScfSpec.
Import ListNotations.
Local Open Scope R_scope.

(* ---------- matrices ---------- *)

Lemma massoc n m A B C : mmul m (mmul n A B) C = mmul n A (mmul m B C).
Proof. apply functional_extensionality; intros i. apply functional_extensionality; intros j. apply mmul_assoc. Qed.
Lemma mT_mmul n A B : mT (mmul n A B) = mmul n (mT B) (mT A).
Proof. apply functional_extensionality; intros i. apply functional_extensionality; intros j. unfold mT. now rewrite mmul_T. Qed.
Lemma mT_mT A : mT (mT A) = A.
Proof. reflexivity. Qed.
Lemma mmul_meq n A A' B B' i j : (forall k, (k < n)%nat -> A i k = A' i k) -> (forall k, (k < n)%nat -> B k j = B' k j) ->
  mmul n A B i j = mmul n A' B' i j.
Proof. intros HA HB. unfold mmul. apply sum_ext. intros k Hk. now rewrite HA, HB. Qed.
Lemma mmul_l n A A' B i j : (forall k, (k < n)%nat -> A i k = A' i k) -> mmul n A B i j = mmul n A' B i j.
Proof. intros H. apply mmul_meq; auto. Qed.
Lemma mmul_r n A B B' i j : (forall k, (k < n)%nat -> B k j = B' k j) -> mmul n A B i j = mmul n A B' i j.
Proof. intros H. apply mmul_meq; auto. Qed.
Lemma sum_mid_l n i f : (i < n)%nat -> sum n (fun k => mid i k * f k) = f i.
Proof.
  intros H. rewrite (sum_single n i); auto.
  - unfold mid. rewrite Nat.eqb_refl. ring.
  - intros k Hk Hne. unfold mid. destruct (Nat.eqb_spec i k); [lia|ring].
Qed.
Lemma mid_sym i j : mid i j = mid j i.
Proof. unfold mid. rewrite Nat.eqb_sym. reflexivity. Qed.
Lemma sum_mid_r n i f : (i < n)%nat -> sum n (fun k => f k * mid k i) = f i.
Proof. intros H. rewrite <- (sum_mid_l n i f H). apply sum_ext. intros k Hk. rewrite mid_sym. ring. Qed.

(* ---------- invh ---------- *)

Lemma diag_pos n A i : positive_definite n A -> (i < n)%nat -> 0 < A i i.
Proof.
  intros [_ H] Hi. specialize (H (fun k => mid i k)).
  assert (E : quad_form n A (fun k => mid i k) = A i i).
  { unfold quad_form. rewrite (sum_ext n _ (fun p => mid i p * sum n (fun q => mid i q * A p q))).
    - rewrite sum_mid_l by auto. now rewrite sum_mid_l.
    - intros p Hp. rewrite <- sum_scal. apply sum_ext. intros q Hq. ring. }
  rewrite E in H. apply H. exists i. split; auto. unfold mid. rewrite Nat.eqb_refl. lra.
Qed.

Lemma sandwich n A i j V W : mmul n (mmul n (mT V) A) W i j = sum n (fun p => sum n (fun q => V p i * A p q * W q j)).
Proof.
  unfold mmul, mT. rewrite (sum_ext n _ (fun q => sum n (fun p => V p i * A p q * W q j))).
  - apply sum_swap.
  - intros q Hq. rewrite <- sum_scal_r. reflexivity.
Qed.

Lemma eigen_pos n A e V i : positive_definite n A -> is_eigensystem n A e V -> (i < n)%nat -> 0 < e i.
Proof.
  intros [Hs Hp] (O1 & O2 & HE & _) Hi. specialize (Hp (fun r => V r i)).
  assert (E : quad_form n A (fun r => V r i) = e i).
  { unfold quad_form.
    rewrite (sum_ext n _ (fun p => V p i * mmul n A V p i)).
    2:{ intros p Hp'. unfold mmul. rewrite <- sum_scal. apply sum_ext. intros q Hq. ring. }
    rewrite (sum_ext n _ (fun p => e i * (mT V i p * V p i))).
    2:{ intros p Hp'. rewrite HE by auto. unfold mT. ring. }
    rewrite sum_scal. change (sum n (fun p => mT V i p * V p i)) with (mmul n (mT V) V i i).
    rewrite O1 by auto. unfold mid. rewrite Nat.eqb_refl. ring. }
  rewrite <- E. apply Hp.
  destruct (Classical_Prop.classic (exists r, (r < n)%nat /\ V r i <> 0)) as [H|H]; auto. exfalso.
  assert (Z : mmul n (mT V) V i i = 0).
  { unfold mmul. apply sum_zero'. intros r Hr. unfold mT.
    assert (V r i = 0) by (destruct (Req_dec (V r i) 0); auto; exfalso; apply H; eauto). rewrite H0. ring. }
  rewrite O1 in Z by auto. unfold mid in Z. rewrite Nat.eqb_refl in Z. lra.
Qed.

Lemma scaled_pd n A d : positive_definite n A -> (forall i, (i < n)%nat -> d i <> 0) ->
  positive_definite n (fun i j => d i * A i j * d j).
Proof.
  intros [Hs Hp] Hd. split.
  - intros i j Hi Hj. rewrite Hs by auto. ring.
  - intros v (i & Hi & Hv). assert (E : quad_form n (fun i j => d i * A i j * d j) v = quad_form n A (fun i => d i * v i)).
    { unfold quad_form. apply sum_ext. intros p Hp'. apply sum_ext. intros q Hq. ring. }
    rewrite E. apply Hp. exists i. split; [exact Hi|]. specialize (Hd i Hi). intros HH. apply Rmult_integral in HH. tauto.
Qed.

(** From a half-inverse of the normalised matrix to one of the matrix. *)
Lemma rescale_half_inverse n S d Y : (forall i, (i < n)%nat -> d i <> 0) ->
  half_inverse n Y (fun i j => d i * S i j * d j) -> half_inverse n (fun i j => d i * Y i j) S.
Proof.
  intros Hd [H1 H2]. split; intros i j Hi Hj.
  - rewrite <- (H1 i j Hi Hj). rewrite !sandwich. apply sum_ext. intros p Hp. apply sum_ext. intros q Hq. ring.
  - assert (E : mmul n (mmul n (fun i j => d i * Y i j) (mT (fun i j => d i * Y i j))) S i j =
               d i * / d j * mmul n (mmul n Y (mT Y)) (fun i j => d i * S i j * d j) i j).
    { unfold mmul, mT. rewrite <- sum_scal. apply sum_ext. intros k Hk.
      rewrite <- !sum_scal_r. rewrite <- sum_scal. apply sum_ext. intros l Hl. field. apply Hd; auto. }
    rewrite E, H2 by auto. unfold mid. destruct (Nat.eqb_spec i j) as [->|]; [|ring]. field. apply Hd; auto.
Qed.

Lemma eig_half_inverse n A e V : symmetric n A -> is_eigensystem n A e V -> (forall i, (i < n)%nat -> 0 < e i) ->
  half_inverse n (fun i j => sum n (fun k => V i k * / sqrt (e k) * V j k)) A.
Proof.
  intros Hs (O1 & O2 & HE & _) Hp.
  set (w := fun k => / sqrt (e k)).
  assert (Hw : forall k, (k < n)%nat -> w k * e k * w k = 1).
  { intros k Hk. unfold w. specialize (Hp k Hk). assert (sqrt (e k) <> 0) by (apply Rgt_not_eq, sqrt_lt_R0; auto).
    pattern (e k) at 2. rewrite <- (sqrt_sqrt (e k)) by lra. field. auto. }
  change (fun i j : nat => sum n (fun k : nat => V i k * / sqrt (e k) * V j k)) with (fun i j : nat => sum n (fun k : nat => V i k * w k * V j k)).
  set (D := fun i j => mid i j * w j).
  assert (EY : (fun i j : nat => sum n (fun k : nat => V i k * w k * V j k)) = mmul n (fun i k => V i k * w k) (mT V)).
  { reflexivity. }
  rewrite EY. set (W := fun i k => V i k * w k).
  (* V^T A V = diag e *)
  assert (HD : forall k l, (k < n)%nat -> (l < n)%nat -> mmul n (mT V) (mmul n A V) k l = mid k l * e l).
  { intros k l Hk Hl. rewrite (mmul_r n (mT V) (mmul n A V) (fun i j => V i j * e j)) by (intros; apply HE; auto).
    unfold mmul. rewrite (sum_ext n _ (fun p => (mT V k p * V p l) * e l)) by (intros; ring).
    rewrite sum_scal_r. f_equal. apply O1; auto. }
  assert (ET : mT (mmul n W (mT V)) = mmul n V (mT W)) by (rewrite mT_mmul; reflexivity).
  split; intros i j Hi Hj.
  - rewrite ET, !massoc.
    (* V W^T A W V^T *)
    assert (E1 : forall k l, (k < n)%nat -> (l < n)%nat -> mmul n (mT W) (mmul n A W) k l = mid k l).
    { intros k l Hk Hl.
      assert (E : mmul n (mT W) (mmul n A W) k l = w k * mmul n (mT V) (mmul n A V) k l * w l).
      { unfold mmul at 1 3. rewrite Rmult_assoc, <- sum_scal_r, <- sum_scal. apply sum_ext. intros p Hp'.
        assert (EE : mmul n A W p l = mmul n A V p l * w l).
        { unfold mmul, W. rewrite <- sum_scal_r. apply sum_ext. intros; ring. }
        rewrite EE. unfold mT, W. ring. }
      rewrite E, HD by auto. unfold mid. destruct (Nat.eqb_spec k l) as [->|]; [|ring].
      transitivity (w l * e l * w l); [ring|apply Hw; auto]. }
    rewrite (mmul_r n V _ (mT V)).
    + apply O2; auto.
    + intros k Hk. rewrite <- (massoc n n A W (mT V)), <- massoc.
      rewrite (mmul_l n _ mid) by (intros; apply E1; auto). apply mmul_id_l; auto.
  - rewrite ET, !massoc.
    (* W V^T V W^T A *)
    assert (E0 : mmul n W (mmul n (mT V) (mmul n V (mmul n (mT W) A))) i j = mmul n W (mmul n (mT W) A) i j).
    { apply mmul_r. intros k Hk. rewrite <- massoc. rewrite (mmul_l n _ mid) by (intros; apply O1; auto).
      apply mmul_id_l; auto. }
    rewrite E0.
    (* A = A V V^T *)
    assert (E1 : mmul n W (mmul n (mT W) A) i j = mmul n W (mmul n (mT W) (mmul n A (mmul n V (mT V)))) i j).
    { apply mmul_r. intros k Hk. apply mmul_r. intros l Hl. symmetry.
      rewrite (mmul_r n A _ mid) by (intros; apply O2; auto). apply mmul_id_r; auto. }
    rewrite E1.
    assert (E2 : mmul n W (mmul n (mT W) (mmul n A (mmul n V (mT V)))) i j = mmul n V (mT V) i j).
    { rewrite <- (massoc n n A V (mT V)), <- (massoc n n (mT W)), <- (massoc n n W).
      apply mmul_l. intros k Hk. unfold mmul at 1.
      rewrite (sum_ext n _ (fun l => V i l * mid l k)).
      - apply sum_mid_r; auto.
      - intros l Hl.
        assert (E : mmul n (mT W) (mmul n A V) l k = w l * mmul n (mT V) (mmul n A V) l k).
        { unfold mmul at 1 3. rewrite <- sum_scal. apply sum_ext. intros. unfold mT, W. ring. }
        rewrite E, HD by auto. unfold W, mid. destruct (Nat.eqb_spec l k) as [->|]; [|ring].
        transitivity (V i k * (w k * e k * w k)); [ring|rewrite Hw by auto; ring]. }
    rewrite E2. apply O2; auto.
Qed.

Lemma chol_half_inverse n A L Y : meq n n (mmul n L (mT L)) A ->
  meq n n (mmul n (mT L) Y) mid -> meq n n (mmul n Y (mT L)) mid -> half_inverse n Y A.
Proof.
  intros HL H1 H2.
  assert (H1' : forall i j, (i < n)%nat -> (j < n)%nat -> mmul n (mT Y) L i j = mid i j).
  { intros i j Hi Hj. rewrite mmul_T. rewrite mid_sym. rewrite <- (H1 j i Hj Hi). reflexivity. }
  split; intros i j Hi Hj.
  - rewrite massoc.
    rewrite (mmul_r n (mT Y) _ L).
    + apply H1'; auto.
    + intros k Hk. rewrite (mmul_l n A (mmul n L (mT L))) by (intros; symmetry; apply HL; auto).
      rewrite massoc. rewrite (mmul_r n L _ mid) by (intros; apply H1; auto). apply mmul_id_r; auto.
  - rewrite massoc. rewrite (mmul_r n Y _ (mT L)); [apply H2; auto|].
    intros k Hk. rewrite (mmul_r n (mT Y) A (mmul n L (mT L))) by (intros; symmetry; apply HL; auto).
    rewrite <- massoc. rewrite (mmul_l n _ mid) by (intros; apply H1'; auto). apply mmul_id_l; auto.
Qed.

Lemma invh_ok sv n S chol X : solvers_ok sv -> positive_definite n S -> invh sv n S chol = Ok X -> half_inverse n X S.
Proof.
  intros (He & Hl & Hi & _) HS. set (d := fun i => / sqrt (S i i)).
  assert (Hd : forall i, (i < n)%nat -> d i <> 0).
  { intros i Hin. unfold d. apply Rinv_neq_0_compat, Rgt_not_eq, sqrt_lt_R0. apply (diag_pos n); auto. }
  pose proof (scaled_pd n S d HS Hd) as HP. set (S1 := fun i j => d i * S i j * d j) in *.
  unfold invh. change (fun i j : nat => / sqrt (S i i) * S i j * / sqrt (S j j)) with S1.
  destruct chol.
  - destruct (sv_llt sv n S1) as [L|] eqn:E; [|discriminate]. intros EX. injection EX as <-.
    destruct (Hl _ _ _ (proj1 HP) E) as (L1 & L2 & L3).
    destruct (Hi n (mT L)) as [I1 I2]; [intros; apply L2; auto|intros; apply L3; auto|].
    apply rescale_half_inverse; auto. now apply (chol_half_inverse n S1 L).
  - destruct (sv_eig sv n S1) as [[e V]|] eqn:E; [|discriminate]. intros EX. injection EX as <-.
    pose proof (He _ _ _ _ (proj1 HP) E) as HV.
    apply rescale_half_inverse; auto. apply eig_half_inverse; auto; [apply HP|].
    intros i Hin. exact (eigen_pos n S1 e V i HP HV Hin).
Qed.

Lemma invh_total sv n S chol :
  (exists X, invh sv n S chol = Ok X) \/ invh sv n S chol = Throw LogicError.
Proof.
  unfold invh. destruct chol; [destruct (sv_llt _ _ _)|destruct (sv_eig _ _ _) as [[e V]|]]; eauto.
Qed.

(* ---------- blocks ---------- *)

Lemma fold_prod {A B Z} (g : Z -> A -> B -> Z) l l' s :
  fold_left (fun s x => g s (fst x) (snd x)) (list_prod l l') s = fold_left (fun s a => fold_left (fun s b => g s a b) l' s) l s.
Proof.
  revert s. induction l as [|a l IH]; intros s; [reflexivity|]. cbn [list_prod fold_left]. rewrite fold_left_app, IH.
  f_equal. rewrite fold_left_map. reflexivity.
Qed.
Lemma in_sq n x : In x (list_prod (seq 0 n) (seq 0 n)) <-> (fst x < n)%nat /\ (snd x < n)%nat.
Proof. destruct x as [a b]. rewrite in_prod_iff, !in_seq. simpl. lia. Qed.

Lemma ix_in l a : (a < length l)%nat -> In (ix l a) l.
Proof. intros H. now apply nth_In. Qed.
Lemma ix_inj l a b : NoDup l -> (a < length l)%nat -> (b < length l)%nat -> ix l a = ix l b -> a = b.
Proof. intros Hn Ha Hb E. apply (NoDup_nth l 0%nat) in E; auto. Qed.
Lemma in_ix l r : In r l -> exists a, (a < length l)%nat /\ ix l a = r.
Proof. intros H. destruct (In_nth l r 0%nat H) as (a & Ha & E). exists a. auto. Qed.

Lemma set_block_hit M rows off sub a b : NoDup rows -> (a < length rows)%nat -> (b < length rows)%nat ->
  set_block M rows off sub (ix rows a) (off + b)%nat = sub a b.
Proof.
  intros Hn Ha Hb. unfold set_block.
  rewrite <- (fold_prod (fun M a b => store M (ix rows a) (off + b)%nat (sub a b))).
  pose proof (fold_store_hit (fun x => ix rows (fst x)) (fun x => off + snd x)%nat (fun x => sub (fst x) (snd x))
    (list_prod (seq 0 (length rows)) (seq 0 (length rows))) M (a, b)) as H. cbn [fst snd] in H. apply H.
  - apply in_sq. auto.
  - intros [a' b'] Hx E1 E2. apply in_sq in Hx. cbn [fst snd] in *. apply ix_inj in E1; auto; [|tauto].
    assert (b' = b) by lia. subst. reflexivity.
Qed.
Lemma set_block_miss M rows off sub r c : ~ (In r rows /\ (off <= c < off + length rows)%nat) ->
  set_block M rows off sub r c = M r c.
Proof.
  intros H. unfold set_block.
  rewrite <- (fold_prod (fun M a b => store M (ix rows a) (off + b)%nat (sub a b))).
  apply (fold_store_miss (fun x => ix rows (fst x)) (fun x => off + snd x)%nat (fun x => sub (fst x) (snd x))).
  intros [a b] Hx [E1 E2]. apply in_sq in Hx. cbn [fst snd] in *. apply H. subst. split; [|lia]. apply ix_in. tauto.
Qed.

(** A sum over all functions of something that vanishes outside a list. *)
Lemma sum_support N rows f : NoDup rows -> (forall r, In r rows -> (r < N)%nat) ->
  (forall r, (r < N)%nat -> ~ In r rows -> f r = 0) -> sum N f = sum (length rows) (fun a => f (ix rows a)).
Proof.
  intros Hn Hlt H0.
  transitivity (lsum rows f).
  2:{ rewrite (lsum_nth rows f 0%nat). reflexivity. }
  rewrite <- lsum_seq0.
  assert (E : lsum rows f = lsum (filter (fun r => if in_dec Nat.eq_dec r rows then true else false) (seq 0 N)) f).
  { apply lsum_perm. apply NoDup_Permutation; auto.
    - apply NoDup_filter, seq_NoDup.
    - intros x. rewrite filter_In, in_seq. destruct (in_dec Nat.eq_dec x rows) as [Hi|Hi].
      + split; auto. intros _. specialize (Hlt x Hi). split; auto. lia.
      + split; [tauto|]. intros [_ X]. discriminate. }
  rewrite E, lsum_filter. apply lsum_ext. intros r Hr. apply in_seq in Hr.
  destruct (in_dec Nat.eq_dec r rows); auto. apply H0; auto. lia.
Qed.

Lemma gather_pd N A rows : NoDup rows -> (forall r, In r rows -> (r < N)%nat) -> positive_definite N A ->
  positive_definite (length rows) (gather A rows rows).
Proof.
  intros Hn Hlt [Hs Hp]. split.
  - intros a b Ha Hb. unfold gather. apply Hs; apply Hlt, ix_in; auto.
  - intros v (a0 & Ha0 & Hv).
    set (w := fun r => sum (length rows) (fun a => if Nat.eqb (ix rows a) r then v a else 0)).
    assert (Hw : forall a, (a < length rows)%nat -> w (ix rows a) = v a).
    { intros a Ha. unfold w. rewrite (sum_single _ a); auto.
      - now rewrite Nat.eqb_refl.
      - intros b Hb Hne. destruct (Nat.eqb_spec (ix rows b) (ix rows a)) as [E|]; auto. apply ix_inj in E; auto. lia. }
    assert (Hw0 : forall r, ~ In r rows -> w r = 0).
    { intros r Hr. unfold w. apply sum_zero'. intros a Ha. destruct (Nat.eqb_spec (ix rows a) r) as [E|]; auto.
      exfalso. apply Hr. rewrite <- E. now apply ix_in. }
    assert (E : quad_form (length rows) (gather A rows rows) v = quad_form N A w).
    { unfold quad_form. rewrite (sum_support N rows); auto.
      - apply sum_ext. intros a Ha. rewrite (sum_support N rows); auto.
        + apply sum_ext. intros b Hb. rewrite !Hw by auto. reflexivity.
        + intros r Hr Hnr. rewrite (Hw0 r Hnr). ring.
      - intros r Hr Hnr. apply sum_zero'. intros s Hs'. rewrite (Hw0 r Hnr). ring. }
    rewrite E. apply Hp. exists (ix rows a0). split; [apply Hlt, ix_in; auto|]. rewrite Hw; auto.
Qed.

Lemma NoDup_app_parts {A} (l1 l2 : list A) : NoDup (l1 ++ l2) -> NoDup l1 /\ NoDup l2 /\ forall x, In x l1 -> In x l2 -> False.
Proof.
  induction l1 as [|a l1 IH]; intros H; [repeat split; auto; constructor|].
  cbn [app] in H. inversion H; subst. destruct (IH H3) as (H1 & H4 & H5). split; [|split; auto].
  - constructor; auto. intros HH. apply H2, in_or_app. auto.
  - intros x [->|Hx] Hx2; [apply H2, in_or_app; auto|eauto].
Qed.
Lemma partition_facts N blocks : partition N blocks ->
  NoDup (concat blocks) /\ (forall r, In r (concat blocks) <-> (r < N)%nat).
Proof.
  intros H. split.
  - apply (Permutation_NoDup (l := seq 0 N)); [now apply Permutation_sym|apply seq_NoDup].
  - intros r. split; intros Hr.
    + apply (Permutation_in r H) in Hr. apply in_seq in Hr. lia.
    + apply (Permutation_in r (Permutation_sym H)). apply in_seq. lia.
Qed.
Lemma partition_block N blocks rows : partition N blocks -> In rows blocks ->
  NoDup rows /\ (forall r, In r rows -> (r < N)%nat).
Proof.
  intros Hp Hr. destruct (partition_facts _ _ Hp) as [Hn Hi]. split.
  - apply in_split in Hr. destruct Hr as (l1 & l2 & ->). rewrite concat_app in Hn. cbn [concat] in Hn.
    apply NoDup_app_parts in Hn. destruct Hn as (_ & Hn & _). now apply NoDup_app_parts in Hn.
  - intros r Hin. apply Hi. apply in_concat. eauto.
Qed.
(** Elements between a block and everything outside it vanish. *)
Lemma block_outside N blocks A rows r s : partition N blocks -> block_diagonal blocks A -> In rows blocks ->
  In r rows -> (s < N)%nat -> ~ In s rows -> A r s = 0 /\ A s r = 0.
Proof.
  intros Hp Hb Hr Hin Hs Hns. destruct (partition_facts _ _ Hp) as [_ Hi].
  apply Hi, in_concat in Hs. destruct Hs as (rows' & Hr' & Hs).
  destruct (In_nth _ _ [] Hr) as (k & Hk & Ek). destruct (In_nth _ _ [] Hr') as (k' & Hk' & Ek').
  assert (k <> k'). { intros ->. apply Hns. congruence. }
  split; [apply (Hb k k')|apply (Hb k' k)]; auto; congruence.
Qed.

Section Sinvh.
Variables (sv : solvers) (N : nat) (Sm : mat) (chol : bool) (blocks : list (list nat)).
Hypothesis Hsv : solvers_ok sv.
Hypothesis Hpd : positive_definite N Sm.
Hypothesis Hpart : partition N blocks.
Hypothesis Hbd : block_diagonal blocks Sm.

Definition sinv (db : list (list nat)) (off : nat) (M : mat) : Prop :=
  off = length (concat db) /\
  (forall r c, M r c <> 0 -> In r (concat db) /\ (c < off)%nat) /\
  (forall c c', (c < off)%nat -> (c' < off)%nat -> sum N (fun r => sum N (fun s => M r c * Sm r s * M s c')) = mid c c') /\
  (forall r s, In r (concat db) -> (s < N)%nat -> sum N (fun q => sum off (fun c => M r c * M q c) * Sm q s) = mid r s) /\
  (forall c, (c < off)%nat -> exists rows, In rows db /\ forall r, M r c <> 0 -> In r rows).

Lemma sinv_step db off M rows sub : (forall x, In x (db ++ [rows]) -> In x blocks) -> NoDup (concat (db ++ [rows])) ->
  sinv db off M -> half_inverse (length rows) sub (gather Sm rows rows) ->
  sinv (db ++ [rows]) (off + length rows)%nat (set_block M rows off sub).
Proof.
  intros Hin Hnd (Eoff & HA & HB & HC & HD) [HX1 HX2].
  assert (Hrb : In rows blocks) by (apply Hin, in_or_app; simpl; auto).
  destruct (partition_block _ _ _ Hpart Hrb) as [Hn Hlt].
  rewrite concat_app in Hnd. cbn [concat] in Hnd. rewrite app_nil_r in Hnd.
  destruct (NoDup_app_parts _ _ Hnd) as (_ & _ & Hdis).
  set (M' := set_block M rows off sub).
  assert (Hold : forall r c, (c < off)%nat -> M' r c = M r c). { intros r c Hc. apply set_block_miss. lia. }
  assert (Hnew : forall a b, (a < length rows)%nat -> (b < length rows)%nat -> M' (ix rows a) (off + b)%nat = sub a b).
  { intros a b Ha Hb. now apply set_block_hit. }
  assert (Hout : forall r c, (off <= c)%nat -> ~ In r rows -> M' r c = 0).
  { intros r c Hc Hr. unfold M'. rewrite set_block_miss by tauto.
    destruct (Req_dec (M r c) 0) as [E|E]; auto. apply HA in E. lia. }
  assert (Hsupp : forall r c, M' r c <> 0 -> ((c < off)%nat /\ In r (concat db)) \/ ((off <= c < off + length rows)%nat /\ In r rows)).
  { intros r c Hr. destruct (Nat.lt_ge_cases c off) as [Hc|Hc].
    - left. rewrite Hold in Hr by auto. apply HA in Hr. tauto.
    - right. destruct (in_dec Nat.eq_dec r rows) as [Hi|Hi]; [|exfalso; apply Hr, Hout; auto].
      split; auto. destruct (Nat.lt_ge_cases c (off + length rows)); [lia|]. exfalso. apply Hr.
      unfold M'. rewrite set_block_miss by lia. destruct (Req_dec (M r c) 0) as [E|E]; auto. apply HA in E. lia. }
  assert (Hcross : forall r s, In r (concat db) -> In s rows -> Sm r s = 0 /\ Sm s r = 0).
  { intros r s Hr Hs. assert (~ In r rows) by eauto.
    assert ((r < N)%nat).
    { apply in_concat in Hr. destruct Hr as (rr & Hrr & Hr). apply (partition_block N blocks rr); auto. apply Hin, in_or_app; auto. }
    destruct (block_outside N blocks Sm rows s r Hpart Hbd Hrb) as [E1 E2]; auto. }
  unfold sinv. rewrite concat_app. cbn [concat]. rewrite app_nil_r, app_length.
  split; [lia|]. split; [|split; [|split]].
  - intros r c Hr. destruct (Hsupp r c Hr) as [[H1 H2]|[H1 H2]]; split; try (apply in_or_app; auto); lia.
  - intros c c' Hc Hc'.
    destruct (Nat.lt_ge_cases c off) as [Hco|Hco]; destruct (Nat.lt_ge_cases c' off) as [Hco'|Hco'].
    + rewrite <- (HB c c') by auto. apply sum_ext. intros r Hr. apply sum_ext. intros s Hs. rewrite !Hold by auto. reflexivity.
    + unfold mid. destruct (Nat.eqb_spec c c'); [lia|]. apply sum_zero'. intros r Hr. apply sum_zero'. intros s Hs.
      destruct (Req_dec (M' r c) 0) as [E|E]; [rewrite E; ring|]. destruct (Req_dec (M' s c') 0) as [E'|E']; [rewrite E'; ring|].
      apply Hsupp in E, E'. destruct (Hcross r s) as [Z1 Z2]; try tauto; try lia; [destruct E; [tauto|lia]|destruct E'; [lia|tauto]|].
      rewrite Z1. ring.
    + unfold mid. destruct (Nat.eqb_spec c c'); [lia|]. apply sum_zero'. intros r Hr. apply sum_zero'. intros s Hs.
      destruct (Req_dec (M' r c) 0) as [E|E]; [rewrite E; ring|]. destruct (Req_dec (M' s c') 0) as [E'|E']; [rewrite E'; ring|].
      apply Hsupp in E, E'. destruct (Hcross s r) as [Z1 Z2]; try tauto; try lia; [destruct E'; [tauto|lia]|destruct E; [lia|tauto]|].
      rewrite Z2. ring.
    + set (b := (c - off)%nat). set (b' := (c' - off)%nat).
      replace c with (off + b)%nat by lia. replace c' with (off + b')%nat by lia.
      assert (Hb : (b < length rows)%nat) by lia. assert (Hb' : (b' < length rows)%nat) by lia.
      rewrite (sum_support N rows); auto.
      2:{ intros r Hr Hnr. apply sum_zero'. intros s Hs. rewrite (Hout r) by (auto; lia). ring. }
      transitivity (mid b b').
      2:{ unfold mid. destruct (Nat.eqb_spec b b'); destruct (Nat.eqb_spec (off + b) (off + b')); auto; lia. }
      rewrite <- (HX1 b b') by auto. rewrite sandwich. apply sum_ext. intros a Ha.
      rewrite (sum_support N rows); auto.
      2:{ intros r Hr Hnr. rewrite (Hout r) by (auto; lia). ring. }
      apply sum_ext. intros a' Ha'. rewrite !Hnew by auto. reflexivity.
  - intros r s Hr Hs. apply in_app_or in Hr. destruct Hr as [Hr|Hr].
    + assert (~ In r rows) by eauto. rewrite <- (HC r s) by auto. apply sum_ext. intros q Hq. f_equal.
      rewrite sum_split. rewrite (sum_zero' (length rows)).
      2:{ intros b Hb. rewrite (Hout r) by (auto; lia). ring. }
      rewrite Rplus_0_r. apply sum_ext. intros c Hc. rewrite !Hold by auto. reflexivity.
    + assert (Hrd : ~ In r (concat db)) by (intros X; eauto).
      destruct (in_ix _ _ Hr) as (a & Ha & Ea).
      assert (E : forall q, sum (off + length rows) (fun c => M' r c * M' q c) = sum (length rows) (fun b => M' r (off + b)%nat * M' q (off + b)%nat)).
      { intros q. rewrite sum_split. rewrite (sum_zero' off).
        2:{ intros c Hc. rewrite (Hold r) by auto. destruct (Req_dec (M r c) 0) as [E|E]; [rewrite E; ring|]. apply HA in E. tauto. }
        ring. }
      rewrite (sum_ext N _ (fun q => sum (length rows) (fun b => M' r (off + b)%nat * M' q (off + b)%nat) * Sm q s)) by (intros; now rewrite E).
      rewrite (sum_support N rows); auto.
      2:{ intros q Hq Hnq. rewrite sum_zero'; [ring|]. intros b Hb. rewrite (Hout q) by (auto; lia). ring. }
      destruct (in_dec Nat.eq_dec s rows) as [Hsr|Hsr].
      * destruct (in_ix _ _ Hsr) as (a' & Ha' & Ea').
        transitivity (mid a a').
        2:{ rewrite <- Ea, <- Ea'. unfold mid. destruct (Nat.eqb_spec a a') as [->|Hne]; [now rewrite Nat.eqb_refl|].
            destruct (Nat.eqb_spec (ix rows a) (ix rows a')) as [X|X]; auto. apply ix_inj in X; auto. lia. }
        rewrite <- (HX2 a a') by auto. unfold mmul, mT, gather. apply sum_ext. intros p Hp. rewrite Ea'. f_equal.
        apply sum_ext. intros b Hb. rewrite <- Ea. rewrite !Hnew by auto. reflexivity.
      * rewrite sum_zero'.
        -- unfold mid. destruct (Nat.eqb_spec r s); auto. subst. tauto.
        -- intros a' Ha'. destruct (block_outside N blocks Sm rows (ix rows a') s Hpart Hbd Hrb) as [E1 E2]; auto using ix_in.
           rewrite E1. ring.
  - intros c Hc. destruct (Nat.lt_ge_cases c off) as [Hco|Hco].
    + destruct (HD c Hco) as (rr & H1 & H2). exists rr. split; [apply in_or_app; auto|]. intros r. rewrite Hold by auto. apply H2.
    + exists rows. split; [apply in_or_app; simpl; auto|]. intros r Hr. destruct (Hsupp r c Hr); [lia|tauto].
Qed.

Lemma sinv_blocks bs : forall db off M X, db ++ bs = blocks -> sinv db off M ->
  sinvh_blocks sv Sm chol bs M off = Ok X -> exists off', sinv blocks off' X.
Proof.
  induction bs as [|rows bs IH]; intros db off M X Hdb HI HE; cbn [sinvh_blocks] in HE.
  - injection HE as <-. rewrite app_nil_r in Hdb. subst db. eauto.
  - destruct (partition_facts _ _ Hpart) as [Hnd _].
    assert (Hrb : In rows blocks) by (rewrite <- Hdb; apply in_or_app; simpl; auto).
    destruct (partition_block _ _ _ Hpart Hrb) as [Hn Hlt].
    assert (Hdb' : (db ++ [rows]) ++ bs = blocks) by (rewrite <- app_assoc; exact Hdb).
    assert (Hnd' : NoDup (concat (db ++ [rows]))).
    { rewrite <- Hdb', concat_app in Hnd. now apply NoDup_app_parts in Hnd. }
    assert (Hin : forall x, In x (db ++ [rows]) -> In x blocks) by (intros x Hx; rewrite <- Hdb'; apply in_or_app; auto).
    destruct (Nat.eqb_spec (length rows) 0) as [E0|E0].
    + destruct rows; [|discriminate]. apply (IH (db ++ [[]]) off M X Hdb'); auto.
      unfold sinv in *. rewrite concat_app. cbn [concat]. rewrite !app_nil_r. destruct HI as (I1 & I2 & I3 & I4 & I5).
      split; [auto|]. split; [auto|]. split; [auto|]. split; [auto|].
      intros c Hc. destruct (I5 c Hc) as (rr & H1 & H2). exists rr. split; auto. apply in_or_app; auto.
    + destruct (invh sv (length rows) (gather Sm rows rows) chol) as [sub| | |] eqn:EI; cbn [bind] in HE; try discriminate.
      apply (IH (db ++ [rows]) (off + length rows)%nat (set_block M rows off sub) X Hdb'); auto.
      apply sinv_step; auto. apply (invh_ok sv _ _ chol); auto. apply (gather_pd N); auto.
Qed.

Lemma basis_Sinvh_ok X : basis_Sinvh sv Sm chol blocks = Ok X ->
  half_inverse N X Sm /\ columns_in_blocks N N blocks X.
Proof.
  intros HE. destruct (sinv_blocks blocks [] 0 mzero X) as (off & Eoff & HA & HB & HC & HD); auto.
  - unfold sinv. cbn [concat length]. split; [auto|]. split.
    + intros r c Hr. exfalso. apply Hr. reflexivity.
    + split; [intros; lia|]. split; [intros r s []|intros; lia].
  - assert (EN : off = N).
    { rewrite Eoff. rewrite (Permutation_length Hpart). apply seq_length. }
    clear Eoff. subst off. destruct (partition_facts _ _ Hpart) as [_ Hi]. split; [split|].
    + intros i j Hi' Hj'. rewrite sandwich. now apply HB.
    + intros r s Hr Hs. rewrite <- (HC r s) by (auto; now apply Hi). reflexivity.
    + intros c Hc. destruct (HD c Hc) as (rows & H1 & H2). destruct (In_nth _ _ [] H1) as (k & Hk & Ek).
      exists k. split; auto. intros r Hr Hx. rewrite Ek. auto.
Qed.

Lemma basis_Sinvh_total : (exists X, basis_Sinvh sv Sm chol blocks = Ok X) \/ basis_Sinvh sv Sm chol blocks = Throw LogicError.
Proof.
  unfold basis_Sinvh. generalize mzero 0%nat. clear. induction blocks as [|rows bs IH]; intros M off; cbn [sinvh_blocks]; eauto.
  destruct (Nat.eqb (length rows) 0); auto.
  destruct (invh_total sv (length rows) (gather Sm rows rows) chol) as [[X ->]| ->]; cbn [bind]; auto.
Qed.
End Sinvh.

(* ---------- eig_gsym_sub ---------- *)

Definition bil (N : nat) (A : mat) (u v : vec) : R := sum N (fun r => sum N (fun s => u r * A r s * v s)).
Lemma bil_sym N A u v : symmetric N A -> bil N A u v = bil N A v u.
Proof.
  intros H. unfold bil. rewrite sum_swap. apply sum_ext. intros r Hr. apply sum_ext. intros s Hs. rewrite H by auto. ring.
Qed.
Lemma bil_factor N A u v : bil N A u v = sum N (fun r => u r * sum N (fun s => A r s * v s)).
Proof. unfold bil. apply sum_ext. intros r Hr. rewrite <- sum_scal. apply sum_ext. intros; ring. Qed.
Lemma bil_comb N A m u Y w : bil N A u (fun s => sum m (fun b => Y s b * w b)) = sum m (fun b => bil N A u (fun s => Y s b) * w b).
Proof.
  unfold bil. rewrite (sum_ext m _ (fun b => sum N (fun r => sum N (fun s => u r * A r s * Y s b * w b)))).
  2:{ intros b Hb. rewrite <- sum_scal_r. apply sum_ext. intros r Hr. rewrite <- sum_scal_r. reflexivity. }
  rewrite (sum_swap m N). apply sum_ext. intros r Hr. rewrite (sum_swap m N). apply sum_ext. intros s Hs.
  rewrite <- sum_scal. apply sum_ext. intros; ring.
Qed.
Lemma bil_comb_l N A m v Y w : bil N A (fun s => sum m (fun b => Y s b * w b)) v = sum m (fun b => w b * bil N A (fun s => Y s b) v).
Proof.
  unfold bil. rewrite (sum_ext m _ (fun b => sum N (fun r => sum N (fun s => w b * (Y r b * A r s * v s))))).
  2:{ intros b Hb. rewrite <- sum_scal. apply sum_ext. intros r Hr. rewrite <- sum_scal. reflexivity. }
  rewrite (sum_swap m N). apply sum_ext. intros r Hr. rewrite (sum_swap m N). apply sum_ext. intros s Hs.
  rewrite (Rmult_assoc (sum m _)), <- sum_scal_r. apply sum_ext. intros; ring.
Qed.
Lemma sandwich_bil N A V W i j : mmul N (mmul N (mT V) A) W i j = bil N A (fun r => V r i) (fun r => W r j).
Proof. apply sandwich. Qed.

Lemma lsum_nonneg {A} (l : list A) f : (forall a, In a l -> 0 <= f a) -> 0 <= lsum l f.
Proof. induction l as [|a l IH]; intros H; cbn [lsum]; [lra|]. assert (0 <= f a) by (apply H; left; auto). assert (0 <= lsum l f) by (apply IH; intros; apply H; right; auto). lra. Qed.
Lemma lsum_sq_zero {A} (l : list A) f : lsum l (fun a => f a * f a) = 0 -> forall a, In a l -> f a = 0.
Proof.
  induction l as [|x l IH]; intros H a Ha; [destruct Ha|]. cbn [lsum] in H.
  assert (0 <= lsum l (fun a => f a * f a)) by (apply lsum_nonneg; intros; nra).
  assert (0 <= f x * f x) by nra. assert (f x * f x = 0) by lra.
  destruct Ha as [->|Ha]; [nra|]. apply IH; auto. lra.
Qed.
Lemma sub_columns_in nc X rows j : In j (sub_columns nc X rows) <-> (j < nc)%nat /\ exists r, In r rows /\ X r j <> 0.
Proof.
  unfold sub_columns. rewrite filter_In, in_seq.
  assert (H0 : 0 <= lsum rows (fun r => X r j * X r j)) by (apply lsum_nonneg; intros; nra).
  destruct (Reqb_spec (sqrt (lsum rows (fun r => X r j * X r j))) 0) as [E|E]; cbn [negb]; split.
  - intros [_ X1]; discriminate.
  - intros (_ & r & Hr & Hx). exfalso. apply Hx. apply sqrt_eq_0 in E; auto. exact (lsum_sq_zero rows (fun r => X r j) E r Hr).
  - intros [Hj _]. split; [lia|].
    destruct (Classical_Prop.classic (exists r, In r rows /\ X r j <> 0)) as [H|H]; auto. exfalso. apply E.
    rewrite lsum_zero; [apply sqrt_0|]. intros r Hr. destruct (Req_dec (X r j) 0) as [Z|Z]; [rewrite Z; ring|]. exfalso; eauto.
  - intros (Hj & _). split; auto. lia.
Qed.
Lemma sub_columns_nodup nc X rows : NoDup (sub_columns nc X rows).
Proof. apply NoDup_filter, seq_NoDup. Qed.

Lemma NoDup_app_make {A} (l1 l2 : list A) : NoDup l1 -> NoDup l2 -> (forall x, In x l1 -> In x l2 -> False) -> NoDup (l1 ++ l2).
Proof.
  induction l1 as [|a l1 IH]; intros H1 H2 H3; auto. inversion H1; subst. cbn [app]. constructor.
  - intros HH. apply in_app_or in HH. destruct HH; [tauto|]. apply (H3 a); simpl; auto.
  - apply IH; auto. intros x Hx. apply H3. simpl; auto.
Qed.

Lemma block_unique (blocks : list (list nat)) (rows rows' : list nat) (r : nat) : NoDup (concat blocks) -> In rows blocks -> In rows' blocks ->
  In r rows -> In r rows' -> rows = rows'.
Proof.
  intros Hn H1 H2 Hr Hr'. induction blocks as [|b bs IH]; [destruct H1|]. cbn [concat] in Hn.
  destruct (NoDup_app_parts _ _ Hn) as (_ & Hn2 & Hd).
  destruct H1 as [->|H1]; destruct H2 as [->|H2]; auto.
  - exfalso. apply (Hd r); auto. apply in_concat. eauto.
  - exfalso. apply (Hd r); auto. apply in_concat. eauto.
Qed.

Section EigSub.
Variables (sv : solvers) (N : nat) (F Sm X : mat) (blocks : list (list nat)).
Hypothesis Hsv : solvers_ok sv.
Hypothesis HSs : symmetric N Sm.
Hypothesis HFs : symmetric N F.
Hypothesis Hpart : partition N blocks.
Hypothesis HbF : block_diagonal blocks F.
Hypothesis Hcols : columns_in_blocks N N blocks X.
Hypothesis Hhalf : half_inverse N X Sm.

Notation colsof db := (concat (map (sub_columns N X) db)).

Lemma col_support rows j r : In rows blocks -> In j (sub_columns N X rows) -> (r < N)%nat -> X r j <> 0 -> In r rows.
Proof.
  intros Hr Hj Hrn Hx. apply sub_columns_in in Hj. destruct Hj as (Hj & r0 & Hr0 & Hx0).
  destruct (Hcols j Hj) as (k & Hk & Hs). destruct (partition_facts _ _ Hpart) as [Hn Hi].
  assert (Hr0n : (r0 < N)%nat) by (apply (partition_block N blocks rows); auto).
  assert (E : rows = nth k blocks []).
  { apply (block_unique blocks rows _ r0); auto. now apply nth_In. }
  rewrite E. auto.
Qed.

Lemma col_nonzero j : (j < N)%nat -> exists r, (r < N)%nat /\ X r j <> 0.
Proof.
  intros Hj. destruct (Classical_Prop.classic (exists r, (r < N)%nat /\ X r j <> 0)) as [H|H]; auto. exfalso.
  destruct Hhalf as [H1 _]. specialize (H1 j j Hj Hj). rewrite sandwich_bil in H1. unfold bil in H1.
  rewrite sum_zero' in H1.
  - unfold mid in H1. rewrite Nat.eqb_refl in H1. lra.
  - intros r Hr. apply sum_zero'. intros s Hs. destruct (Req_dec (X r j) 0) as [Z|Z]; [rewrite Z; ring|]. exfalso; eauto.
Qed.

Lemma cols_disjoint db rows j : NoDup (concat (db ++ [rows])) -> (forall x, In x (db ++ [rows]) -> In x blocks) ->
  In j (colsof db) -> In j (sub_columns N X rows) -> False.
Proof.
  intros Hn Hin H1 H2. apply in_concat in H1. destruct H1 as (cs & Hc & H1). apply in_map_iff in Hc.
  destruct Hc as (rows' & <- & Hr'). rewrite concat_app in Hn. cbn [concat] in Hn. rewrite app_nil_r in Hn.
  destruct (NoDup_app_parts _ _ Hn) as (_ & _ & Hd).
  pose proof H2 as H2'. apply sub_columns_in in H2'. destruct H2' as (Hj & r & Hr & Hx).
  assert ((r < N)%nat) by (apply (partition_block N blocks rows); auto; apply Hin, in_or_app; simpl; auto).
  assert (In r rows') by (apply (col_support rows' j); auto; apply Hin, in_or_app; auto).
  apply (Hd r); auto. apply in_concat. eauto.
Qed.

Lemma cols_nodup db bs : db ++ bs = blocks -> NoDup (colsof db).
Proof.
  revert bs. induction db as [|rows db IH] using rev_ind; intros bs H; [constructor|].
  rewrite map_app, concat_app. cbn [map concat]. rewrite app_nil_r.
  destruct (partition_facts _ _ Hpart) as [Hn _].
  assert (Hn' : NoDup (concat (db ++ [rows]))) by (rewrite <- H, concat_app in Hn; now apply NoDup_app_parts in Hn).
  assert (Hin : forall x, In x (db ++ [rows]) -> In x blocks) by (intros x Hx; rewrite <- H; apply in_or_app; auto).
  apply NoDup_app_make.
  - apply (IH ([rows] ++ bs)). now rewrite app_assoc.
  - apply sub_columns_nodup.
  - intros x H1 H2. exact (cols_disjoint db rows x Hn' Hin H1 H2).
Qed.

Lemma cols_lt db j : In j (colsof db) -> (j < N)%nat.
Proof.
  intros H. apply in_concat in H. destruct H as (cs & Hc & H1). apply in_map_iff in Hc.
  destruct Hc as (rows' & <- & Hr'). apply sub_columns_in in H1. tauto.
Qed.

Lemma cols_all : Permutation (colsof blocks) (seq 0 N).
Proof.
  apply NoDup_Permutation.
  - apply (cols_nodup blocks []). apply app_nil_r.
  - apply seq_NoDup.
  - intros j. rewrite in_seq. split; intros H.
    + apply cols_lt in H. lia.
    + destruct (col_nonzero j) as (r & Hr & Hx); [lia|]. destruct (partition_facts _ _ Hpart) as [_ Hi].
      apply Hi, in_concat in Hr. destruct Hr as (rows & Hr1 & Hr2). apply in_concat. exists (sub_columns N X rows).
      split; [apply in_map; auto|]. apply sub_columns_in. split; [lia|eauto].
Qed.

Lemma cols_length db bs : db ++ bs = blocks -> (length (colsof db) <= N)%nat.
Proof.
  intros H. pose proof (seq_length N 0) as EL. rewrite <- EL at 2. apply NoDup_incl_length; [eapply cols_nodup; eauto|].
  intros j Hj. apply cols_lt in Hj. apply in_seq. lia.
Qed.

Definition xc_ (c : nat) : vec := fun r => X r c.
Lemma S_cols c c' : (c < N)%nat -> (c' < N)%nat -> bil N Sm (xc_ c) (xc_ c') = mid c c'.
Proof. intros Hc Hc'. unfold xc_. rewrite <- sandwich_bil. now apply Hhalf. Qed.
Lemma F_cols rows rows' c c' : In rows blocks -> In rows' blocks -> rows <> rows' -> In c (sub_columns N X rows) -> In c' (sub_columns N X rows') ->
  bil N F (xc_ c) (xc_ c') = 0.
Proof.
  intros H1 H2 Hne Hc Hc'. unfold bil. apply sum_zero'. intros r Hr. apply sum_zero'. intros s Hs. unfold xc_.
  destruct (Req_dec (X r c) 0) as [Z|Z]; [rewrite Z; ring|]. destruct (Req_dec (X s c') 0) as [Z'|Z']; [rewrite Z'; ring|].
  apply (col_support rows) in Z; auto. apply (col_support rows') in Z'; auto.
  destruct (block_outside N blocks F rows r s Hpart HbF H1 Z Hs) as [E _].
  - intros HH. apply Hne. destruct (partition_facts _ _ Hpart) as [Hn _]. exact (block_unique blocks rows rows' s Hn H1 H2 HH Z').
  - rewrite E. ring.
Qed.

Definition einv (db : list (list nat)) (E : vec) (C : mat) (k : nat) : Prop :=
  k = length (colsof db) /\
  (forall i v, (i < k)%nat -> (forall c, In c (colsof db) -> sum N (fun r => X r c * v r) = 0) -> sum N (fun r => C r i * v r) = 0) /\
  (forall i j, (i < k)%nat -> (j < k)%nat -> bil N Sm (fun r => C r i) (fun r => C r j) = mid i j) /\
  (forall i j, (i < k)%nat -> (j < k)%nat -> bil N F (fun r => C r i) (fun r => C r j) = mid i j * E j) /\
  (forall r s, sum k (fun i => C r i * C s i) = lsum (colsof db) (fun c => X r c * X s c)) /\
  (forall i, (i < k)%nat -> exists rows, In rows db /\ forall r, (r < N)%nat -> C r i <> 0 -> In r rows).

Lemma einv_step db rows E C k e V (E' : vec) (C' : mat) :
  (forall x, In x (db ++ [rows]) -> In x blocks) -> NoDup (concat (db ++ [rows])) ->
  einv db E C k ->
  let Sind := sub_columns N X rows in let m := length Sind in
  let Xs := fun i b => X i (ix Sind b) in
  is_eigensystem m (mmul N (mmul N (mT Xs) F) Xs) e V ->
  (forall i, (i < k)%nat -> E' i = E i) -> (forall b, (b < m)%nat -> E' (k + b)%nat = e b) ->
  (forall r i, (i < k)%nat -> C' r i = C r i) -> (forall r b, (b < m)%nat -> C' r (k + b)%nat = mmul m Xs V r b) ->
  einv (db ++ [rows]) E' C' (k + m)%nat.
Proof.
  intros Hin Hnd (Ek & Hw & HS & HF & HC & Hb) Sind m Xs (O1 & O2 & HE & _) HE1 HE2 HC1 HC2.
  assert (Hrb : In rows blocks) by (apply Hin, in_or_app; simpl; auto).
  assert (Hcol : colsof (db ++ [rows]) = colsof db ++ Sind).
  { rewrite map_app, concat_app. cbn [map concat]. now rewrite app_nil_r. }
  assert (HSi : forall b, (b < m)%nat -> In (ix Sind b) Sind) by (intros; now apply ix_in).
  assert (HSl : forall c, In c Sind -> (c < N)%nat) by (intros c Hc; apply sub_columns_in in Hc; tauto).
  assert (Hdis : forall c, In c (colsof db) -> In c Sind -> False) by (intros c; apply cols_disjoint; auto).
  (* products of a new column *)
  assert (Hnew : forall A u b, (b < m)%nat -> bil N A u (fun r => C' r (k + b)%nat) = sum m (fun b' => bil N A u (xc_ (ix Sind b')) * V b' b)).
  { intros A u b Hb'. transitivity (bil N A u (fun s => sum m (fun b' => Xs s b' * V b' b))); [|exact (bil_comb N A m u Xs (fun b' => V b' b))]. unfold bil. apply sum_ext. intros r Hr.
    apply sum_ext. intros s Hs. now rewrite HC2. }
  assert (Hnewl : forall A u b, (b < m)%nat -> bil N A (fun r => C' r (k + b)%nat) u = sum m (fun b' => V b' b * bil N A (xc_ (ix Sind b')) u)).
  { intros A u b Hb'. transitivity (bil N A (fun s => sum m (fun b' => Xs s b' * V b' b)) u); [|exact (bil_comb_l N A m u Xs (fun b' => V b' b))]. unfold bil. apply sum_ext. intros r Hr.
    apply sum_ext. intros s Hs. now rewrite HC2. }
  assert (Hold : forall A i u, (i < k)%nat -> bil N A (fun r => C' r i) u = bil N A (fun r => C r i) u).
  { intros A i u Hi. unfold bil. apply sum_ext. intros r Hr. apply sum_ext. intros s Hs. now rewrite HC1. }
  assert (Hold' : forall A i u, (i < k)%nat -> bil N A u (fun r => C' r i) = bil N A u (fun r => C r i)).
  { intros A i u Hi. unfold bil. apply sum_ext. intros r Hr. apply sum_ext. intros s Hs. now rewrite HC1. }
  (* nothing between old and new columns *)
  assert (Hcross : forall A i b, (forall c c', In c (colsof db) -> In c' Sind -> bil N A (xc_ c) (xc_ c') = 0) ->
            (i < k)%nat -> (b < m)%nat -> bil N A (fun r => C' r i) (fun r => C' r (k + b)%nat) = 0).
  { intros A i b HA Hi Hb'. rewrite Hold by auto. rewrite bil_factor. apply Hw; auto. intros c Hc.
    change (sum N (fun r => xc_ c r * sum N (fun s => A r s * C' s (k + b)%nat)) = 0).
    rewrite <- bil_factor, Hnew by auto. apply sum_zero'. intros b' Hb''. rewrite HA; auto. ring. }
  assert (ZS : forall c c', In c (colsof db) -> In c' Sind -> bil N Sm (xc_ c) (xc_ c') = 0).
  { intros c c' Hc Hc'. rewrite S_cols; [|eapply cols_lt; eauto|auto]. unfold mid. destruct (Nat.eqb_spec c c'); auto. subst. exfalso; eauto. }
  assert (ZF : forall c c', In c (colsof db) -> In c' Sind -> bil N F (xc_ c) (xc_ c') = 0).
  { intros c c' Hc Hc'. pose proof Hc as Hc2. apply in_concat in Hc. destruct Hc as (cs & Hcs & Hc). apply in_map_iff in Hcs.
    destruct Hcs as (rows' & <- & Hr'). apply (F_cols rows' rows); auto; [apply Hin, in_or_app; auto|].
    intros ->. eauto. }
  assert (NN_S : forall b b', (b < m)%nat -> (b' < m)%nat -> bil N Sm (fun r => C' r (k + b)%nat) (fun r => C' r (k + b')%nat) = mid b b').
  { intros b b' Hb1 Hb2. rewrite Hnewl by auto. rewrite <- (O1 b b') by auto. unfold mmul, mT. apply sum_ext. intros p Hp. f_equal.
    rewrite Hnew by auto. rewrite (sum_ext m _ (fun q => mid p q * V q b')).
    - exact (sum_mid_l m p (fun q => V q b') Hp).
    - intros q Hq. f_equal. rewrite S_cols by auto. unfold mid. destruct (Nat.eqb_spec p q) as [->|Hne]; [now rewrite Nat.eqb_refl|].
      destruct (Nat.eqb_spec (ix Sind p) (ix Sind q)) as [Z|Z]; auto. apply ix_inj in Z; auto; [lia|apply sub_columns_nodup]. }
  assert (NN_F : forall b b', (b < m)%nat -> (b' < m)%nat -> bil N F (fun r => C' r (k + b)%nat) (fun r => C' r (k + b')%nat) = mid b b' * e b').
  { intros b b' Hb1 Hb2. rewrite Hnewl by auto. rewrite <- (O1 b b') by auto. unfold mmul at 1, mT. rewrite <- sum_scal_r.
    apply sum_ext. intros p Hp. rewrite Rmult_assoc. f_equal. rewrite <- HE by auto. rewrite Hnew by auto.
    unfold mmul at 1. apply sum_ext. intros q Hq. f_equal. rewrite sandwich_bil. reflexivity. }
  unfold einv. rewrite Hcol, app_length. fold m.
  split; [lia|]. split; [|split; [|split; [|split]]].
  - intros i v Hi Hv. destruct (Nat.lt_ge_cases i k) as [Hik|Hik].
    + rewrite (sum_ext N _ (fun r => C r i * v r)) by (intros; now rewrite HC1). apply Hw; auto.
      intros c Hc. apply Hv, in_or_app. auto.
    + replace i with (k + (i - k))%nat by lia. set (b := (i - k)%nat). assert (Hb' : (b < m)%nat) by lia.
      rewrite (sum_ext N _ (fun r => sum m (fun b' => V b' b * (X r (ix Sind b') * v r)))).
      2:{ intros r Hr. rewrite HC2 by auto. unfold mmul, Xs. rewrite <- sum_scal_r. apply sum_ext. intros; ring. }
      rewrite sum_swap. apply sum_zero'. intros b' Hb''. rewrite sum_scal. rewrite Hv; [ring|]. apply in_or_app; auto.
  - intros i j Hi Hj. destruct (Nat.lt_ge_cases i k) as [Hik|Hik]; destruct (Nat.lt_ge_cases j k) as [Hjk|Hjk].
    + rewrite Hold, Hold' by auto. auto.
    + replace j with (k + (j - k))%nat by lia. rewrite Hcross by (auto; lia). unfold mid. destruct (Nat.eqb_spec i (k + (j - k))); auto; lia.
    + rewrite bil_sym by auto. replace i with (k + (i - k))%nat by lia. rewrite Hcross by (auto; lia). unfold mid. destruct (Nat.eqb_spec (k + (i - k)) j); auto; lia.
    + replace i with (k + (i - k))%nat by lia. replace j with (k + (j - k))%nat by lia. rewrite NN_S by lia.
      unfold mid. destruct (Nat.eqb_spec (i - k) (j - k)); destruct (Nat.eqb_spec (k + (i - k)) (k + (j - k))); auto; lia.
  - intros i j Hi Hj. destruct (Nat.lt_ge_cases i k) as [Hik|Hik]; destruct (Nat.lt_ge_cases j k) as [Hjk|Hjk].
    + rewrite Hold, Hold' by auto. rewrite HE1 by auto. auto.
    + replace j with (k + (j - k))%nat by lia. rewrite Hcross by (auto; lia). unfold mid. destruct (Nat.eqb_spec i (k + (j - k))); [lia|ring].
    + rewrite bil_sym by auto. replace i with (k + (i - k))%nat by lia. rewrite Hcross by (auto; lia). unfold mid. destruct (Nat.eqb_spec (k + (i - k)) j); [lia|ring].
    + replace i with (k + (i - k))%nat by lia. replace j with (k + (j - k))%nat by lia. rewrite NN_F by lia. rewrite HE2 by lia. f_equal.
      unfold mid. destruct (Nat.eqb_spec (i - k) (j - k)); destruct (Nat.eqb_spec (k + (i - k)) (k + (j - k))); auto; lia.
  - intros r s. rewrite sum_split, lsum_app. f_equal.
    + rewrite <- HC. apply sum_ext. intros i Hi. rewrite !HC1 by auto. reflexivity.
    + rewrite (lsum_nth Sind _ 0%nat). fold m.
      transitivity (mmul m Xs (mT Xs) r s); [|reflexivity].
      transitivity (mmul m (mmul m Xs V) (mT (mmul m Xs V)) r s).
      { unfold mmul at 1, mT. apply sum_ext. intros b Hb'. rewrite !HC2 by auto. reflexivity. }
      rewrite mT_mmul, massoc. apply mmul_r. intros p Hp. rewrite <- massoc. rewrite (mmul_l m _ mid) by (intros; apply O2; auto).
      apply mmul_id_l; auto.
  - intros i Hi. destruct (Nat.lt_ge_cases i k) as [Hik|Hik].
    + destruct (Hb i Hik) as (rr & H1 & H2). exists rr. split; [apply in_or_app; auto|]. intros r Hr. rewrite HC1 by auto. auto.
    + exists rows. split; [apply in_or_app; simpl; auto|]. intros r Hr. replace i with (k + (i - k))%nat by lia. rewrite HC2 by lia.
      intros Hz. destruct (in_dec Nat.eq_dec r rows) as [|Hnr]; auto. exfalso. apply Hz. unfold mmul. apply sum_zero'. intros b Hb'.
      unfold Xs. destruct (Req_dec (X r (ix Sind b)) 0) as [Z|Z]; [rewrite Z; ring|]. exfalso. apply Hnr. apply (col_support rows (ix Sind b)); auto.
Qed.

Lemma forth_sym m Xs : symmetric m (mmul N (mmul N (mT Xs) F) Xs).
Proof. intros i j Hi Hj. rewrite !sandwich_bil. now apply bil_sym. Qed.

Lemma eig_blocks_ok bs : forall db E C k, db ++ bs = blocks -> einv db E C k ->
  (exists E' C' k', eig_blocks sv N N F X bs E C k = Ok (E', C', k') /\ einv blocks E' C' k') \/
  (eig_blocks sv N N F X bs E C k = Throw LogicError /\ exists m A, symmetric m A /\ sv_eig sv m A = None).
Proof.
  induction bs as [|rows bs IH]; intros db E C k Hdb HI; cbn [eig_blocks].
  - left. rewrite app_nil_r in Hdb. subst db. eauto 6.
  - assert (Hdb' : (db ++ [rows]) ++ bs = blocks) by (rewrite <- app_assoc; exact Hdb).
    destruct (partition_facts _ _ Hpart) as [Hn _].
    assert (Hn' : NoDup (concat (db ++ [rows]))) by (rewrite <- Hdb', concat_app in Hn; now apply NoDup_app_parts in Hn).
    assert (Hin : forall x, In x (db ++ [rows]) -> In x blocks) by (intros x Hx; rewrite <- Hdb'; apply in_or_app; auto).
    set (Sind := sub_columns N X rows). set (m := length Sind). unfold eig_gsym. cbv zeta.
    set (Xs := fun i b : nat => X i (ix Sind b)).
    destruct (sv_eig sv m (mmul N (mmul N (mT Xs) F) Xs)) as [[e V]|] eqn:Ee.
    2:{ right. split; [reflexivity|]. exists m, (mmul N (mmul N (mT Xs) F) Xs). split; auto. apply forth_sym. }
    cbn [bind fst snd].
    assert (Hle : (k + m <= N)%nat).
    { pose proof (cols_length _ _ Hdb') as HL. rewrite map_app, concat_app, app_length in HL. cbn [map concat] in HL.
      rewrite app_nil_r in HL. destruct HI as [Ek _]. fold Sind in HL. fold m in HL. lia. }
    rewrite (proj2 (Nat.leb_le _ _) Hle).
    apply (IH (db ++ [rows]) _ _ _ Hdb').
    apply (einv_step db rows E C k e V); auto.
    + apply (proj1 Hsv); auto. apply forth_sym.
    + intros i Hi. destruct (Nat.leb_spec k i); [lia|reflexivity].
    + intros b Hb. fold Sind in Hb. fold m in Hb. destruct (Nat.leb_spec k (k + b)); [|lia]. destruct (Nat.ltb_spec (k + b) (k + m)); [|lia].
      cbn [andb]. f_equal. lia.
    + intros r i Hi. destruct (Nat.leb_spec k i); [lia|reflexivity].
    + intros r b Hb. fold Sind in Hb. fold m in Hb. destruct (Nat.leb_spec k (k + b)); [|lia]. destruct (Nat.ltb_spec (k + b) (k + m)); [|lia].
      cbn [andb]. fold Sind. fold m. fold Xs. f_equal. lia.
Qed.

Lemma einv_solves E C : einv blocks E C N ->
  (forall i j, (i < N)%nat -> (j < N)%nat -> bil N Sm (fun r => C r i) (fun r => C r j) = mid i j) /\
  (forall r i, (r < N)%nat -> (i < N)%nat -> mmul N F C r i = mmul N Sm C r i * E i).
Proof.
  intros (_ & _ & HS & HF & HC & _). split; auto. intros r i Hr Hi.
  destruct Hhalf as [_ HX].
  assert (HSCC : forall r s, (r < N)%nat -> (s < N)%nat -> mmul N (mmul N Sm C) (mT C) r s = mid r s).
  { intros r0 s Hr0 Hs. rewrite mid_sym, <- (HX s r0) by auto. rewrite massoc. unfold mmul at 1 3.
    apply sum_ext. intros q Hq. rewrite (HSs r0 q), Rmult_comm by auto. f_equal.
    unfold mmul, mT. rewrite HC. rewrite (lsum_perm _ _ _ cols_all), lsum_seq0. apply sum_ext. intros; ring. }
  transitivity (mmul N (mmul N (mmul N Sm C) (mT C)) (mmul N F C) r i).
  { symmetry. rewrite (mmul_l N _ mid) by (intros; apply HSCC; auto). apply mmul_id_l; auto. }
  rewrite massoc. unfold mmul at 1.
  rewrite (sum_ext N _ (fun j => (mmul N Sm C r j * E i) * mid j i)).
  - apply (sum_mid_r N i (fun j => mmul N Sm C r j * E i)); auto.
  - intros j Hj. rewrite <- massoc, sandwich_bil, HF by auto. ring.
Qed.

Lemma eig_gsym_sub_ok :
  (exists E C, eig_gsym_sub sv N N F X blocks = Ok (E, C) /\ solves N F Sm E C /\ columns_in_blocks N N blocks C) \/
  (eig_gsym_sub sv N N F X blocks = Throw LogicError /\ exists m A, symmetric m A /\ sv_eig sv m A = None).
Proof.
  unfold eig_gsym_sub.
  destruct (eig_blocks_ok blocks [] (fun _ => 0) mzero 0 eq_refl) as [(E & C & k & -> & HI)|[-> Hf]].
  - unfold einv. cbn [map concat length]. split; [auto|]. split; [intros; lia|]. split; [intros; lia|]. split; [intros; lia|].
    split; [reflexivity|intros; lia].
  - left. cbn [bind].
    assert (Ek : k = N). { destruct HI as [-> _]. rewrite (Permutation_length cols_all). apply seq_length. }
    subst k. rewrite Nat.eqb_refl. cbn [negb].
    destruct (einv_solves E C HI) as [H1 H2]. destruct Hsv as (_ & _ & _ & Hsort). destruct (Hsort N E) as [Hp Ho].
    set (ord := sv_sort sv N E) in *.
    assert (Hlen : length ord = N) by (rewrite (Permutation_length Hp); apply seq_length).
    assert (Hnd : NoDup ord) by (apply (Permutation_NoDup (l := seq 0 N)); [now apply Permutation_sym|apply seq_NoDup]).
    assert (Hlt : forall i, (i < N)%nat -> (ix ord i < N)%nat).
    { intros i Hi. assert (In (ix ord i) ord) by (apply ix_in; lia). apply (Permutation_in _ Hp) in H. apply in_seq in H. lia. }
    eexists. eexists. split; [reflexivity|]. split; [split; [|split]|].
    + intros i j Hi Hj. rewrite sandwich_bil. rewrite H1 by auto. unfold mid.
      destruct (Nat.eqb_spec i j) as [->|Hne]; [now rewrite Nat.eqb_refl|].
      destruct (Nat.eqb_spec (ix ord i) (ix ord j)) as [Z|Z]; auto. apply ix_inj in Z; auto; lia.
    + intros r i Hr Hi. exact (H2 r (ix ord i) Hr (Hlt i Hi)).
    + auto.
    + intros c Hc. destruct HI as (_ & _ & _ & _ & _ & Hb). destruct (Hb (ix ord c) (Hlt c Hc)) as (rows & Hr1 & Hr2).
      destruct (In_nth _ _ [] Hr1) as (k & Hk & Ek). exists k. split; auto. intros r Hr Hx. rewrite Ek. auto.
  - right. cbn [bind]. auto.
Qed.
End EigSub.

(** With too few columns the function throws. *)
Lemma eig_blocks_count sv n nc F X bs : forall E C k E' C' k', eig_blocks sv n nc F X bs E C k = Ok (E', C', k') ->
  k' = (k + length (concat (map (sub_columns nc X) bs)))%nat.
Proof.
  induction bs as [|rows bs IH]; intros E C k E' C' k' H; cbn [eig_blocks] in H.
  - injection H as <- <- <-. simpl. lia.
  - destruct (eig_gsym _ _ _ _ _) as [eC| | |]; cbn [bind] in H; try discriminate.
    destruct (Nat.leb _ _); try discriminate. apply IH in H. cbn [map concat]. rewrite app_length. lia.
Qed.
Lemma eig_gsym_sub_count sv n nc F X blocks : length (concat (map (sub_columns nc X) blocks)) <> n ->
  forall r, eig_gsym_sub sv n nc F X blocks <> Ok r.
Proof.
  intros H r. unfold eig_gsym_sub.
  destruct (eig_blocks _ _ _ _ _ _ _ _ _) as [[[E C] k]| | |] eqn:EE; cbn [bind]; try discriminate.
  apply eig_blocks_count in EE. cbn [Nat.add] in EE. subst k.
  destruct (Nat.eqb_spec (length (concat (map (sub_columns nc X) blocks))) n); [tauto|]. discriminate.
Qed.

(* ---------- densities ---------- *)

Lemma fold_add {K} (r c : K -> nat) (v : K -> R) L : forall M p q,
  fold_left (fun M x => store M (r x) (c x) (M (r x) (c x) + v x)) L M p q =
  M p q + lsum L (fun x => if (Nat.eqb (r x) p && Nat.eqb (c x) q)%bool then v x else 0).
Proof.
  induction L as [|x L IH]; intros M p q; cbn [fold_left lsum]; [ring|]. rewrite IH. unfold store.
  rewrite (Nat.eqb_sym p (r x)), (Nat.eqb_sym q (c x)).
  destruct (Nat.eqb_spec (r x) p) as [E1|E1]; destruct (Nat.eqb_spec (c x) q) as [E2|E2]; cbn [andb]; subst; ring.
Qed.
Lemma lsum_prod {A B} (l : list A) (l' : list B) f : lsum (list_prod l l') f = lsum l (fun a => lsum l' (fun b => f (a, b))).
Proof.
  induction l as [|a l IH]; [reflexivity|]. cbn [list_prod lsum]. rewrite lsum_app, lsum_map, IH. reflexivity.
Qed.
Lemma scatter_add_entry M idx B p q : scatter_add M idx B p q =
  M p q + sum (length idx) (fun a => sum (length idx) (fun b => if (Nat.eqb (ix idx a) p && Nat.eqb (ix idx b) q)%bool then B a b else 0)).
Proof.
  unfold scatter_add.
  rewrite <- (fold_prod (fun M a b => store M (ix idx a) (ix idx b) (M (ix idx a) (ix idx b) + B a b))).
  rewrite (fold_add (fun x => ix idx (fst x)) (fun x => ix idx (snd x)) (fun x => B (fst x) (snd x))).
  f_equal. rewrite lsum_prod, lsum_seq0. apply sum_ext. intros a Ha. rewrite lsum_seq0. reflexivity.
Qed.

Lemma tr_add n A B F : tr n (madd A B) F = tr n A F + tr n B F.
Proof. unfold tr, madd. rewrite <- sum_plus. apply sum_ext. intros i Hi. rewrite <- sum_plus. apply sum_ext. intros; ring. Qed.
Lemma tr_scal n c A F : tr n (mscal c A) F = c * tr n A F.
Proof. unfold tr, mscal. rewrite <- sum_scal. apply sum_ext. intros i Hi. rewrite <- sum_scal. apply sum_ext. intros; ring. Qed.
Lemma tr_add_r n A B F : tr n F (madd A B) = tr n F A + tr n F B.
Proof. unfold tr, madd. rewrite <- sum_plus. apply sum_ext. intros i Hi. rewrite <- sum_plus. apply sum_ext. intros; ring. Qed.
Lemma tr_scal_r n c A F : tr n F (mscal c A) = c * tr n F A.
Proof. unfold tr, mscal. rewrite <- sum_scal. apply sum_ext. intros i Hi. rewrite <- sum_scal. apply sum_ext. intros; ring. Qed.
Lemma tr_meq n A A' B B' : meq n n A A' -> meq n n B B' -> tr n A B = tr n A' B'.
Proof. intros H1 H2. unfold tr. apply sum_ext. intros i Hi. apply sum_ext. intros j Hj. now rewrite H1, H2. Qed.
Lemma tr_comm n A B : tr n A B = tr n B A.
Proof. unfold tr. rewrite sum_swap. apply sum_ext. intros i Hi. apply sum_ext. intros; ring. Qed.
Lemma tr_zero n A : tr n mzero A = 0.
Proof. unfold tr, mzero. apply sum_zero'. intros i Hi. apply sum_zero'. intros; ring. Qed.

Lemma sum_delta n k (f : nat -> R) : (k < n)%nat -> sum n (fun i => if Nat.eqb k i then f i else 0) = f k.
Proof.
  intros H. rewrite (sum_single n k); auto; [now rewrite Nat.eqb_refl|].
  intros i Hi Hne. destruct (Nat.eqb_spec k i); auto. lia.
Qed.
Lemma tr_scatter N M idx B F : (forall r, In r idx -> (r < N)%nat) ->
  tr N (scatter_add M idx B) F = tr N M F + tr (length idx) B (gather F idx idx).
Proof.
  intros Hlt. unfold tr at 1.
  rewrite (sum_ext N _ (fun p => sum N (fun q => M p q * F q p) +
     sum N (fun q => sum (length idx) (fun a => sum (length idx) (fun b => if (Nat.eqb (ix idx a) p && Nat.eqb (ix idx b) q)%bool then B a b * F q p else 0))))).
  2:{ intros p Hp. rewrite <- sum_plus. apply sum_ext. intros q Hq. rewrite scatter_add_entry, Rmult_plus_distr_r. f_equal.
      rewrite <- sum_scal_r. apply sum_ext. intros a Ha. rewrite <- sum_scal_r. apply sum_ext. intros b Hb.
      destruct (_ && _)%bool; ring. }
  rewrite sum_plus. f_equal. unfold tr, gather.
  rewrite (sum_ext N _ (fun p => sum (length idx) (fun a => sum (length idx) (fun b => if Nat.eqb (ix idx a) p then B a b * F (ix idx b) p else 0)))).
  2:{ intros p Hp. rewrite sum_swap. apply sum_ext. intros a Ha. rewrite sum_swap. apply sum_ext. intros b Hb.
      destruct (Nat.eqb (ix idx a) p); cbn [andb]; [|apply sum_zero].
      apply (sum_delta N (ix idx b) (fun q => B a b * F q p)). apply Hlt, ix_in; auto. }
  rewrite sum_swap. apply sum_ext. intros a Ha. rewrite sum_swap. apply sum_ext. intros b Hb.
  apply (sum_delta N (ix idx a) (fun p => B a b * F (ix idx b) p)). apply Hlt, ix_in; auto.
Qed.

Lemma tr_block_density n X m orb occ F :
  tr n (block_density n X m orb occ) F = sum m (fun i => occ i * bil n F (fun a => mmul n X orb a i) (fun a => mmul n X orb a i)).
Proof.
  unfold tr, block_density. set (C := mmul n X orb).
  rewrite (sum_ext n _ (fun a => sum m (fun i => sum n (fun b => C a i * occ i * C b i * F b a)))).
  2:{ intros a Ha. rewrite sum_swap. apply sum_ext. intros b Hb. rewrite <- sum_scal_r. reflexivity. }
  rewrite sum_swap. apply sum_ext. intros i Hi. unfold bil. rewrite sum_swap, <- sum_scal. apply sum_ext. intros a Ha.
  rewrite <- sum_scal. apply sum_ext. intros b Hb. ring.
Qed.
Lemma bil_transform n F X u v : bil n (mmul n (mmul n (mT X) F) X) u v =
  bil n F (fun a => sum n (fun p => X a p * u p)) (fun a => sum n (fun p => X a p * v p)).
Proof.
  rewrite bil_comb, (sum_ext n _ (fun q => sum n (fun p => u p * bil n F (fun r => X r p) (fun r => X r q) * v q))).
  2:{ intros q Hq. rewrite bil_comb_l, <- sum_scal_r. reflexivity. }
  unfold bil at 1. rewrite sum_swap. apply sum_ext. intros q Hq. apply sum_ext. intros p Hp. now rewrite sandwich_bil.
Qed.
Lemma tr_block_fock F idx X m orb occ : let n := length idx in
  tr n (block_density n X m orb occ) (gather F idx idx) = orbital_trace n (fock_block F idx X) (mkBlock m orb occ).
Proof.
  intros n. rewrite tr_block_density. unfold orbital_trace, fock_block. cbn [b_m b_occ b_orb]. fold n. apply sum_ext. intros i Hi.
  f_equal. symmetry. exact (bil_transform n (gather F idx idx) X (fun p => orb p i) (fun p => orb p i)).
Qed.
Lemma block_density_scal n X m orb occ c : block_density n X m orb (fun i => c * occ i) = mscal c (block_density n X m orb occ).
Proof.
  apply functional_extensionality; intros a. apply functional_extensionality; intros b. unfold block_density, mscal.
  rewrite <- sum_scal. apply sum_ext. intros; ring.
Qed.
Lemma block_density_sym n X m orb occ a b : block_density n X m orb occ a b = block_density n X m orb occ b a.
Proof. unfold block_density. apply sum_ext. intros; ring. Qed.

(** The matrix one block adds. *)
Definition addition (y : symblock) (b : block) : mat :=
  let n := length (y_idx y) in
  let B := block_density n (y_X y) (b_m b) (b_orb b) (b_occ b) in
  match y_mirror y with
  | [] => scatter_add mzero (y_idx y) B
  | _ => scatter_add (scatter_add mzero (y_idx y) (mscal (/ 2) B)) (y_mirror y) (mscal (/ 2) B)
  end.
Lemma scatter_add_shift M idx B p q : scatter_add M idx B p q = M p q + scatter_add mzero idx B p q.
Proof. rewrite !scatter_add_entry. unfold mzero. ring. Qed.
Lemma accumulate_entry P y b : y_mirror y = [] \/ length (y_mirror y) = length (y_idx y) ->
  exists P', accumulate_density_block P (y_idx y) (y_X y) b (y_mirror y) = Ok P' /\ forall p q, P' p q = P p q + addition y b p q.
Proof.
  intros Hm. unfold accumulate_density_block, addition.
  destruct (Nat.eqb_spec (length (y_idx y)) 0) as [E0|E0].
  - exists P. split; auto. intros p q. destruct Hm as [Hm|Hm].
    + rewrite Hm. rewrite scatter_add_entry, E0. unfold mzero. simpl. ring.
    + assert (y_mirror y = []) by (destruct (y_mirror y); auto; simpl in Hm; lia). rewrite H. rewrite scatter_add_entry, E0. unfold mzero. simpl. ring.
  - destruct (y_mirror y) as [|r0 l0] eqn:EM.
    + cbn [length Nat.eqb negb]. eexists. split; [reflexivity|]. intros p q. apply scatter_add_shift.
    + destruct Hm as [Hm|Hm]; [discriminate|]. rewrite <- EM in *.
      assert (El : length (y_mirror y) <> 0%nat) by (rewrite EM; simpl; lia).
      destruct (Nat.eqb_spec (length (y_mirror y)) 0); [lia|]. cbn [negb]. rewrite Hm, Nat.eqb_refl.
      eexists. split; [reflexivity|]. intros p q.
      rewrite block_density_scal. rewrite scatter_add_shift, scatter_add_shift, (scatter_add_shift (scatter_add mzero _ _)). ring.
Qed.

Lemma density_entry bs : forall P, (forall y, In y (map fst bs) -> y_mirror y = [] \/ length (y_mirror y) = length (y_idx y)) ->
  exists P', density bs P = Ok P' /\ forall p q, P' p q = P p q + lsum bs (fun yb => addition (fst yb) (snd yb) p q).
Proof.
  induction bs as [|[y b] bs IH]; intros P H; cbn [density].
  - exists P. split; auto. intros. simpl. ring.
  - destruct (accumulate_entry P y b) as (P1 & -> & E1); [apply H; simpl; auto|]. cbn [bind].
    destruct (IH P1) as (P2 & -> & E2); [intros y' Hy; apply H; simpl; auto|]. exists P2. split; auto.
    intros p q. rewrite E2, E1. cbn [lsum fst snd]. ring.
Qed.

Lemma gather_mirror ys y F : mirror_symmetric ys F -> In y ys -> length (y_mirror y) = length (y_idx y) -> y_mirror y <> [] ->
  meq (length (y_idx y)) (length (y_idx y)) (gather F (y_mirror y) (y_mirror y)) (gather F (y_idx y) (y_idx y)).
Proof. intros Hm Hy Hl Hn a b Ha Hb. unfold gather. apply Hm; auto. Qed.

Lemma tr_addition N ys y b F : blocks_ok N ys -> mirror_symmetric ys F -> In y ys ->
  tr N (addition y b) F = orbital_trace (length (y_idx y)) (fock_block F (y_idx y) (y_X y)) b.
Proof.
  intros (Hr & _ & Hl) HF Hy. unfold addition. destruct b as [m orb occ]. cbn [b_m b_orb b_occ].
  set (n := length (y_idx y)).
  pose proof (tr_block_fock F (y_idx y) (y_X y) m orb occ) as HT. cbv zeta in HT. fold n in HT.
  destruct (y_mirror y) as [|r0 l0] eqn:EM.
  - rewrite tr_scatter by (intros r Hi; apply (Hr y Hy r), in_or_app; auto). rewrite tr_zero, Rplus_0_l. exact HT.
  - rewrite <- EM in *. assert (Hne : y_mirror y <> []) by (rewrite EM; discriminate).
    destruct (Hl y Hy) as [X1|Hl']; [tauto|].
    rewrite tr_scatter by (intros r Hi; apply (Hr y Hy r), in_or_app; auto).
    rewrite tr_scatter by (intros r Hi; apply (Hr y Hy r), in_or_app; auto). rewrite tr_zero, Rplus_0_l, Hl'. fold n.
    rewrite (tr_meq n (mscal (/ 2) (block_density n (y_X y) m orb occ)) (mscal (/ 2) (block_density n (y_X y) m orb occ))
               (gather F (y_mirror y) (y_mirror y)) (gather F (y_idx y) (y_idx y))).
    + rewrite tr_scal, HT. lra.
    + intros i j _ _. reflexivity.
    + eapply gather_mirror; eauto.
Qed.

Lemma tr_lsum {A} N (l : list A) (f : A -> mat) F P : (forall p q, P p q = lsum l (fun a => f a p q)) ->
  tr N P F = lsum l (fun a => tr N (f a) F).
Proof.
  intros H. unfold tr. rewrite lsum_sum_swap. apply sum_ext. intros i Hi. rewrite lsum_sum_swap. apply sum_ext. intros j Hj.
  rewrite H. rewrite Rmult_comm, <- lsum_scal. apply lsum_ext. intros; ring.
Qed.

Lemma density_trace N bs F : blocks_ok N (map fst bs) -> mirror_symmetric (map fst bs) F ->
  exists P, density bs mzero = Ok P /\
    tr N P F = lsum bs (fun yb => orbital_trace (length (y_idx (fst yb))) (fock_block F (y_idx (fst yb)) (y_X (fst yb))) (snd yb)).
Proof.
  intros Hb HF. destruct (density_entry bs mzero) as (P & E & HP); [apply Hb|]. exists P. split; auto.
  rewrite (tr_lsum N bs (fun yb => addition (fst yb) (snd yb)) F P).
  - apply lsum_ext. intros [y b] Hin. apply (tr_addition N (map fst bs)); auto. now apply (in_map fst) in Hin.
  - intros p q. rewrite HP. unfold mzero. ring.
Qed.

Lemma orbital_trace_id n f b : meq n n f mid -> orthonormal n b -> orbital_trace n f b = occupation b.
Proof.
  intros Hf Ho. unfold orbital_trace, occupation. apply sum_ext. intros i Hi.
  rewrite <- (Rmult_1_r (b_occ b i)) at 2. f_equal.
  transitivity (mmul n (mT (b_orb b)) (b_orb b) i i).
  - unfold mmul, mT. apply sum_ext. intros p Hp.
    rewrite (sum_ext n _ (fun q => mid p q * (b_orb b p i * b_orb b q i))).
    + exact (sum_mid_l n p (fun q => b_orb b p i * b_orb b q i) Hp).
    + intros q Hq. rewrite Hf by auto. ring.
  - rewrite Ho by auto. unfold mid. now rewrite Nat.eqb_refl.
Qed.

Lemma density_electrons N bs Sm : blocks_ok N (map fst bs) -> mirror_symmetric (map fst bs) Sm ->
  orthonormalisers (map fst bs) Sm -> (forall y b, In (y, b) bs -> orthonormal (length (y_idx y)) b) ->
  exists P, density bs mzero = Ok P /\ tr N P Sm = lsum bs (fun yb => occupation (snd yb)).
Proof.
  intros Hb HS HX Ho. destruct (density_trace N bs Sm Hb HS) as (P & E & HT). exists P. split; auto. rewrite HT.
  apply lsum_ext. intros [y b] Hin. cbn [fst snd]. apply orbital_trace_id; [|apply Ho; auto].
  unfold fock_block. apply (HX y). now apply (in_map fst) in Hin.
Qed.

Lemma scatter_sym idx B p q : (forall a b, B a b = B b a) -> scatter_add mzero idx B p q = scatter_add mzero idx B q p.
Proof.
  intros H. rewrite !scatter_add_entry. f_equal. rewrite sum_swap. apply sum_ext. intros a Ha. apply sum_ext. intros b Hb.
  rewrite (H a b), andb_comm. reflexivity.
Qed.
Lemma addition_sym y b p q : addition y b p q = addition y b q p.
Proof.
  unfold addition. pose proof (block_density_sym (length (y_idx y)) (y_X y) (b_m b) (b_orb b) (b_occ b)) as HS.
  destruct (y_mirror y); [now apply scatter_sym|].
  rewrite scatter_add_shift, (scatter_add_shift _ _ _ q p). f_equal; apply scatter_sym; intros; unfold mscal; now rewrite HS.
Qed.
Lemma scatter_zero idx B p q : ~ (In p idx /\ In q idx) -> scatter_add mzero idx B p q = 0.
Proof.
  intros H. rewrite scatter_add_entry. unfold mzero. rewrite sum_zero'; [ring|]. intros a Ha. apply sum_zero'. intros b Hb.
  destruct (Nat.eqb_spec (ix idx a) p) as [E|]; auto. destruct (Nat.eqb_spec (ix idx b) q) as [E'|]; auto.
  exfalso. apply H. subst. split; now apply ix_in.
Qed.
Lemma addition_zero ys y b p q : In y ys -> ~ same_block ys p q -> addition y b p q = 0.
Proof.
  intros Hy H. unfold addition. assert (H1 : ~ (In p (y_idx y) /\ In q (y_idx y))) by (intros X; apply H; exists y; auto).
  assert (H2 : ~ (In p (y_mirror y) /\ In q (y_mirror y))) by (intros X; apply H; exists y; auto).
  destruct (y_mirror y) eqn:EM; [now apply scatter_zero|]. rewrite <- EM in *.
  rewrite scatter_add_shift, !scatter_zero; auto. ring.
Qed.
Lemma density_structure N bs P : blocks_ok N (map fst bs) -> density bs mzero = Ok P ->
  (forall p q, P p q = P q p) /\ (forall p q, ~ same_block (map fst bs) p q -> P p q = 0).
Proof.
  intros Hb E. destruct (density_entry bs mzero) as (P' & E' & HP); [apply Hb|]. assert (P' = P) by congruence. subst P'.
  split; intros p q.
  - rewrite !HP. unfold mzero. f_equal. apply lsum_ext. intros; apply addition_sym.
  - intros Hn. rewrite HP. unfold mzero. rewrite lsum_zero; [ring|]. intros [y b] Hin. apply (addition_zero (map fst bs)); auto.
    now apply (in_map fst) in Hin.
Qed.

Lemma final_restricted_entry bs : forall Pa Pb, (forall yb, In yb bs -> y_mirror (fst yb) = []) ->
  forall p q, fst (final_restricted bs Pa Pb) p q = Pa p q + / 2 * lsum bs (fun yb => addition (fst yb) (snd yb) p q) /\
              snd (final_restricted bs Pa Pb) p q = Pb p q + / 2 * lsum bs (fun yb => addition (fst yb) (snd yb) p q).
Proof.
  induction bs as [|[y b] bs IH]; intros Pa Pb H p q; cbn [final_restricted].
  - simpl. split; ring.
  - assert (Hm : y_mirror y = []) by (apply (H (y, b)); simpl; auto).
    assert (EA : addition y b p q = scatter_add mzero (y_idx y) (block_density (length (y_idx y)) (y_X y) (b_m b) (b_orb b) (b_occ b)) p q).
    { unfold addition. now rewrite Hm. }
    assert (Hs : forall P, scatter_add P (y_idx y) (mscal (/ 2) (block_density (length (y_idx y)) (y_X y) (b_m b) (b_orb b) (b_occ b))) p q =
                  P p q + / 2 * addition y b p q).
    { intros P. rewrite EA, !scatter_add_entry. unfold mzero, mscal. rewrite Rplus_0_l. f_equal. rewrite <- sum_scal. apply sum_ext. intros a Ha.
      rewrite <- sum_scal. apply sum_ext. intros b' Hb'. destruct (_ && _)%bool; ring. }
    destruct (Nat.eqb_spec (length (y_idx y)) 0) as [E0|E0].
    + destruct (IH Pa Pb (fun yb Hy => H yb (or_intror Hy)) p q) as [-> ->]. cbn [lsum fst snd].
      assert (addition y b p q = 0) by (rewrite EA, scatter_add_entry, E0; unfold mzero; simpl; ring). rewrite H0. split; ring.
    + match goal with |- context [final_restricted bs ?A ?B] => destruct (IH A B (fun yb Hy => H yb (or_intror Hy)) p q) as [-> ->] end.
      rewrite !Hs. cbn [lsum fst snd]. split; ring.
Qed.

(** Without mirrors, the two saved densities are the halves of the density of the
    SCF. *)
Lemma saved_density bs P : (forall yb, In yb bs -> y_mirror (fst yb) = []) -> density bs mzero = Ok P ->
  let '(Pa, Pb) := final_restricted bs mzero mzero in forall p q, Pa p q = / 2 * P p q /\ Pb p q = / 2 * P p q.
Proof.
  intros H E. destruct (density_entry bs mzero) as (P' & E' & HP).
  { intros y Hy. apply in_map_iff in Hy. destruct Hy as (yb & <- & Hin). left. auto. }
  assert (P' = P) by congruence. subst P'.
  destruct (final_restricted bs mzero mzero) as [Pa Pb] eqn:EF. intros p q.
  destruct (final_restricted_entry bs mzero mzero H p q) as [H1 H2]. rewrite EF in H1, H2. cbn [fst snd] in *.
  rewrite H1, H2, HP. unfold mzero. split; ring.
Qed.

Lemma final_unrestricted_entry bs : forall Pa Pb, (forall yb, In yb bs -> y_mirror (fst yb) = []) ->
  forall p q, fst (final_unrestricted bs Pa Pb) p q = Pa p q + lsum bs (fun yb => addition (fst yb) (fst (snd yb)) p q) /\
              snd (final_unrestricted bs Pa Pb) p q = Pb p q + lsum bs (fun yb => addition (fst yb) (snd (snd yb)) p q).
Proof.
  induction bs as [|[y [a b]] bs IH]; intros Pa Pb H p q; cbn [final_unrestricted].
  - simpl. split; ring.
  - assert (Hm : y_mirror y = []) by (apply (H (y, (a, b))); simpl; auto).
    assert (EA : forall b, addition y b p q = scatter_add mzero (y_idx y) (block_density (length (y_idx y)) (y_X y) (b_m b) (b_orb b) (b_occ b)) p q).
    { intros b'. unfold addition. now rewrite Hm. }
    destruct (Nat.eqb_spec (length (y_idx y)) 0) as [E0|E0].
    + destruct (IH Pa Pb (fun yb Hy => H yb (or_intror Hy)) p q) as [-> ->]. cbn [lsum fst snd].
      assert (Hz : forall b, addition y b p q = 0) by (intros b'; rewrite EA, scatter_add_entry, E0; unfold mzero; simpl; ring). rewrite !Hz. split; ring.
    + match goal with |- context [final_unrestricted bs ?A ?B] => destruct (IH A B (fun yb Hy => H yb (or_intror Hy)) p q) as [-> ->] end.
      cbn [lsum fst snd]. rewrite (scatter_add_shift Pa), (scatter_add_shift Pb), !EA. split; ring.
Qed.
Lemma saved_density_unrestricted bs P Q : (forall yb, In yb bs -> y_mirror (fst yb) = []) ->
  density (map (fun yb => (fst yb, fst (snd yb))) bs) mzero = Ok P ->
  density (map (fun yb => (fst yb, snd (snd yb))) bs) mzero = Ok Q ->
  let '(Pa, Pb) := final_unrestricted bs mzero mzero in forall p q, Pa p q = P p q /\ Pb p q = Q p q.
Proof.
  intros H EP EQ.
  destruct (density_entry (map (fun yb => (fst yb, fst (snd yb))) bs) mzero) as (P' & E' & HP).
  { intros y Hy. rewrite map_map in Hy. apply in_map_iff in Hy. destruct Hy as (yb & <- & Hin). left. cbn [fst]. auto. }
  destruct (density_entry (map (fun yb => (fst yb, snd (snd yb))) bs) mzero) as (Q' & F' & HQ).
  { intros y Hy. rewrite map_map in Hy. apply in_map_iff in Hy. destruct Hy as (yb & <- & Hin). left. cbn [fst]. auto. }
  assert (P' = P) by congruence. assert (Q' = Q) by congruence. subst P' Q'.
  destruct (final_unrestricted bs mzero mzero) as [Pa Pb] eqn:EF. intros p q.
  destruct (final_unrestricted_entry bs mzero mzero H p q) as [H1 H2]. rewrite EF in H1, H2. cbn [fst snd] in *.
  rewrite H1, H2, HP, HQ, !lsum_map. unfold mzero. cbn [fst snd]. split; ring.
Qed.

(* ---------- loading a density ---------- *)

Lemma sum_rev n f : sum n f = sum n (fun i => f (n - 1 - i)%nat).
Proof.
  induction n; [reflexivity|]. cbn [sum]. rewrite (sum_shift n) || idtac.
  change (sum n (fun i => f (S n - 1 - i)%nat) + f (S n - 1 - n)%nat) with (sum (S n) (fun i => f (S n - 1 - i)%nat)).
  rewrite sum_shift. replace (S n - 1 - 0)%nat with n by lia. rewrite Rplus_comm. f_equal. rewrite IHn.
  apply sum_ext. intros i Hi. f_equal. lia.
Qed.

Lemma eig_rayleigh n A e V i : is_eigensystem n A e V -> (i < n)%nat ->
  quad_form n A (fun r => V r i) = e i /\ sum n (fun r => V r i * V r i) = 1.
Proof.
  intros (O1 & _ & HE & _) Hi.
  assert (E1 : sum n (fun r => V r i * V r i) = 1).
  { transitivity (mmul n (mT V) V i i); [reflexivity|]. rewrite O1 by auto. unfold mid. now rewrite Nat.eqb_refl. }
  split; auto. transitivity (sum n (fun r => V r i * V r i) * e i); [|rewrite E1; ring].
  unfold quad_form. rewrite <- sum_scal_r. apply sum_ext. intros p Hp.
  rewrite (sum_ext n _ (fun q => V p i * (A p q * V q i))) by (intros; ring). rewrite sum_scal.
  change (sum n (fun q => A p q * V q i)) with (mmul n A V p i). rewrite HE by auto. ring.
Qed.

Lemma fill_block_ok sv P idx X max_occ b : solvers_ok sv -> 0 <= max_occ ->
  (forall p q, In p idx -> In q idx -> P p q = P q p) ->
  fill_block_from_density sv P idx X max_occ = Ok b ->
  let n := length idx in
  b_m b = n /\ orthonormal n b /\
  (forall i, (i < n)%nat -> 0 <= b_occ b i <= max_occ) /\
  (forall i j, (i <= j)%nat -> (j < n)%nat -> b_occ b j <= b_occ b i) /\
  (spectrum_in n (mmul n (mmul n (mT X) (gather P idx idx)) X) 0 max_occ ->
   meq n n (block_density n X (b_m b) (b_orb b) (b_occ b))
     (mmul n (mmul n (mmul n X (mT X)) (gather P idx idx)) (mmul n X (mT X)))).
Proof.
  intros (He & _) Hmax HP. unfold fill_block_from_density. cbv zeta. set (n := length idx).
  set (Porth := mmul n (mmul n (mT X) (gather P idx idx)) X).
  destruct (Nat.eqb_spec n 0) as [E0|E0].
  { intros HH. injection HH as <-. cbn [b_m b_orb b_occ]. split; auto. split; [intros i j Hi; cbn [b_m] in Hi; lia|].
    split; [intros; lia|]. split; [intros; lia|]. intros _ i j Hi. lia. }
  assert (HS : symmetric n Porth).
  { intros i j Hi Hj. unfold Porth. rewrite !sandwich_bil. apply bil_sym. intros p q Hp Hq. unfold gather. apply HP; now apply ix_in. }
  destruct (sv_eig sv n Porth) as [[e V]|] eqn:EE; [|discriminate]. intros HH. injection HH as <-. cbn [b_m b_orb b_occ].
  pose proof (He _ _ _ _ HS EE) as HI. destruct HI as (O1 & O2 & HE & Hasc).
  split; auto. split; [|split; [|split]].
  - intros i j Hi Hj. cbn [b_m b_orb] in *. transitivity (mmul n (mT V) V (n - 1 - i)%nat (n - 1 - j)%nat); [reflexivity|].
    rewrite O1 by lia. unfold mid. destruct (Nat.eqb_spec (n - 1 - i) (n - 1 - j)); destruct (Nat.eqb_spec i j); auto; lia.
  - intros i Hi. unfold Rmin, Rmax. destruct (Rle_dec (e (n - 1 - i)%nat) 0); destruct (Rle_dec _ max_occ); lra.
  - intros i j Hij Hj. assert (e (n - 1 - j)%nat <= e (n - 1 - i)%nat) by (apply Hasc; lia).
    unfold Rmin, Rmax. repeat destruct (Rle_dec _ _); lra.
  - intros Hsp.
    assert (Hcl : forall i, (i < n)%nat -> Rmin (Rmax (e i) 0) max_occ = e i).
    { intros i Hi. destruct (eig_rayleigh n Porth e V i (conj O1 (conj O2 (conj HE Hasc))) Hi) as [R1 R2].
      specialize (Hsp (fun r => V r i)). fold Porth in Hsp. rewrite R1, R2 in Hsp.
      unfold Rmin, Rmax. destruct (Rle_dec (e i) 0); destruct (Rle_dec _ max_occ); lra. }
    intros a b Ha Hb. unfold block_density.
    rewrite (sum_ext n _ (fun i => (fun k => mmul n X V a k * e k * mmul n X V b k) (n - 1 - i)%nat)).
    2:{ intros i Hi. rewrite Hcl by lia. reflexivity. }
    rewrite <- (sum_rev n (fun k => mmul n X V a k * e k * mmul n X V b k)).
    (* X V e V^T X^T *)
    transitivity (mmul n (mmul n X Porth) (mT X) a b).
    2:{ unfold Porth. rewrite !massoc. reflexivity. }
    transitivity (mmul n (mmul n X (mmul n Porth V)) (mT (mmul n X V)) a b).
    + unfold mmul at 3. apply sum_ext. intros k Hk. unfold mT at 1. f_equal.
      unfold mmul at 1 2. rewrite <- sum_scal_r. apply sum_ext. intros p Hp. rewrite HE by auto. ring.
    + rewrite mT_mmul, !massoc. apply mmul_r. intros p Hp. apply mmul_r. intros q Hq.
      rewrite <- massoc. rewrite (mmul_l n _ mid) by (intros; apply O2; auto). apply mmul_id_l; auto.
Qed.

Lemma project_electrons n no X S12 Sm P nel : 0 < nel ->
  let Q := mmul n (mmul n X (mT X)) S12 in
  0 < tr n (mmul no (mmul no Q P) (mT Q)) Sm -> tr n (project n no X S12 Sm P nel) Sm = nel.
Proof.
  intros Hn Q H. unfold project. fold Q. destruct (Rltb_spec 0 (tr n (mmul no (mmul no Q P) (mT Q)) Sm)); [|lra].
  destruct (Rltb_spec 0 nel); [|lra]. cbn [andb]. rewrite tr_scal. field. lra.
Qed.
Lemma project_same n X Sm P nel : half_inverse n X Sm -> 0 < nel -> tr n P Sm = nel ->
  meq n n (project n n X Sm Sm P nel) P.
Proof.
  intros [_ HX] Hn HP. unfold project. set (Q := mmul n (mmul n X (mT X)) Sm).
  assert (E : meq n n (mmul n (mmul n Q P) (mT Q)) P).
  { intros i j Hi Hj. rewrite (mmul_l n (mmul n Q P) P).
    2:{ intros k Hk. rewrite (mmul_l n Q mid) by (intros; apply HX; auto). apply mmul_id_l; auto. }
    rewrite (mmul_r n P (mT Q) mid).
    2:{ intros k Hk. unfold mT. rewrite mid_sym. apply HX; auto. }
    apply mmul_id_r; auto. }
  assert (Et : tr n (mmul n (mmul n Q P) (mT Q)) Sm = nel) by (rewrite <- HP; apply tr_meq; auto; intros ? ? _ _; reflexivity).
  rewrite Et. destruct (Rltb_spec 0 nel); [|lra]. cbn [andb]. intros i j Hi Hj. unfold mscal. rewrite E by auto. field. lra.
Qed.

(* ---------- energy gradients ---------- *)

Lemma deriv_quadratic a b c : derivable_pt_lim (fun t => a + b * t + c * (t * t)) 0 b.
Proof.
  enough (H : derivable_pt_lim (fun t => a + b * t + c * (t * t)) 0 (0 + b * 1 + c * (1 * 0 + 0 * 1)))
    by (replace (0 + b * 1 + c * (1 * 0 + 0 * 1)) with b in H by ring; exact H).
  apply (derivable_pt_lim_plus (fun t => a + b * t) (fun t => c * (t * t))).
  - apply (derivable_pt_lim_plus (fun _ => a) (fun t => b * t)); [apply derivable_pt_lim_const|].
    apply (derivable_pt_lim_scal (fun t => t)). apply derivable_pt_lim_id.
  - apply (derivable_pt_lim_scal (fun t => t * t)). apply (derivable_pt_lim_mult (fun t => t) (fun t => t)); apply derivable_pt_lim_id.
Qed.

Lemma sym_line n A B t : symmetric n A -> symmetric n B -> symmetric n (madd A (mscal t B)).
Proof. intros HA HB i j Hi Hj. unfold madd, mscal. rewrite HA, HB by auto. reflexivity. Qed.
Lemma sym_scal n A t : symmetric n A -> symmetric n (mscal t A).
Proof. intros HA i j Hi Hj. unfold mscal. rewrite HA by auto. reflexivity. Qed.
Lemma sym_add n A B : symmetric n A -> symmetric n B -> symmetric n (madd A B).
Proof. intros HA HB i j Hi Hj. unfold madd. rewrite HA, HB by auto. reflexivity. Qed.

Lemma quad_line n f A B t : linear_symmetric n f -> symmetric n A -> symmetric n B ->
  tr n (madd A (mscal t B)) (f (madd A (mscal t B))) = tr n A (f A) + 2 * tr n B (f A) * t + tr n B (f B) * (t * t).
Proof.
  intros [HL HS] HA HB.
  rewrite (tr_meq n _ (madd A (mscal t B)) _ (madd (f A) (mscal t (f B)))); [|intros ? ? _ _; reflexivity|now apply HL].
  rewrite !tr_add, !tr_scal, !tr_add_r, !tr_scal_r. rewrite (HS A B) by auto. ring.
Qed.

Lemma one_electron_line d P D t : meq (d_N d) (d_N d) (d_Bfield d 0) mzero ->
  one_electron_energy d (madd P (mscal t D)) = one_electron_energy d P + tr (d_N d) D (H1 d) * t.
Proof.
  intros HB. unfold one_electron_energy, H1. rewrite !tr_add_r, !tr_add, !tr_scal.
  assert (E1 : have_efield d = false -> tr (d_N d) D (Vel d) = 0).
  { unfold have_efield. destruct (Reqb_spec (d_Ez d) 0) as [Ez|]; [|discriminate]. destruct (Reqb_spec (d_Qzz d) 0) as [Eq|]; [|discriminate].
    intros _. unfold Vel. rewrite tr_add_r, !tr_scal_r, Ez, Eq. lra. }
  assert (E2 : have_bfield d = false -> tr (d_N d) D (Vmag d) = 0).
  { unfold have_bfield. destruct (Reqb_spec (d_Bz d) 0) as [Ez|]; [|discriminate]. intros _. unfold Vmag. rewrite Ez.
    rewrite (tr_meq _ D D _ mzero); [|intros ? ? _ _; reflexivity|auto]. rewrite tr_comm. apply tr_zero. }
  assert (E3 : d_iconf d = false -> tr (d_N d) D (Vconf d) = 0).
  { intros E. unfold Vconf. rewrite E. rewrite tr_comm. apply tr_zero. }
  destruct (have_efield d); destruct (have_bfield d); destruct (d_iconf d);
    rewrite ?E1, ?E2, ?E3 by reflexivity; ring.
Qed.

Lemma restricted_gradient d coul exch xc P D :
  meq (d_N d) (d_N d) (d_Bfield d 0) mzero ->
  linear_symmetric (d_N d) coul -> if_some (linear_symmetric (d_N d)) exch -> if_some (xc_gradient1 (d_N d)) xc ->
  symmetric (d_N d) P -> symmetric (d_N d) D ->
  derivable_pt_lim (fun t => fst (build_restricted d coul exch xc (madd P (mscal t D)))) 0
    (tr (d_N d) D (snd (build_restricted d coul exch xc P))).
Proof.
  intros HB HJ HK HX HP HD. set (N := d_N d) in *.
  set (x := fun t => match xc with None => 0 | Some f => fst (f (madd P (mscal t D))) end).
  set (lx := match xc with None => 0 | Some f => tr N D (snd (f P)) end).
  set (kk := match exch with None => 0 | Some k => tr N (mscal (/ 2) P) (k (mscal (/ 2) P)) end).
  set (k1 := match exch with None => 0 | Some k => tr N D (k (mscal (/ 2) P)) end).
  set (k2 := match exch with None => 0 | Some k => tr N (mscal (/ 2) D) (k (mscal (/ 2) D)) end).
  assert (Hx : derivable_pt_lim x 0 lx).
  { unfold x, lx. destruct xc as [f|]; [apply HX; auto|apply derivable_pt_lim_const]. }
  assert (EL : tr N D (snd (build_restricted d coul exch xc P)) = (tr N D (H1 d) + tr N D (coul P) + k1) + lx).
  { unfold build_restricted. cbn [snd]. unfold k1, lx. destruct xc as [f|]; destruct exch as [k|]; rewrite !tr_add_r; ring. }
  assert (EF : forall t, fst (build_restricted d coul exch xc (madd P (mscal t D))) =
    ((one_electron_energy d P + / 2 * tr N P (coul P) + kk + d_Enucr d) + (tr N D (H1 d) + tr N D (coul P) + k1) * t +
     (/ 2 * tr N D (coul D) + k2) * (t * t)) + x t).
  { intros t. unfold build_restricted. cbn [fst]. fold N. rewrite one_electron_line by auto. fold N.
    rewrite quad_line by auto.
    assert (EK : match exch with None => 0 | Some k => 2 * (/ 2 * tr N (mscal (/ 2) (madd P (mscal t D))) (k (mscal (/ 2) (madd P (mscal t D))))) end
                 = kk + k1 * t + k2 * (t * t)).
    { unfold kk, k1, k2. destruct exch as [k|]; [|ring].
      assert (EM : mscal (/ 2) (madd P (mscal t D)) = madd (mscal (/ 2) P) (mscal t (mscal (/ 2) D))).
      { apply functional_extensionality; intros i. apply functional_extensionality; intros j. unfold mscal, madd. ring. }
      rewrite EM. rewrite quad_line by (auto using sym_scal). rewrite (tr_scal N (/ 2) D (k (mscal (/ 2) P))). field. }
    rewrite EK. unfold x. field. }
  rewrite EL. replace (fun t : R => fst (build_restricted d coul exch xc (madd P (mscal t D)))) with
    (fun t => ((one_electron_energy d P + / 2 * tr N P (coul P) + kk + d_Enucr d) + (tr N D (H1 d) + tr N D (coul P) + k1) * t +
     (/ 2 * tr N D (coul D) + k2) * (t * t)) + x t) by (apply functional_extensionality; intros t; symmetry; apply EF).
  apply (derivable_pt_lim_plus (fun t => _) x); auto. apply deriv_quadratic.
Qed.

Lemma unrestricted_gradient d coul exch xc Pa Pb Da Db :
  meq (d_N d) (d_N d) (d_Bfield d 0) mzero ->
  linear_symmetric (d_N d) coul -> if_some (linear_symmetric (d_N d)) exch -> if_some (xc_gradient2 (d_N d)) xc ->
  symmetric (d_N d) Pa -> symmetric (d_N d) Pb -> symmetric (d_N d) Da -> symmetric (d_N d) Db ->
  d_Bz d = 0 \/ (tr (d_N d) Da (d_S d) = 0 /\ tr (d_N d) Db (d_S d) = 0) ->
  derivable_pt_lim (fun t => fst (build_unrestricted d coul exch xc (madd Pa (mscal t Da)) (madd Pb (mscal t Db)))) 0
    (tr (d_N d) Da (fst (snd (build_unrestricted d coul exch xc Pa Pb))) + tr (d_N d) Db (snd (snd (build_unrestricted d coul exch xc Pa Pb)))).
Proof.
  intros HB HJ HK HX HPa HPb HDa HDb Hz. set (N := d_N d) in *.
  set (x := fun t => match xc with None => 0 | Some f => fst (f (madd Pa (mscal t Da)) (madd Pb (mscal t Db))) end).
  set (lx := match xc with None => 0 | Some f => tr N Da (fst (snd (f Pa Pb))) + tr N Db (snd (snd (f Pa Pb))) end).
  set (kk := match exch with None => 0 | Some k => / 2 * tr N Pa (k Pa) + / 2 * tr N Pb (k Pb) end).
  set (k1 := match exch with None => 0 | Some k => tr N Da (k Pa) + tr N Db (k Pb) end).
  set (k2 := match exch with None => 0 | Some k => / 2 * tr N Da (k Da) + / 2 * tr N Db (k Db) end).
  set (P := madd Pa Pb). set (D := madd Da Db).
  assert (HP : symmetric N P) by (apply sym_add; auto). assert (HD : symmetric N D) by (apply sym_add; auto).
  assert (Hx : derivable_pt_lim x 0 lx).
  { unfold x, lx. destruct xc as [f|]; [apply HX; auto|apply derivable_pt_lim_const]. }
  assert (EL : tr N Da (fst (snd (build_unrestricted d coul exch xc Pa Pb))) + tr N Db (snd (snd (build_unrestricted d coul exch xc Pa Pb)))
     = (tr N D (H1 d) + tr N D (coul P) + k1) + lx).
  { unfold build_unrestricted. cbn [fst snd]. fold P. unfold D. rewrite !(tr_add N Da Db). unfold k1, lx.
    assert (EB : forall A B, tr N Da (if have_bfield d then madd A (mscal (- (/ 2 * d_Bz d)) (d_S d)) else A) +
                             tr N Db (if have_bfield d then madd B (mscal (/ 2 * d_Bz d) (d_S d)) else B) = tr N Da A + tr N Db B).
    { intros A B. destruct (have_bfield d); auto. rewrite !tr_add_r, !tr_scal_r.
      destruct Hz as [->|[-> ->]]; ring. }
    rewrite EB. destruct xc as [f|]; destruct exch as [k|]; rewrite !tr_add_r; ring. }
  assert (EM : forall t, madd (madd Pa (mscal t Da)) (madd Pb (mscal t Db)) = madd P (mscal t D)).
  { intros t. apply functional_extensionality; intros i. apply functional_extensionality; intros j. unfold P, D, mscal, madd. ring. }
  assert (EF : forall t, fst (build_unrestricted d coul exch xc (madd Pa (mscal t Da)) (madd Pb (mscal t Db))) =
    ((one_electron_energy d P + / 2 * tr N P (coul P) + kk + d_Enucr d) + (tr N D (H1 d) + tr N D (coul P) + k1) * t +
     (/ 2 * tr N D (coul D) + k2) * (t * t)) + x t).
  { intros t. unfold build_unrestricted. cbn [fst]. fold N. rewrite EM. rewrite one_electron_line by auto. fold N.
    rewrite quad_line by auto.
    assert (EK : match exch with None => 0 | Some k => / 2 * tr N (madd Pa (mscal t Da)) (k (madd Pa (mscal t Da))) + / 2 * tr N (madd Pb (mscal t Db)) (k (madd Pb (mscal t Db))) end
                 = kk + k1 * t + k2 * (t * t)).
    { unfold kk, k1, k2. destruct exch as [k|]; [|ring]. rewrite !quad_line by auto. field. }
    rewrite EK. unfold x. field. }
  rewrite EL. replace (fun t : R => fst (build_unrestricted d coul exch xc (madd Pa (mscal t Da)) (madd Pb (mscal t Db)))) with
    (fun t => ((one_electron_energy d P + / 2 * tr N P (coul P) + kk + d_Enucr d) + (tr N D (H1 d) + tr N D (coul P) + k1) * t +
     (/ 2 * tr N D (coul D) + k2) * (t * t)) + x t) by (apply functional_extensionality; intros t; symmetry; apply EF).
  apply (derivable_pt_lim_plus (fun t => _) x); auto. apply deriv_quadratic.
Qed.

(* ---------- a solver that meets the contracts ---------- *)

(** Forward substitution. *)
Fixpoint fsub (L : mat) (b : vec) (n : nat) : list R :=
  match n with
  | O => []
  | S k => let ys := fsub L b k in ys ++ [(b k - sum k (fun q => L k q * nth q ys 0)) / L k k]
  end.
Lemma fsub_length L b n : length (fsub L b n) = n.
Proof. induction n; [reflexivity|]. cbn [fsub]. cbv zeta. rewrite app_length, IHn. simpl. lia. Qed.
Lemma fsub_stable L b n k q : (q < k)%nat -> (k <= n)%nat -> nth q (fsub L b n) 0 = nth q (fsub L b k) 0.
Proof.
  intros Hq. induction n; intros Hk; [assert (k = 0)%nat by lia; lia|].
  destruct (Nat.eq_dec k (S n)) as [->|]; auto. cbn [fsub]. cbv zeta. rewrite app_nth1 by (rewrite fsub_length; lia). apply IHn. lia.
Qed.
Lemma fsub_ok L b n i : (forall i, (i < n)%nat -> L i i <> 0) -> (forall i j, (i < j)%nat -> (j < n)%nat -> L i j = 0) -> (i < n)%nat ->
  sum n (fun q => L i q * nth q (fsub L b n) 0) = b i.
Proof.
  intros Hd Hz Hi.
  replace n with (S i + (n - S i))%nat at 1 by lia. rewrite sum_split. rewrite (sum_zero' (n - S i)).
  2:{ intros q Hq. rewrite Hz by lia. ring. }
  cbn [sum]. rewrite (fsub_stable L b n (S i) i) by lia. cbn [fsub]. cbv zeta. rewrite app_nth2 by (rewrite fsub_length; lia).
  rewrite fsub_length, Nat.sub_diag. cbn [nth].
  rewrite (sum_ext i _ (fun q => L i q * nth q (fsub L b i) 0)).
  2:{ intros q Hq. now rewrite (fsub_stable L b n i q) by lia. }
  field. auto.
Qed.

(** Inverse of an upper triangular matrix: substitution from the bottom. *)
Definition rinv (n : nat) (U : mat) : mat := fun i j =>
  nth (n - 1 - i) (fsub (fun a b => U (n - 1 - a)%nat (n - 1 - b)%nat) (fun a => mid (n - 1 - a)%nat j) n) 0.
Definition linv (n : nat) (U : mat) : mat := fun i j => nth j (fsub (fun a b => U b a) (fun a => mid i a) n) 0.
Lemma rinv_ok n U : (forall i j, (j < i)%nat -> (i < n)%nat -> U i j = 0) -> (forall i, (i < n)%nat -> U i i <> 0) ->
  meq n n (mmul n U (rinv n U)) mid.
Proof.
  intros Hz Hd i j Hi Hj. unfold mmul, rinv. rewrite sum_rev.
  set (L := fun a b => U (n - 1 - a)%nat (n - 1 - b)%nat).
  assert (HL1 : forall a, (a < n)%nat -> L a a <> 0) by (intros a Ha; unfold L; apply Hd; lia).
  assert (HL2 : forall a b, (a < b)%nat -> (b < n)%nat -> L a b = 0) by (intros a b Hab Hb; unfold L; apply Hz; lia).
  pose proof (fsub_ok L (fun a => mid (n - 1 - a)%nat j) n (n - 1 - i) HL1 HL2 ltac:(lia)) as H. cbv beta in H.
  replace (mid (n - 1 - (n - 1 - i))%nat j) with (mid i j) in H by (f_equal; lia). rewrite <- H.
  apply sum_ext. intros q Hq. replace (n - 1 - (n - 1 - q))%nat with q by lia. f_equal. unfold L. f_equal; lia.
Qed.
Lemma linv_ok n U : (forall i j, (j < i)%nat -> (i < n)%nat -> U i j = 0) -> (forall i, (i < n)%nat -> U i i <> 0) ->
  meq n n (mmul n (linv n U) U) mid.
Proof.
  intros Hz Hd i j Hi Hj. unfold mmul, linv.
  rewrite <- (fsub_ok (fun a b => U b a) (fun a => mid i a) n j); auto.
  apply sum_ext. intros; ring.
Qed.
Lemma rinv_both n U : (forall i j, (j < i)%nat -> (i < n)%nat -> U i j = 0) -> (forall i, (i < n)%nat -> U i i <> 0) ->
  meq n n (mmul n U (rinv n U)) mid /\ meq n n (mmul n (rinv n U) U) mid.
Proof.
  intros Hz Hd. pose proof (rinv_ok n U Hz Hd) as HR. pose proof (linv_ok n U Hz Hd) as HL. split; auto.
  assert (E : forall i j, (i < n)%nat -> (j < n)%nat -> rinv n U i j = linv n U i j).
  { intros i j Hi Hj. transitivity (mmul n mid (rinv n U) i j); [symmetry; apply mmul_id_l; auto|].
    rewrite (mmul_l n mid (mmul n (linv n U) U)) by (intros; symmetry; apply HL; auto). rewrite massoc.
    rewrite (mmul_r n (linv n U) _ mid) by (intros; apply HR; auto). apply mmul_id_r; auto. }
  intros i j Hi Hj. rewrite (mmul_l n (rinv n U) (linv n U)) by (intros; apply E; auto). apply HL; auto.
Qed.

(** Insertion sort of indices by a key. *)
Fixpoint ins (E : vec) (i : nat) (l : list nat) : list nat :=
  match l with [] => [i] | j :: r => if Rleb (E i) (E j) then i :: l else j :: ins E i r end.
Definition isort (n : nat) (E : vec) : list nat := fold_right (ins E) [] (seq 0 n).
Lemma ins_perm E i l : Permutation (ins E i l) (i :: l).
Proof. induction l as [|j r IH]; cbn [ins]; auto. destruct (Rleb (E i) (E j)); auto. rewrite IH. apply perm_swap. Qed.
Lemma ins_sorted E i l : (forall a b, (a <= b)%nat -> (b < length l)%nat -> E (ix l a) <= E (ix l b)) ->
  forall a b, (a <= b)%nat -> (b < length (ins E i l))%nat -> E (ix (ins E i l) a) <= E (ix (ins E i l) b).
Proof.
  induction l as [|j r IH]; intros H a b Hab Hb; cbn [ins] in *.
  - simpl in Hb. assert (b = 0)%nat by lia. assert (a = 0)%nat by lia. subst. lra.
  - destruct (Rleb_spec (E i) (E j)) as [Hle|Hgt].
    + destruct a as [|a]; destruct b as [|b]; try lia; unfold ix; cbn [nth]; [lra| |].
      * apply Rle_trans with (E j); auto. apply (H 0%nat b); simpl in *; lia.
      * apply (H a b); simpl in *; lia.
    + assert (Hr : forall a b, (a <= b)%nat -> (b < length r)%nat -> E (ix r a) <= E (ix r b)).
      { intros a' b' H1 H2. apply (H (S a') (S b')); simpl; lia. }
      destruct a as [|a]; destruct b as [|b]; try lia; unfold ix; cbn [nth].
      * lra.
      * assert (Hin : In (ix (ins E i r) b) (i :: r)).
        { apply (Permutation_in _ (ins_perm E i r)). apply ix_in. simpl in Hb. lia. }
        fold (ix (ins E i r) b). destruct Hin as [<-|Hin]; [lra|]. destruct (in_ix _ _ Hin) as (q & Hq & <-).
        apply (H 0%nat (S q)); simpl; lia.
      * fold (ix (ins E i r) a). fold (ix (ins E i r) b). apply IH; auto; simpl in Hb; lia.
Qed.
Lemma isort_ok n E : Permutation (isort n E) (seq 0 n) /\
  forall i j, (i <= j)%nat -> (j < n)%nat -> E (ix (isort n E) i) <= E (ix (isort n E) j).
Proof.
  assert (H : forall l, Permutation (fold_right (ins E) [] l) l /\
     forall a b, (a <= b)%nat -> (b < length (fold_right (ins E) [] l))%nat -> E (ix (fold_right (ins E) [] l) a) <= E (ix (fold_right (ins E) [] l) b)).
  { induction l as [|x l [IH1 IH2]]; cbn [fold_right]; split; auto.
    - intros a b _ Hb. simpl in Hb. lia.
    - rewrite ins_perm. auto.
    - apply ins_sorted; auto. }
  destruct (H (seq 0 n)) as [H1 H2]. split; auto. intros i j Hij Hj. apply H2; auto.
  rewrite (Permutation_length H1), seq_length. lia.
Qed.

(** Diagonal matrices with ascending elements only. *)
Definition diag_ascending (n : nat) (A : mat) : bool :=
  forallb (fun i => forallb (fun j => (if Nat.eqb i j then true else Reqb (A i j) 0) && (if Nat.leb i j then Rleb (A i i) (A j j) else true))%bool (seq 0 n)) (seq 0 n).
Definition diag_positive (n : nat) (A : mat) : bool :=
  forallb (fun i => forallb (fun j => if Nat.eqb i j then Rltb 0 (A i i) else Reqb (A i j) 0) (seq 0 n)) (seq 0 n).
Definition diagonal_solvers : solvers := {|
  sv_eig := fun n A => if diag_ascending n A then Some (fun i => A i i, mid) else None;
  sv_llt := fun n A => if diag_positive n A then Some (fun i j => mid i j * sqrt (A i i)) else None;
  sv_inv := rinv;
  sv_sort := isort |}.
Lemma diag_ascending_facts n A : diag_ascending n A = true -> (forall i j, (i < n)%nat -> (j < n)%nat -> i <> j -> A i j = 0) /\
  (forall i j, (i <= j)%nat -> (j < n)%nat -> A i i <= A j j).
Proof.
  intros H. unfold diag_ascending in H. rewrite forallb_forall in H.
  assert (H' : forall i j, (i < n)%nat -> (j < n)%nat ->
     ((if Nat.eqb i j then true else Reqb (A i j) 0) && (if Nat.leb i j then Rleb (A i i) (A j j) else true))%bool = true).
  { intros i j Hi Hj. specialize (H i (proj2 (in_seq n 0 i) ltac:(lia))). rewrite forallb_forall in H. apply H. apply in_seq. lia. }
  split; intros i j Hi Hj.
  - intros Hne. specialize (H' i j Hi Hj). apply andb_true_iff in H'. destruct H' as [H1 _].
    destruct (Nat.eqb_spec i j); [tauto|]. destruct (Reqb_spec (A i j) 0); auto. discriminate.
  - specialize (H' i j ltac:(lia) Hj). apply andb_true_iff in H'. destruct H' as [_ H1]. rewrite (proj2 (Nat.leb_le i j) Hi) in H1.
    destruct (Rleb_spec (A i i) (A j j)); auto. discriminate.
Qed.
Lemma diag_positive_facts n A : diag_positive n A = true ->
  (forall i j, (i < n)%nat -> (j < n)%nat -> i <> j -> A i j = 0) /\ (forall i, (i < n)%nat -> 0 < A i i).
Proof.
  intros H. unfold diag_positive in H. rewrite forallb_forall in H.
  assert (H' : forall i j, (i < n)%nat -> (j < n)%nat -> (if Nat.eqb i j then Rltb 0 (A i i) else Reqb (A i j) 0) = true).
  { intros i j Hi Hj. specialize (H i (proj2 (in_seq n 0 i) ltac:(lia))). rewrite forallb_forall in H. apply H. apply in_seq. lia. }
  split; [intros i j Hi Hj Hne|intros i Hi].
  - specialize (H' i j Hi Hj). destruct (Nat.eqb_spec i j); [tauto|]. destruct (Reqb_spec (A i j) 0); auto. discriminate.
  - specialize (H' i i Hi Hi). rewrite Nat.eqb_refl in H'. destruct (Rltb_spec 0 (A i i)); auto. discriminate.
Qed.
Lemma diagonal_solvers_ok : solvers_ok diagonal_solvers.
Proof.
  split; [|split; [|split]].
  - intros n A e V _ HE. cbn [sv_eig diagonal_solvers] in HE. destruct (diag_ascending n A) eqn:ED; [|discriminate].
    injection HE as <- <-. apply diag_ascending_facts in ED. destruct ED as [H1 H2]. split; [|split; [|split]]; auto.
    + intros i j Hi Hj. rewrite mmul_id_r by auto. unfold mT. apply mid_sym.
    + intros i j Hi Hj. rewrite mmul_id_l by auto. unfold mT. apply mid_sym.
    + intros i j Hi Hj. rewrite mmul_id_r by auto. unfold mid. destruct (Nat.eqb_spec i j) as [->|]; [ring|]. rewrite H1 by auto. ring.
  - intros n A L _ HE. cbn [sv_llt diagonal_solvers] in HE. destruct (diag_positive n A) eqn:ED; [|discriminate].
    injection HE as <-. apply diag_positive_facts in ED. destruct ED as [H1 H2]. split; [|split].
    + intros i j Hi Hj. unfold mmul, mT. rewrite (sum_ext n _ (fun k => mid i k * (sqrt (A i i) * (mid j k * sqrt (A j j))))) by (intros; ring).
      rewrite (sum_mid_l n i (fun k => sqrt (A i i) * (mid j k * sqrt (A j j)))) by auto.
      unfold mid. destruct (Nat.eqb_spec j i) as [->|].
      * specialize (H2 i Hi). rewrite <- (sqrt_sqrt (A i i)) at 3 by lra. ring.
      * rewrite (H1 i j) by lia. ring.
    + intros i j Hi Hj. unfold mid. destruct (Nat.eqb_spec i j); [lia|ring].
    + intros i Hi. unfold mid. rewrite Nat.eqb_refl. specialize (H2 i Hi). pose proof (sqrt_lt_R0 _ H2). lra.
  - intros n U. apply rinv_both.
  - intros n E. apply isort_ok.
Qed.

(* ---------- examples and refutations ---------- *)

(** Overlap diag(4, 1), two blocks of one function. *)
Definition ex_S : mat := fun i j => if Nat.eqb i j then (if Nat.eqb i 0 then 4 else 1) else 0.
Definition ex_X : mat := fun i j => if Nat.eqb i j then (if Nat.eqb i 0 then / 2 else 1) else 0.
Definition ex_F : mat := fun i j => if Nat.eqb i j then (if Nat.eqb i 0 then 8 else 1) else 0.
Definition ex_blocks : list (list nat) := [[0%nat]; [1%nat]].

Lemma sqrt_four : sqrt 4 = 2.
Proof. replace 4 with (2 * 2) by ring. apply sqrt_square. lra. Qed.
Ltac two i := destruct i as [|[|i]]; [| |lia].
Lemma ex_pd : positive_definite 2 ex_S.
Proof.
  split.
  - intros i j Hi Hj. two i; two j; unfold ex_S; cbn [Nat.eqb]; reflexivity.
  - intros v (i & Hi & Hv). unfold quad_form, ex_S. cbn [sum Nat.eqb].
    two i; nra.
Qed.
Lemma ex_partition : partition 2 ex_blocks.
Proof. unfold partition, ex_blocks. cbn [concat app seq]. apply Permutation_refl. Qed.
Lemma ex_block_diag A : (forall i j, i <> j -> A i j = 0) -> block_diagonal ex_blocks A.
Proof.
  intros HA k k' r s Hne Hr Hs. apply HA. unfold ex_blocks in *.
  destruct k as [|[|k]]; destruct k' as [|[|k']]; cbn [nth In] in *; try tauto; try (destruct k; simpl in Hr; tauto); try (destruct k'; simpl in Hs; tauto); lia.
Qed.
Lemma ex_S_diag i j : i <> j -> ex_S i j = 0.
Proof. intros H. unfold ex_S. destruct (Nat.eqb_spec i j); [tauto|reflexivity]. Qed.
Lemma ex_F_diag i j : i <> j -> ex_F i j = 0.
Proof. intros H. unfold ex_F. destruct (Nat.eqb_spec i j); [tauto|reflexivity]. Qed.

Lemma reqb_refl x : Reqb x x = true.
Proof. destruct (Reqb_spec x x); tauto. Qed.
Lemma rleb_refl x : Rleb x x = true.
Proof. destruct (Rleb_spec x x); [auto|lra]. Qed.
Lemma asc1 A : diag_ascending 1 A = true.
Proof. unfold diag_ascending. cbn [seq forallb Nat.eqb Nat.leb]. rewrite rleb_refl. reflexivity. Qed.

Lemma ex_Sinvh : exists X, basis_Sinvh diagonal_solvers ex_S false ex_blocks = Ok X.
Proof.
  unfold basis_Sinvh, ex_blocks. cbn [sinvh_blocks length Nat.eqb]. unfold invh. cbn [sv_eig diagonal_solvers]. rewrite !asc1. cbn [bind].
  eexists. reflexivity.
Qed.
Lemma ex_invh : exists X, invh diagonal_solvers 2 ex_S true = Ok X.
Proof.
  unfold invh. cbn [sv_llt diagonal_solvers].
  match goal with |- context [diag_positive 2 ?A] => assert (E : diag_positive 2 A = true) end.
  { unfold diag_positive. cbn [seq forallb Nat.eqb]. unfold ex_S. cbn [Nat.eqb]. rewrite sqrt_four, sqrt_1.
    destruct (Rltb_spec 0 (/ 2 * 4 * / 2)); [|lra]. destruct (Rltb_spec 0 (/ 1 * 1 * / 1)); [|lra].
    destruct (Reqb_spec (/ 2 * 0 * / 1) 0); [|lra]. destruct (Reqb_spec (/ 1 * 0 * / 2) 0); [reflexivity|lra]. }
  rewrite E. eexists. reflexivity.
Qed.
Lemma ex_half : half_inverse 2 ex_X ex_S /\ columns_in_blocks 2 2 ex_blocks ex_X /\ symmetric 2 ex_S /\ symmetric 2 ex_F.
Proof.
  split; [split|split; [|split]].
  - intros i j Hi Hj. two i; two j; unfold mmul, mT, ex_X, ex_S, mid; cbn [sum Nat.eqb]; lra.
  - intros i j Hi Hj. two i; two j; unfold mmul, mT, ex_X, ex_S, mid; cbn [sum Nat.eqb]; lra.
  - intros c Hc. exists c. split; [simpl; lia|]. intros r Hr Hx. unfold ex_X in Hx.
    destruct (Nat.eqb_spec r c) as [->|]; [|lra]. two c; unfold ex_blocks; cbn [nth In]; auto.
  - intros i j Hi Hj. two i; two j; unfold ex_S; cbn [Nat.eqb]; reflexivity.
  - intros i j Hi Hj. two i; two j; unfold ex_F; cbn [Nat.eqb]; reflexivity.
Qed.
Lemma ex_sub_columns : map (sub_columns 2 ex_X) ex_blocks = ex_blocks.
Proof.
  unfold ex_blocks, sub_columns. cbn [map seq filter lsum]. unfold ex_X. cbn [Nat.eqb].
  assert (E0 : sqrt (0 * 0 + 0) = 0) by (replace (0 * 0 + 0) with 0 by ring; apply sqrt_0).
  assert (E1 : sqrt (1 * 1 + 0) = 1) by (replace (1 * 1 + 0) with 1 by ring; apply sqrt_1).
  assert (E2 : sqrt (/ 2 * / 2 + 0) = / 2) by (rewrite Rplus_0_r; apply sqrt_square; lra).
  rewrite E0, E1, E2, !reqb_refl.
  destruct (Reqb_spec (/ 2) 0); [lra|]. destruct (Reqb_spec 1 0); [lra|]. reflexivity.
Qed.
Lemma ex_eig : exists EC, eig_gsym_sub diagonal_solvers 2 2 ex_F ex_X ex_blocks = Ok EC.
Proof.
  pose proof ex_sub_columns as HC. cbn [ex_blocks map] in HC. injection HC as H0 H1'.
  unfold eig_gsym_sub, ex_blocks. cbn [eig_blocks]. unfold eig_gsym. rewrite H0, H1'. cbn [length sv_eig diagonal_solvers]. rewrite !asc1. cbn [bind].
  cbn [Nat.leb Nat.add bind Nat.eqb negb]. eexists. reflexivity.
Qed.

(** A block of one function with a mirror image. *)
Definition ex_y : symblock := mkSym [0%nat] [1%nat] mid.
Definition ex_b : block := mkBlock 1 mid (fun _ => 2).
Lemma ex_blocks_ok : blocks_ok 2 [ex_y].
Proof.
  split; [|split].
  - intros y [<-|[]] r Hr. cbn [y_idx y_mirror ex_y app In] in Hr. lia.
  - cbn. repeat constructor; cbn; lia.
  - intros y [<-|[]]. right. reflexivity.
Qed.
Lemma ex_mirror : mirror_symmetric [ex_y] mid /\ orthonormalisers [ex_y] mid /\ orthonormal 1 ex_b.
Proof.
  split; [|split].
  - intros y a b [<-|[]] _ Ha Hb. cbn in Ha, Hb. assert (a = 0)%nat by lia. assert (b = 0)%nat by lia. subst. reflexivity.
  - intros y [<-|[]] n i j Hi Hj. cbn in Hi, Hj. assert (i = 0)%nat by lia. assert (j = 0)%nat by lia. subst.
    unfold n, mmul, mT, gather, mid. cbn. lra.
  - intros i j Hi Hj. cbn in Hi, Hj. assert (i = 0)%nat by lia. assert (j = 0)%nat by lia. subst. unfold mmul, mT, mid. cbn. lra.
Qed.
Lemma mirrored_not_saved : exists N bs P, blocks_ok N (map fst bs) /\ density bs mzero = Ok P /\
  let '(Pa, Pb) := final_restricted bs mzero mzero in exists p, (p < N)%nat /\ Pa p p + Pb p p <> P p p.
Proof.
  destruct (density_entry [(ex_y, ex_b)] mzero) as (P & E & HP).
  { intros y [<-|[]]. right. reflexivity. }
  exists 2%nat, [(ex_y, ex_b)], P. split; [exact ex_blocks_ok|]. split; auto.
  destruct (final_restricted [(ex_y, ex_b)] mzero mzero) as [Pa Pb] eqn:EF.
  exists 1%nat. split; [lia|]. rewrite HP.
  assert (Ha : Pa 1%nat 1%nat = 0) by (replace Pa with (fst (final_restricted [(ex_y, ex_b)] mzero mzero)) by (rewrite EF; auto); cbn; unfold store, mzero; cbn; reflexivity).
  assert (Hb : Pb 1%nat 1%nat = 0) by (replace Pb with (snd (final_restricted [(ex_y, ex_b)] mzero mzero)) by (rewrite EF; auto); cbn; unfold store, mzero; cbn; reflexivity).
  rewrite Ha, Hb. cbn [lsum fst snd]. unfold addition. cbn [y_mirror y_idx ex_y length b_m b_occ b_orb ex_b y_X].
  rewrite !scatter_add_entry. cbn [length sum ix nth Nat.eqb andb]. unfold mscal, block_density, mmul, mid, mzero. cbn [sum Nat.eqb]. lra.
Qed.

(** Loading a density in a basis with overlap 4: one electron becomes a sixteenth. *)
Lemma load_loses : exists sv (Sm X P : mat) b, solvers_ok sv /\ half_inverse 1 X Sm /\ tr 1 P Sm = 1 /\
  fill_block_from_density sv P [0%nat] X 1 = Ok b /\ occupation b = / 16.
Proof.
  exists diagonal_solvers, ex_S, ex_X, (fun _ _ => / 4).
  unfold fill_block_from_density. cbn [length Nat.eqb sv_eig diagonal_solvers]. rewrite asc1. eexists.
  split; [exact diagonal_solvers_ok|]. split; [|split; [|split; [reflexivity|]]].
  - split; intros i j Hi Hj; assert (i = 0)%nat by lia; assert (j = 0)%nat by lia; subst; unfold mmul, mT, ex_X, ex_S, mid; cbn [sum Nat.eqb]; lra.
  - unfold tr, ex_S. cbn [sum Nat.eqb]. lra.
  - unfold occupation. cbn [b_m b_occ sum Nat.sub]. unfold mmul, mT, gather, ex_X. cbn [sum Nat.eqb ix nth].
    unfold Rmin, Rmax. repeat destruct (Rle_dec _ _); lra.
Qed.

(** Loading is exact when the overlap is the unit matrix: example. *)
Lemma ex_load : exists b, fill_block_from_density diagonal_solvers (fun _ _ => / 4) [0%nat] mid 1 = Ok b /\
  spectrum_in 1 (mmul 1 (mmul 1 (mT mid) (gather (fun _ _ => / 4) [0%nat] [0%nat])) mid) 0 1.
Proof.
  unfold fill_block_from_density. cbn [length Nat.eqb sv_eig diagonal_solvers]. rewrite asc1. eexists. split; [reflexivity|].
  intros v. unfold quad_form, mmul, mT, gather, mid. cbn [sum Nat.eqb]. nra.
Qed.

(** One function: identity maps for Coulomb and exchange, a quadratic functional. *)
Definition ex_driver (bz : R) : driver :=
  mkDriver 1 mid (fun _ _ => 1) (fun _ _ => - 2) (fun _ _ => 3) (fun _ _ => 4) (fun b _ _ => b * b) true (fun _ _ => 5) 1 1 bz 1 1 1.
Definition ex_xc (P : mat) : R * mat := (P 0%nat 0%nat * P 0%nat 0%nat, fun _ _ => 2 * P 0%nat 0%nat).
Definition ex_xc2 (Pa Pb : mat) : R * (mat * mat) :=
  (Pa 0%nat 0%nat * Pb 0%nat 0%nat, (fun _ _ => Pb 0%nat 0%nat, fun _ _ => Pa 0%nat 0%nat)).
Lemma ex_linear : linear_symmetric 1 (fun A => A).
Proof. split; [intros A B t _ _ i j _ _; reflexivity|intros A B _ _; apply tr_comm]. Qed.
Lemma ex_xc_ok : xc_gradient1 1 ex_xc /\ xc_gradient2 1 ex_xc2.
Proof.
  split.
  - intros P D _ _. unfold ex_xc. cbn [fst snd]. set (p := P 0%nat 0%nat). set (q := D 0%nat 0%nat).
    replace (tr 1 D (fun _ _ => 2 * p)) with (2 * p * q) by (unfold tr; cbn [sum]; fold q; ring).
    replace (fun t => madd P (mscal t D) 0%nat 0%nat * madd P (mscal t D) 0%nat 0%nat) with (fun t => p * p + 2 * p * q * t + q * q * (t * t)).
    + apply deriv_quadratic.
    + apply functional_extensionality. intros t. unfold madd, mscal. fold p. fold q. ring.
  - intros Pa Pb Da Db _ _ _ _. unfold ex_xc2. cbn [fst snd].
    set (p := Pa 0%nat 0%nat). set (p' := Pb 0%nat 0%nat). set (q := Da 0%nat 0%nat). set (q' := Db 0%nat 0%nat).
    replace (tr 1 Da (fun _ _ => p') + tr 1 Db (fun _ _ => p)) with (q * p' + q' * p) by (unfold tr; cbn [sum]; fold q; fold q'; ring).
    replace (fun t => madd Pa (mscal t Da) 0%nat 0%nat * madd Pb (mscal t Db) 0%nat 0%nat) with (fun t => p * p' + (q * p' + q' * p) * t + q * q' * (t * t)).
    + apply deriv_quadratic.
    + apply functional_extensionality. intros t. unfold madd, mscal. fold p. fold q. fold p'. fold q'. ring.
Qed.
Lemma ex_bfield bz : meq 1 1 (d_Bfield (ex_driver bz) 0) mzero.
Proof. intros i j _ _. cbn. unfold mzero. ring. Qed.

Lemma fock_block_meq F G idx X : (forall p q, In p idx -> In q idx -> F p q = G p q) -> let n := length idx in
  meq n n (fock_block F idx X) (fock_block G idx X).
Proof.
  intros H n i j Hi Hj. unfold fock_block. fold n. rewrite !sandwich. apply sum_ext. intros p Hp. apply sum_ext. intros q Hq.
  unfold gather. rewrite H by (apply ix_in; auto). reflexivity.
Qed.
Lemma core_guess d coul idx X : meq (d_N d) (d_N d) (coul mzero) mzero -> (forall r, In r idx -> (r < d_N d)%nat) ->
  meq (d_N d) (d_N d) (coul (madd mzero mzero)) mzero ->
  let n := length idx in
  meq n n (coreH_block (H1 d) (d_S d) idx X 1 0 (have_bfield d) (d_Bz d)) (fock_block (snd (build_restricted d coul None None mzero)) idx X) /\
  meq n n (coreH_block (H1 d) (d_S d) idx X 2 0 (have_bfield d) (d_Bz d)) (fock_block (fst (snd (build_unrestricted d coul None None mzero mzero))) idx X) /\
  meq n n (coreH_block (H1 d) (d_S d) idx X 2 1 (have_bfield d) (d_Bz d)) (fock_block (snd (snd (build_unrestricted d coul None None mzero mzero))) idx X).
Proof.
  intros HJ Hlt HJ2 n.
  assert (E : forall nt t, coreH_block (H1 d) (d_S d) idx X nt t (have_bfield d) (d_Bz d) =
     fock_block (if (have_bfield d && Nat.eqb nt 2)%bool then madd (H1 d) (mscal ((if Nat.eqb t 0 then - / 2 else / 2) * d_Bz d) (d_S d)) else H1 d) idx X).
  { intros nt t. unfold coreH_block, fock_block. fold n. destruct (_ && _)%bool; reflexivity. }
  split; [|split].
  - rewrite (E 1%nat 0%nat). rewrite andb_false_r. apply fock_block_meq. intros p q Hp Hq.
    unfold build_restricted, madd. cbn [snd]. rewrite HJ by auto. unfold mzero. ring.
  - rewrite (E 2%nat 0%nat). rewrite andb_true_r. apply fock_block_meq. intros p q Hp Hq.
    unfold build_unrestricted. cbn [fst snd Nat.eqb]. destruct (have_bfield d); unfold madd at 1; [unfold madd at 2|].
    + unfold madd at 1. rewrite HJ2 by auto. unfold mscal, mzero. ring.
    + unfold madd in HJ2. unfold madd. rewrite HJ2 by auto. unfold mzero. ring.
  - rewrite (E 2%nat 1%nat). rewrite andb_true_r. apply fock_block_meq. intros p q Hp Hq.
    unfold build_unrestricted. cbn [fst snd Nat.eqb]. destruct (have_bfield d); unfold madd at 1; [unfold madd at 2|].
    + unfold madd at 1. rewrite HJ2 by auto. unfold mscal, mzero. ring.
    + unfold madd in HJ2. unfold madd. rewrite HJ2 by auto. unfold mzero. ring.
Qed.
Lemma ex_project : half_inverse 2 ex_X ex_S /\ 0 < tr 2 ex_S ex_S.
Proof. split; [apply ex_half|]. unfold tr, ex_S. cbn [sum Nat.eqb]. lra. Qed.
