(** Common vocabulary of the model: outcomes of a C++ call, finite sums,
    matrices as functions, comparisons on the reals.  Nothing here models a
    particular function of the code. *)
Require Import Reals ZArith List Bool Arith Lia Lra Permutation.
Import ListNotations.
Local Open Scope R_scope.

(** Kinds of C++ exceptions thrown by the code. *)
Inductive exn := LogicError | RuntimeError | InvalidArgument | DomainError.

(** Outcome of a call: a value, an exception, undefined behaviour (reading or
    writing outside a container), or a loop that did not finish within the
    fuel it was given. *)
Inductive res (A : Type) : Type :=
| Ok (a : A)
| Throw (e : exn)
| UB
| OutOfFuel.
Arguments Ok {A} a.
Arguments Throw {A} e.
Arguments UB {A}.
Arguments OutOfFuel {A}.

Definition bind {A B} (x : res A) (f : A -> res B) : res B :=
  match x with
  | Ok a => f a
  | Throw e => Throw e
  | UB => UB
  | OutOfFuel => OutOfFuel
  end.

(** Boolean comparisons of real numbers. *)
Definition Rleb (x y : R) : bool := if Rle_dec x y then true else false.
Definition Rltb (x y : R) : bool := if Rlt_dec x y then true else false.
Definition Reqb (x y : R) : bool := if Req_EM_T x y then true else false.

Lemma Rleb_spec x y : reflect (x <= y) (Rleb x y).
Proof. unfold Rleb; destruct (Rle_dec x y); constructor; auto. Qed.
Lemma Rltb_spec x y : reflect (x < y) (Rltb x y).
Proof. unfold Rltb; destruct (Rlt_dec x y); constructor; auto. Qed.
Lemma Reqb_spec x y : reflect (x = y) (Reqb x y).
Proof. unfold Reqb; destruct (Req_EM_T x y); constructor; auto. Qed.

(** [sum n f] is f 0 + ... + f (n-1). *)
Fixpoint sum (n : nat) (f : nat -> R) : R :=
  match n with
  | O => 0
  | S n' => sum n' f + f n'
  end.

(** Sum over a list. *)
Fixpoint lsum {A} (l : list A) (f : A -> R) : R :=
  match l with
  | nil => 0
  | a :: l' => f a + lsum l' f
  end.

(** Matrices and vectors as functions; the dimensions are carried separately. *)
Definition vec := nat -> R.
Definition mat := nat -> nat -> R.

Definition mzero : mat := fun _ _ => 0.
Definition mT (A : mat) : mat := fun i j => A j i.
Definition madd (A B : mat) : mat := fun i j => A i j + B i j.
Definition mscal (c : R) (A : mat) : mat := fun i j => c * A i j.
(** Product with inner dimension k. *)
Definition mmul (k : nat) (A B : mat) : mat := fun i j => sum k (fun l => A i l * B l j).
Definition mid : mat := fun i j => if Nat.eqb i j then 1 else 0.

(** Boundary vectors: every value strictly below every later one. *)
Definition increasing (l : list R) : Prop :=
  forall i j, (i < j)%nat -> (j < length l)%nat -> nth i l 0 < nth j l 0.

(* ------------------------------------------------------------------ *)
(* Lemmas on sums *)

Lemma sum_ext n f g : (forall i, (i < n)%nat -> f i = g i) -> sum n f = sum n g.
Proof.
  induction n; intros H; simpl; auto.
  rewrite IHn by (intros; apply H; lia). rewrite H by lia. reflexivity.
Qed.

Lemma sum_zero n : sum n (fun _ => 0) = 0.
Proof. induction n; simpl; auto. rewrite IHn. ring. Qed.

Lemma sum_zero' n f : (forall i, (i < n)%nat -> f i = 0) -> sum n f = 0.
Proof. intros. rewrite (sum_ext n f (fun _ => 0)); auto. apply sum_zero. Qed.

Lemma sum_plus n f g : sum n (fun i => f i + g i) = sum n f + sum n g.
Proof. induction n; simpl. ring. rewrite IHn. ring. Qed.

Lemma sum_minus n f g : sum n (fun i => f i - g i) = sum n f - sum n g.
Proof. induction n; simpl. ring. rewrite IHn. ring. Qed.

Lemma sum_scal n c f : sum n (fun i => c * f i) = c * sum n f.
Proof. induction n; simpl. ring. rewrite IHn. ring. Qed.

Lemma sum_scal_r n c f : sum n (fun i => f i * c) = sum n f * c.
Proof. induction n; simpl. ring. rewrite IHn. ring. Qed.

Lemma sum_opp n f : sum n (fun i => - f i) = - sum n f.
Proof. induction n; simpl. ring. rewrite IHn. ring. Qed.

Lemma sum_swap n m f :
  sum n (fun i => sum m (fun j => f i j)) = sum m (fun j => sum n (fun i => f i j)).
Proof.
  induction n; simpl.
  - now rewrite sum_zero.
  - rewrite IHn, <- sum_plus. reflexivity.
Qed.

Lemma sum_single n k f : (k < n)%nat ->
  (forall i, (i < n)%nat -> i <> k -> f i = 0) -> sum n f = f k.
Proof.
  induction n; intros Hk H; [lia|]. simpl.
  destruct (Nat.eq_dec k n) as [->|Hne].
  - rewrite (sum_zero' n f) by (intros; apply H; lia). ring.
  - rewrite IHn by (try lia; intros; apply H; lia). rewrite (H n) by lia. ring.
Qed.

Lemma sum_indicator n k (f : nat -> R) :
  sum n (fun i => (if Nat.eqb i k then 1 else 0) * f i) =
  if Nat.ltb k n then f k else 0.
Proof.
  destruct (Nat.ltb_spec k n).
  - rewrite (sum_single n k); auto.
    + rewrite Nat.eqb_refl. ring.
    + intros i Hi Hne. destruct (Nat.eqb_spec i k); [lia|ring].
  - apply sum_zero'. intros i Hi. destruct (Nat.eqb_spec i k); [lia|ring].
Qed.

Lemma sum_split n m f : sum (n + m) f = sum n f + sum m (fun i => f (n + i)%nat).
Proof.
  induction m; simpl.
  - rewrite Nat.add_0_r. ring.
  - rewrite Nat.add_succ_r. simpl. rewrite IHm. ring.
Qed.

Lemma sum_shift n f : sum (S n) f = f 0%nat + sum n (fun i => f (S i)).
Proof.
  induction n.
  - simpl. ring.
  - change (sum (S (S n)) f) with (sum (S n) f + f (S n)).
    rewrite IHn. simpl. ring.
Qed.

Lemma sum_nonneg n f : (forall i, (i < n)%nat -> 0 <= f i) -> 0 <= sum n f.
Proof.
  induction n; intros H; simpl; [lra|].
  assert (0 <= sum n f) by (apply IHn; intros; apply H; lia).
  assert (0 <= f n) by (apply H; lia). lra.
Qed.

Lemma sum_le n f g : (forall i, (i < n)%nat -> f i <= g i) -> sum n f <= sum n g.
Proof.
  induction n; intros H; simpl; [lra|].
  assert (sum n f <= sum n g) by (apply IHn; intros; apply H; lia).
  assert (f n <= g n) by (apply H; lia). lra.
Qed.

(** A double sum as one sum over the column-major flattened index. *)
Lemma sum_flatten n m f :
  sum (n * m) (fun k => f (k / m)%nat (k mod m)%nat) =
  sum n (fun i => sum m (fun j => f i j)).
Proof.
  destruct (Nat.eq_dec m 0) as [->|Hm].
  - rewrite Nat.mul_0_r. simpl. now rewrite sum_zero.
  - induction n; simpl; auto.
    rewrite Nat.add_comm, sum_split, IHn. f_equal.
    apply sum_ext. intros j Hj.
    rewrite Nat.add_comm, Nat.div_add, Nat.mod_add by auto.
    rewrite Nat.div_small, Nat.mod_small by auto. reflexivity.
Qed.

Lemma sum_window n a k f : (a + k <= n)%nat ->
  sum n (fun i => if (Nat.leb a i && Nat.ltb i (a + k))%bool then f i else 0) =
  sum k (fun i => f (a + i)%nat).
Proof.
  intros H.
  replace n with (a + (k + (n - a - k)))%nat at 1 by lia.
  rewrite !sum_split.
  rewrite (sum_zero' a).
  2:{ intros i Hi. destruct (Nat.leb_spec a i); [lia|reflexivity]. }
  rewrite (sum_ext k _ (fun i => f (a + i)%nat)).
  2:{ intros i Hi. destruct (Nat.leb_spec a (a + i)); [|lia].
      destruct (Nat.ltb_spec (a + i) (a + k)); [reflexivity|lia]. }
  rewrite (sum_zero' (n - a - k)).
  2:{ intros i Hi. destruct (Nat.ltb_spec (a + (k + i)) (a + k)); [lia|].
      rewrite Bool.andb_false_r. reflexivity. }
  ring.
Qed.

Lemma lsum_app {A} (l1 l2 : list A) f : lsum (l1 ++ l2) f = lsum l1 f + lsum l2 f.
Proof. induction l1; simpl. ring. rewrite IHl1. ring. Qed.

Lemma lsum_perm {A} (l1 l2 : list A) f : Permutation l1 l2 -> lsum l1 f = lsum l2 f.
Proof. induction 1; simpl; lra. Qed.

Lemma lsum_ext {A} (l : list A) f g : (forall a, In a l -> f a = g a) -> lsum l f = lsum l g.
Proof.
  induction l; intros H; simpl; auto.
  rewrite H by (left; auto). rewrite IHl; auto. intros; apply H; right; auto.
Qed.

Lemma lsum_seq n a f : lsum (seq a n) f = sum n (fun i => f (a + i)%nat).
Proof.
  revert a. induction n; intros a; auto.
  cbn [seq lsum]. rewrite IHn, sum_shift, Nat.add_0_r. f_equal.
  apply sum_ext. intros. f_equal. lia.
Qed.

Lemma lsum_seq0 n f : lsum (seq 0 n) f = sum n f.
Proof. rewrite lsum_seq. apply sum_ext. reflexivity. Qed.

Lemma lsum_map {A B} (g : A -> B) l f : lsum (map g l) f = lsum l (fun a => f (g a)).
Proof. induction l; simpl; auto. now rewrite IHl. Qed.

Lemma lsum_plus {A} (l : list A) f g : lsum l (fun a => f a + g a) = lsum l f + lsum l g.
Proof. induction l; simpl. ring. rewrite IHl. ring. Qed.

Lemma lsum_scal {A} (l : list A) c f : lsum l (fun a => c * f a) = c * lsum l f.
Proof. induction l; simpl. ring. rewrite IHl. ring. Qed.

Lemma lsum_zero {A} (l : list A) f : (forall a, In a l -> f a = 0) -> lsum l f = 0.
Proof.
  induction l; intros H; simpl; auto.
  rewrite H by (left; auto). rewrite IHl; [ring|]. intros; apply H; right; auto.
Qed.

Lemma lsum_filter {A} (p : A -> bool) l f :
  lsum (filter p l) f = lsum l (fun a => if p a then f a else 0).
Proof. induction l; simpl; auto. destruct (p a); simpl; rewrite IHl; ring. Qed.

Lemma lsum_sum_swap {A} (l : list A) n f :
  lsum l (fun a => sum n (fun i => f a i)) = sum n (fun i => lsum l (fun a => f a i)).
Proof.
  induction l; simpl. now rewrite sum_zero. rewrite IHl, <- sum_plus. reflexivity.
Qed.

Lemma mmul_assoc n m A B C i j :
  mmul m (mmul n A B) C i j = mmul n A (mmul m B C) i j.
Proof.
  unfold mmul.
  rewrite (sum_ext m _ (fun l => sum n (fun k => A i k * B k l * C l j))).
  2:{ intros. now rewrite <- sum_scal_r. }
  rewrite sum_swap. apply sum_ext. intros k Hk.
  rewrite <- sum_scal. apply sum_ext. intros. ring.
Qed.

Lemma mmul_id_l n A i j : (i < n)%nat -> mmul n mid A i j = A i j.
Proof.
  intros H. unfold mmul, mid.
  rewrite (sum_single n i); auto.
  - rewrite Nat.eqb_refl. ring.
  - intros k Hk Hne. destruct (Nat.eqb_spec i k); [lia|ring].
Qed.

Lemma mmul_id_r n A i j : (j < n)%nat -> mmul n A mid i j = A i j.
Proof.
  intros H. unfold mmul, mid.
  rewrite (sum_single n j); auto.
  - rewrite Nat.eqb_refl. ring.
  - intros k Hk Hne. destruct (Nat.eqb_spec k j); [lia|ring].
Qed.

Lemma mmul_T n A B i j : mmul n A B i j = mmul n (mT B) (mT A) j i.
Proof. unfold mmul, mT. apply sum_ext. intros. ring. Qed.

(** A floating-point argument where NaN or an infinity changes the control
    flow: IEEE comparisons, every comparison with NaN false. *)
Inductive fp := Fin (r : R) | PInf | NInf | NaN.

Definition fleb (x y : fp) : bool :=
  match x, y with
  | NaN, _ => false
  | _, NaN => false
  | Fin a, Fin b => Rleb a b
  | NInf, _ => true
  | _, PInf => true
  | _, _ => false
  end.

Definition fltb (x y : fp) : bool :=
  match x, y with
  | NaN, _ => false
  | _, NaN => false
  | Fin a, Fin b => Rltb a b
  | NInf, NInf => false
  | NInf, _ => true
  | PInf, _ => false
  | _, PInf => true
  | _, NInf => false
  end.

(** Ascending insertion sort: std::sort on scalars. *)
Fixpoint insertR (x : R) (l : list R) : list R :=
  match l with
  | nil => [x]
  | y :: l' => if Rleb x y then x :: l else y :: insertR x l'
  end.
Definition sortR (l : list R) : list R := fold_right insertR nil l.

(** Eigen's v.segment(pos, len): out-of-range segments are undefined. *)
Definition segment {A} (pos len : Z) (l : list A) : res (list A) :=
  if ((0 <=? pos) && (0 <=? len) && (pos + len <=? Z.of_nat (length l)))%Z
  then Ok (firstn (Z.to_nat len) (skipn (Z.to_nat pos) l))
  else UB.

(** v(i): out-of-range access is undefined. *)
Definition at_ {A} (l : list A) (i : Z) : res A :=
  if (i <? 0)%Z then UB
  else match nth_error l (Z.to_nat i) with Some a => Ok a | None => UB end.
