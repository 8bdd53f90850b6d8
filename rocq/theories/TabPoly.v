(** Inside the table the lookup evaluates the interpolating polynomial. *)
Require Import Reals Lra Lia List Arith Bool ZArith.
Require Import Verif.Prelude Verif.TabModel Verif.TabSpec Verif.TabProofs.
Import ListNotations.
Open Scope R_scope.

(** Lists of coefficients: sum, multiple, product with (x - a) k. *)
Fixpoint padd (a b : list R) : list R :=
  match a, b with [], _ => b | _, [] => a | x :: a, y :: b => (x + y) :: padd a b end.
Definition pscal (k : R) (a : list R) : list R := map (Rmult k) a.
Definition plin (a k : R) (c : list R) : list R := padd (0 :: pscal k c) (pscal (- a * k) c).
Lemma padd_ok : forall a b x, poly (padd a b) x = poly a x + poly b x.
Proof. induction a as [|y a IH]; intros [|z b] x; cbn [padd poly]; try ring. rewrite IH. ring. Qed.
Lemma pscal_ok k a x : poly (pscal k a) x = k * poly a x.
Proof. induction a as [|y a IH]; cbn [pscal map poly]; [ring|]. fold (pscal k a). rewrite IH. ring. Qed.
Lemma plin_ok a k c x : poly (plin a k c) x = (x - a) * k * poly c x.
Proof. unfold plin. rewrite padd_ok. cbn [poly]. rewrite !pscal_ok. ring. Qed.
Lemma padd_len : forall a b, List.length (padd a b) = Nat.max (List.length a) (List.length b).
Proof. induction a as [|y a IH]; intros [|z b]; cbn [padd List.length]; try lia. rewrite IH. lia. Qed.
Lemma plin_len a k c : List.length (plin a k c) = S (List.length c).
Proof. unfold plin. rewrite padd_len. cbn [List.length]. unfold pscal. rewrite !map_length. lia. Qed.

Section Lagrange.
Variable (xi : vec).
Definition factor (i : nat) (x li : R) (j : nat) : R := if (i =? j)%nat then li else li * ((x - xi j) / (xi i - xi j)).
Lemma fold_coef i : forall l c, exists c', (List.length c' <= List.length c + List.length (filter (fun j => negb (i =? j)%nat) l))%nat /\
  forall x, poly c' x = fold_left (factor i x) l (poly c x).
Proof.
  induction l as [|j l IH]; intros c; [exists c; split; [lia|reflexivity]|].
  cbn [fold_left filter]. unfold factor at 2. destruct (Nat.eqb_spec i j) as [E|E]; cbn [negb].
  - apply IH.
  - destruct (IH (plin (xi j) (/ (xi i - xi j)) c)) as (c' & H1 & H2). exists c'. rewrite plin_len in H1. split; [cbn [List.length]; lia|].
    intros x. rewrite H2, plin_ok. f_equal. unfold Rdiv. ring.
Qed.
Lemma filter_none i : forall n a, (i < a)%nat -> List.length (filter (fun j => negb (i =? j)%nat) (seq a n)) = n.
Proof.
  induction n as [|n IH]; intros a Ha; [reflexivity|]. cbn [seq filter]. destruct (Nat.eqb_spec i a); [lia|]. cbn [negb List.length]. rewrite IH by lia. reflexivity.
Qed.
Lemma filter_one i : forall n a, (a <= i < a + n)%nat -> S (List.length (filter (fun j => negb (i =? j)%nat) (seq a n))) = n.
Proof.
  induction n as [|n IH]; intros a Ha; [lia|]. cbn [seq filter]. destruct (Nat.eqb_spec i a) as [E|E]; cbn [negb].
  - rewrite filter_none by lia. reflexivity.
  - cbn [List.length]. rewrite IH by lia. reflexivity.
Qed.
Lemma fold_zero i x : forall l, fold_left (factor i x) l 0 = 0.
Proof. induction l as [|j l IH]; [reflexivity|]. cbn [fold_left]. unfold factor at 2. destruct (i =? j)%nat; [exact IH|]. rewrite Rmult_0_l. exact IH. Qed.
Lemma fold_hit i k : k <> i -> forall l a, In k l -> fold_left (factor i (xi k)) l a = 0.
Proof.
  intros Hk. induction l as [|j l IH]; intros a Hin; [destruct Hin|]. cbn [fold_left]. destruct (Nat.eq_dec j k) as [->|E].
  - unfold factor at 2. destruct (Nat.eqb_spec i k); [congruence|]. replace (xi k - xi k) with 0 by ring. unfold Rdiv. rewrite Rmult_0_l, Rmult_0_r. apply fold_zero.
  - apply IH. destruct Hin as [H|H]; [congruence|exact H].
Qed.
Lemma fold_self i : forall l, (forall j, In j l -> j <> i -> xi i <> xi j) -> fold_left (factor i (xi i)) l 1 = 1.
Proof.
  induction l as [|j l IH]; intros H; [reflexivity|]. cbn [fold_left]. unfold factor at 2. destruct (Nat.eqb_spec i j) as [E|E].
  - apply IH. intros k Hk. apply H. right. exact Hk.
  - replace (1 * ((xi i - xi j) / (xi i - xi j))) with 1; [apply IH; intros k Hk; apply H; right; exact Hk|].
    field. assert (xi i <> xi j) by (apply H; [left; reflexivity|congruence]). lra.
Qed.
Lemma lagrange_sum n yi x : lagrange n xi yi x = sum n (fun i => yi i * fold_left (factor i x) (seq 0 n) 1).
Proof.
  unfold lagrange. cbv zeta. 
  assert (G : forall (g : nat -> R) l a, fold_left (fun y i => y + g i) l a = a + lsum l g).
  { intros g. induction l as [|k l IH]; intros a; [cbn; ring|]. cbn [fold_left lsum]. rewrite IH. ring. }
  rewrite (G (fun i => yi i * fold_left (factor i x) (seq 0 n) 1)). rewrite Rplus_0_l, lsum_seq0. reflexivity.
Qed.
Lemma lagrange_coef n yi : exists c, (List.length c <= n)%nat /\ forall x, poly c x = lagrange n xi yi x.
Proof.
  assert (G : forall m, (m <= n)%nat -> exists c, (List.length c <= n)%nat /\ forall x, poly c x = sum m (fun i => yi i * fold_left (factor i x) (seq 0 n) 1)).
  { induction m as [|m IH]; intros Hm; [exists []; split; [cbn; lia|reflexivity]|].
    destruct (IH ltac:(lia)) as (c & Hc & Ec). destruct (fold_coef m (seq 0 n) [1]) as (d & Hd & Ed).
    pose proof (filter_one m n 0 ltac:(lia)) as F. cbn [List.length] in Hd.
    exists (padd c (pscal (yi m) d)). split.
    - rewrite padd_len. unfold pscal. rewrite map_length. lia.
    - intros x. rewrite padd_ok, pscal_ok, Ec, Ed. cbn [sum poly]. rewrite Rmult_0_r, Rplus_0_r. reflexivity. }
  destruct (G n (Nat.le_refl n)) as (c & Hc & Ec). exists c. split; [exact Hc|]. intros x. rewrite Ec, lagrange_sum. reflexivity.
Qed.
Lemma lagrange_knot n yi k : (k < n)%nat -> (forall i j, (i < n)%nat -> (j < n)%nat -> i <> j -> xi i <> xi j) -> lagrange n xi yi (xi k) = yi k.
Proof.
  intros Hk Hd. rewrite lagrange_sum. rewrite (sum_single n k); [|exact Hk|].
  - rewrite fold_self; [ring|]. intros j Hj Hne. apply in_seq in Hj. apply Hd; [exact Hk|lia|congruence].
  - intros i Hi Hne. rewrite (fold_hit i k); [ring|congruence|apply in_seq; lia].
Qed.
End Lagrange.

(** The value is a polynomial with [ord] coefficients through [ord] consecutive entries
    around the radius. *)
Lemma sap_polynomial nelem nrad ord tab Z fuel x : rising nrad (tab 0%nat) -> (1 <= ord <= nrad)%nat -> (1 <= Z < Z.of_nat nelem)%Z ->
  (nrad <= fuel)%nat -> 0 < x < tab 0%nat (nrad - 1)%nat ->
  exists w l c, (w + ord <= nrad)%nat /\ (w <= l < w + ord)%nat /\ (l + ord <= nrad -> w = l)%nat /\
    (l + 1 < nrad)%nat /\ tab 0%nat l <= x <= tab 0%nat (l + 1)%nat /\
    (List.length c <= ord)%nat /\ (forall i, (i < ord)%nat -> poly c (tab 0%nat (w + i)%nat) = tab (Z.to_nat Z) (w + i)%nat) /\
    sap_effective_charge nelem nrad ord tab fuel Z (Fin x) = Ok (poly c x).
Proof.
  intros Hr Ho HZ Hf Hx. assert (Hn : (2 <= nrad)%nat).
  { destruct nrad as [|[|n]]; [lia| |lia]. cbn [Nat.sub] in Hx. rewrite (proj1 Hr) in Hx. lra. }
  assert (P : forall w, (w + ord <= nrad)%nat -> exists c, (List.length c <= ord)%nat /\ (forall i, (i < ord)%nat -> poly c (tab 0%nat (w + i)%nat) = tab (Z.to_nat Z) (w + i)%nat) /\
    forall x, poly c x = lagrange ord (fun i => tab 0%nat (w + i)%nat) (fun i => tab (Z.to_nat Z) (w + i)%nat) x).
  { intros w Hw. destruct (lagrange_coef (fun i => tab 0%nat (w + i)%nat) ord (fun i => tab (Z.to_nat Z) (w + i)%nat)) as (c & Hc & Ec).
    exists c. split; [exact Hc|]. split; [|exact Ec]. intros i Hi. rewrite Ec.
    apply (lagrange_knot (fun i => tab 0%nat (w + i)%nat) ord (fun i => tab (Z.to_nat Z) (w + i)%nat) i Hi).
    intros a b Ha Hb Hab. destruct (Nat.lt_total a b) as [H|[H|H]]; [|lia|].
    - assert (tab 0%nat (w + a)%nat < tab 0%nat (w + b)%nat) by (apply Hr; lia). lra.
    - assert (tab 0%nat (w + b)%nat < tab 0%nat (w + a)%nat) by (apply Hr; lia). lra. }
  destruct (sap_inside nelem nrad ord tab Hr Z fuel x Ho HZ Hf Hx) as [(i & Hi & Ei & Ev)|(l & Hl & Hxl & Ev)].
  - assert (Hi1 : (i + 1 < nrad)%nat).
    { destruct (Nat.eq_dec i (nrad - 1)) as [->|]; [lra|lia]. }
    assert (Hlt : tab 0%nat i < tab 0%nat (i + 1)%nat) by (apply Hr; lia).
    destruct (window_ok nrad ord i Ho Hi) as (W1 & W2 & W3 & W4). set (w := window nrad ord i) in *.
    destruct (P w W1) as (c & Hc & Hk & _). exists w, i, c. split; [exact W1|]. split; [lia|]. split; [exact W3|]. split; [exact Hi1|]. split; [lra|].
    split; [exact Hc|]. split; [exact Hk|]. rewrite Ev, <- Ei. f_equal. specialize (Hk (i - w)%nat ltac:(lia)). replace (w + (i - w))%nat with i in Hk by lia. symmetry. exact Hk.
  - destruct (window_ok nrad ord l Ho ltac:(lia)) as (W1 & W2 & W3 & W4). set (w := window nrad ord l) in *.
    destruct (P w W1) as (c & Hc & Hk & Ec). exists w, l, c. split; [exact W1|]. split; [lia|]. split; [exact W3|]. split; [exact Hl|]. split; [lra|].
    split; [exact Hc|]. split; [exact Hk|]. rewrite Ev, Ec. reflexivity.
Qed.
