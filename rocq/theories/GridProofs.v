(** Lemmas on the grid constructors. *)
Require Import Reals ZArith List Bool Arith Lia Lra Permutation.
Require Import Verif.Prelude Verif.GridModel Verif.GridSpec Verif.FEProofs.
Import ListNotations.
Local Open Scope R_scope.

(* ---------- increasing lists ---------- *)

Lemma increasing_app l1 l2 : increasing l1 -> increasing l2 ->
  (forall a b, In a l1 -> In b l2 -> a < b) -> increasing (l1 ++ l2).
Proof.
  intros H1 H2 H i j Hij Hj. rewrite app_length in Hj.
  destruct (lt_dec j (length l1)).
  - rewrite !app_nth1 by lia. apply H1; lia.
  - rewrite (@app_nth2 R l1 l2 0 j) by lia. destruct (lt_dec i (length l1)).
    + rewrite app_nth1 by lia. apply H; apply nth_In; lia.
    + rewrite app_nth2 by lia. apply H2; lia.
Qed.

Lemma increasing_inv_cons a l : increasing (a :: l) -> increasing l /\ forall b, In b l -> a < b.
Proof.
  intros H. split.
  - intros i j Hij Hj. specialize (H (S i) (S j)). simpl in H. apply H; lia.
  - intros b Hb. apply (In_nth l b 0) in Hb. destruct Hb as (k & Hk & <-).
    specialize (H 0%nat (S k)). simpl in H. apply H; lia.
Qed.

Lemma increasing_map_seq f a n :
  (forall i j, (a <= i)%nat -> (i < j)%nat -> (j < a + n)%nat -> f i < f j) ->
  increasing (map f (seq a n)).
Proof.
  intros H i j Hij Hj. rewrite map_length, seq_length in Hj.
  rewrite (nth_indep _ 0 (f 0%nat)), (nth_indep _ 0 (f 0%nat)) by (rewrite map_length, seq_length; lia).
  rewrite !map_nth, !seq_nth by lia. apply H; lia.
Qed.

Lemma increasing_map (g : R -> R) l : (forall x y, x < y -> g x < g y) ->
  increasing l -> increasing (map g l).
Proof.
  intros Hg H i j Hij Hj. rewrite map_length in Hj.
  rewrite (nth_indep _ 0 (g 0)), (nth_indep _ 0 (g 0)) by (rewrite map_length; lia).
  rewrite !map_nth. apply Hg, H; lia.
Qed.

Lemma last_map {A B} (g : A -> B) l d : l <> nil -> last (map g l) (g d) = g (last l d).
Proof.
  intros H. induction l; [tauto|]. destruct l; [reflexivity|].
  simpl in *. apply IHl. discriminate.
Qed.

Lemma last_indep {A} (l : list A) d d' : l <> nil -> last l d = last l d'.
Proof. induction l; [tauto|]. destruct l; auto. simpl in *. intros _. apply IHl. discriminate. Qed.

Lemma last_app_r {A} (l1 l2 : list A) d : l2 <> nil -> last (l1 ++ l2) d = last l2 d.
Proof.
  intros H. induction l1; auto. simpl. destruct (l1 ++ l2) eqn:E; auto.
  apply app_eq_nil in E. tauto.
Qed.

Lemma last_in {A} (l : list A) d : l <> nil -> In (last l d) l.
Proof.
  induction l; [tauto|]. intros _. destruct l; [left; auto|]. right. apply IHl. discriminate.
Qed.

Lemma last_seq_map (f : nat -> R) n d : last (map f (seq 0 (n + 1))) d = f n.
Proof.
  rewrite Nat.add_1_r, seq_S, map_app, last_app_r by discriminate. reflexivity.
Qed.

(* ---------- the snapped end points ---------- *)

Lemma set_nth_hd x l : hd_error l = Some x -> set_nth 0 x l = l.
Proof. destruct l; simpl; congruence. Qed.

Lemma set_nth_last l d : l <> nil -> set_nth (length l - 1) (last l d) l = l.
Proof.
  intros H. induction l; [tauto|]. destruct l; [reflexivity|].
  replace (length (a :: r :: l) - 1)%nat with (S (length (r :: l) - 1)) by (simpl; lia).
  change (last (a :: r :: l) d) with (last (r :: l) d). cbn [set_nth].
  rewrite IHl by discriminate. reflexivity.
Qed.

Definition snap (r : R) (l : list R) : res (list R) :=
  bind (put 0 0 l) (fun bval => put (Z.of_nat (length bval) - 1) r bval).

Lemma snap_id r n l : grid_from_0_to r n l -> snap r l = Ok l.
Proof.
  intros (Hlen & _ & Hhd & Hl). unfold snap, put.
  assert (Hne : l <> nil) by (destruct l; discriminate).
  assert (0 < length l)%nat by (destruct l; simpl; [tauto|lia]).
  destruct (Z.ltb_spec 0 (Z.of_nat (length l))); [|lia]. cbn [Z.leb Z.compare andb bind].
  change (Z.to_nat 0) with 0%nat. rewrite set_nth_hd by auto.
  destruct (Z.leb_spec 0 (Z.of_nat (length l) - 1)); [|lia].
  destruct (Z.ltb_spec (Z.of_nat (length l) - 1) (Z.of_nat (length l))); [|lia]. cbn [andb].
  replace (Z.to_nat (Z.of_nat (length l) - 1)) with (length l - 1)%nat by lia.
  rewrite <- Hl, set_nth_last; auto.
Qed.

(* ---------- the five families ---------- *)

Lemma grid_of_fun f n r : (0 < n)%nat ->
  f 0%nat = 0 -> f n = r ->
  (forall i j, (i < j)%nat -> (j <= n)%nat -> f i < f j) ->
  grid_from_0_to r (Z.of_nat n) (map f (seq 0 (n + 1))).
Proof.
  intros Hn H0 H1 H. repeat split.
  - rewrite map_length, seq_length. lia.
  - apply increasing_map_seq. intros. apply H; lia.
  - rewrite Nat.add_1_r. simpl. now rewrite H0.
  - now rewrite last_seq_map.
Qed.

Lemma INR_pos n : (0 < n)%nat -> 0 < INR n.
Proof. intros. apply lt_0_INR. auto. Qed.

Lemma linear_ok r n : 0 < r -> (0 < n)%nat ->
  grid_from_0_to r (Z.of_nat n) (linear_values r n).
Proof.
  intros Hr Hn. unfold linear_values, lin_spaced.
  destruct (Nat.eqb_spec (n + 1) 1); [lia|].
  replace (n + 1 - 1)%nat with n by lia. pose proof (INR_pos n Hn) as Hp.
  apply grid_of_fun; auto.
  - simpl. field. lra.
  - field. lra.
  - intros i j Hij Hj. assert (INR i < INR j) by (apply lt_INR; auto).
    assert (0 < (r - 0) / INR n) by (apply Rdiv_lt_0_compat; lra). nra.
Qed.

Lemma quadratic_ok r n : 0 < r -> (0 < n)%nat ->
  grid_from_0_to r (Z.of_nat n) (quadratic_values r n).
Proof.
  intros Hr Hn. unfold quadratic_values. pose proof (INR_pos n Hn) as Hp.
  apply grid_of_fun; auto.
  - simpl. ring.
  - field. lra.
  - intros i j Hij Hj. assert (INR i < INR j) by (apply lt_INR; auto).
    pose proof (pos_INR i).
    assert (0 < 1 / (INR n * INR n)) by (apply Rdiv_lt_0_compat; nra).
    apply Rmult_lt_compat_r; auto. apply Rmult_lt_compat_r; auto. nra.
Qed.

Lemma rpow_pos x z : 0 < x -> 0 < rpow x z.
Proof.
  intros H. unfold rpow. destruct (Reqb_spec x 0); [lra|]. unfold Rpower. apply exp_pos.
Qed.

Lemma rpow_zero z : 0 < z -> rpow 0 z = 0.
Proof.
  intros H. unfold rpow. destruct (Reqb_spec 0 0); [|lra]. destruct (Reqb_spec z 0); auto. lra.
Qed.

Lemma rpow_incr x y z : 0 <= x -> x < y -> 0 < z -> rpow x z < rpow y z.
Proof.
  intros Hx Hy Hz. destruct (Req_dec x 0) as [->|Hne].
  - rewrite rpow_zero by auto. now apply rpow_pos.
  - unfold rpow. destruct (Reqb_spec x 0); [lra|]. destruct (Reqb_spec y 0); [lra|].
    unfold Rpower. apply exp_increasing. apply Rmult_lt_compat_l; auto. apply ln_increasing; lra.
Qed.

Lemma rpow_one z : rpow 1 z = 1.
Proof.
  unfold rpow. destruct (Reqb_spec 1 0); [lra|]. unfold Rpower. rewrite ln_1, Rmult_0_r. apply exp_0.
Qed.

Lemma rpow_rpow x a : 0 < x -> 0 < a -> rpow (rpow x (1 / a)) a = x.
Proof.
  intros Hx Ha. pose proof (rpow_pos x (1 / a) Hx) as Hp.
  unfold rpow at 1. destruct (Reqb_spec (rpow x (1 / a)) 0); [lra|].
  unfold rpow. destruct (Reqb_spec x 0); [lra|].
  rewrite Rpower_mult. replace (1 / a * a) with 1 by (field; lra). now apply Rpower_1.
Qed.

Lemma polynomial_ok r n z : 0 < r -> (0 < n)%nat -> 0 < z ->
  grid_from_0_to r (Z.of_nat n) (polynomial_values r n z).
Proof.
  intros Hr Hn Hz. unfold polynomial_values. pose proof (INR_pos n Hn) as Hp.
  assert (0 < 1 / INR n) by (apply Rdiv_lt_0_compat; lra).
  apply grid_of_fun; auto.
  - change (INR 0) with 0. rewrite Rmult_0_l, rpow_zero by auto. ring.
  - replace (INR n * (1 / INR n)) with 1 by (field; lra). rewrite rpow_one. ring.
  - intros i j Hij Hj. assert (INR i < INR j) by (apply lt_INR; auto).
    pose proof (pos_INR i). apply Rmult_lt_compat_l; auto. apply rpow_incr; auto; nra.
Qed.

Lemma exponential_ok r n z : 0 < r -> (0 < n)%nat -> 0 < z ->
  grid_from_0_to r (Z.of_nat n) (exponential_values r n z).
Proof.
  intros Hr Hn Hz. unfold exponential_values, lin_spaced. pose proof (INR_pos n Hn) as Hp.
  destruct (Nat.eqb_spec (n + 1) 1); [lia|].
  assert (Hl : 0 < ln (r + 1)) by (rewrite <- ln_1; apply ln_increasing; lra).
  set (u := rpow (ln (r + 1)) (1 / z)).
  assert (Hu : 0 < u) by (apply rpow_pos; auto).
  replace (n + 1 - 1)%nat with n by lia. rewrite map_map.
  apply (grid_of_fun (fun i => exp (rpow (0 + INR i * ((u - 0) / INR n)) z) - 1)); auto.
  - change (INR 0) with 0. rewrite Rmult_0_l, Rplus_0_l, rpow_zero, exp_0 by auto. ring.
  - replace (0 + INR n * ((u - 0) / INR n)) with u by (field; lra).
    unfold u. rewrite rpow_rpow by auto. rewrite exp_ln by lra. ring.
  - intros i j Hij Hj. assert (INR i < INR j) by (apply lt_INR; auto).
    pose proof (pos_INR i).
    assert (0 < (u - 0) / INR n) by (apply Rdiv_lt_0_compat; lra).
    apply Rplus_lt_compat_r. apply exp_increasing. apply rpow_incr; auto; nra.
Qed.

Lemma accumulate_ok hk : forall b, (forall h, In h hk -> 0 < h) ->
  length (accumulate b hk) = S (length hk) /\
  increasing (accumulate b hk) /\ hd_error (accumulate b hk) = Some b /\
  (forall v, In v (accumulate b hk) -> b <= v) /\
  (forall d, last (accumulate b hk) d = b + lsum hk (fun h => h)).
Proof.
  induction hk; intros b H; simpl.
  - repeat split; auto. apply increasing_single. intros v [->|[]]. lra. intros; lra.
  - destruct (IHhk (b + a)) as (L & I & Hd & M & La). { intros; apply H; right; auto. }
    assert (0 < a) by (apply H; left; auto).
    assert (Hne : accumulate (b + a) hk <> nil) by (intros E; rewrite E in L; discriminate).
    repeat split; auto.
    + change (b :: accumulate (b + a) hk) with ([b] ++ accumulate (b + a) hk).
      apply increasing_app; [apply increasing_single|auto|].
      intros x y [<-|[]] Hy. apply M in Hy. lra.
    + intros v [->|Hv]; [lra|]. apply M in Hv. lra.
    + intros d. specialize (La d). destruct (accumulate (b + a) hk) eqn:E; [tauto|].
      rewrite La. ring.
Qed.

Lemma geometric_lengths_ok s k : forall h hk, 0 < s -> (forall x, In x (h :: hk) -> 0 < x) ->
  length (geometric_lengths k s (h :: hk)) = (k + S (length hk))%nat /\
  (forall x, In x (geometric_lengths k s (h :: hk)) -> 0 < x) /\
  lsum (geometric_lengths k s (h :: hk)) (fun x => x) =
    lsum (h :: hk) (fun x => x) + sum k (fun i => h * s ^ S i).
Proof.
  induction k; intros h hk Hs Hp.
  - simpl. repeat split; auto. ring.
  - cbn [geometric_lengths hd].
    destruct (IHk (s * h) (h :: hk)) as (L & P & S1); auto.
    { intros x [<-|Hx]; auto. apply Rmult_lt_0_compat; auto. apply Hp; left; auto. }
    repeat split; auto.
    + rewrite L. simpl. lia.
    + rewrite S1, sum_shift. simpl lsum. simpl pow at 1.
      rewrite (sum_ext k _ (fun i => h * s ^ S (S i))); [ring|]. intros. simpl. ring.
Qed.

Lemma geometric_series s n : sum n (fun i => s ^ i) * (1 - s) = 1 - s ^ n.
Proof. induction n; simpl; [ring|]. rewrite Rmult_plus_distr_r, IHn. ring. Qed.

Lemma pow_lt_1 s n : 0 < s < 1 -> (0 < n)%nat -> 0 < s ^ n < 1.
Proof.
  intros H Hn. split; [apply pow_lt; lra|]. destruct n; [lia|]. clear Hn.
  induction n; simpl in *; [lra|]. nra.
Qed.

Lemma geometric_ok r n s : 0 < r -> (0 < n)%nat -> 0 < s < 1 ->
  exists l, geometric_values r n s = Ok l /\ grid_from_0_to r (Z.of_nat n) l.
Proof.
  intros Hr Hn Hs. unfold geometric_values.
  destruct (Rleb_spec s 0); [lra|]. destruct (Rleb_spec 1 s); [lra|]. cbn [orb].
  destruct n as [|n']; [lia|]. eexists. split; [reflexivity|].
  pose proof (pow_lt_1 s (S n') Hs Hn) as Hp.
  set (la := (1 - s) / (1 - s ^ S n') * r).
  assert (Hla : 0 < la).
  { unfold la. apply Rmult_lt_0_compat; auto. apply Rdiv_lt_0_compat; lra. }
  destruct (geometric_lengths_ok s n' la []) as (L & P & S1); [lra| |].
  { intros x [<-|[]]; auto. }
  destruct (accumulate_ok (geometric_lengths n' s [la]) 0 P) as (L2 & I & Hd & _ & La).
  repeat split; auto.
  - rewrite L2, L. simpl. lia.
  - rewrite La, S1. simpl lsum.
    replace (la + 0 + sum n' (fun i => la * s ^ S i)) with (la * sum (S n') (fun i => s ^ i)).
    2:{ rewrite sum_shift. rewrite sum_scal. simpl. ring. }
    pose proof (geometric_series s (S n')) as G.
    unfold la. replace (sum (S n') (fun i => s ^ i)) with ((1 - s ^ S n') / (1 - s)).
    + field. lra.
    + rewrite <- G. field. lra.
Qed.

Lemma get_grid_ok r n igrid z : 0 < r -> (0 < n)%Z -> admissible igrid z ->
  exists l, get_grid r n igrid z = Ok l /\ grid_from_0_to r n l.
Proof.
  intros Hr Hn Ha.
  assert (E : exists v, grid_from_0_to r n v /\ get_grid r n igrid z = snap r v).
  { unfold get_grid. destruct (Z.ltb_spec n 0); [lia|].
    set (k := Z.to_nat n). assert (Hk : (0 < k)%nat) by (unfold k; lia).
    replace n with (Z.of_nat k) by (unfold k; lia).
    destruct Ha as [[-> | ->]|[[[-> | ->] Hz]|[-> Hz]]]; cbn [Z.eqb Pos.eqb].
    - eexists; split; [apply linear_ok; auto|reflexivity].
    - eexists; split; [apply quadratic_ok; auto|reflexivity].
    - eexists; split; [apply polynomial_ok; eauto|reflexivity].
    - eexists; split; [apply exponential_ok; eauto|reflexivity].
    - destruct (geometric_ok r k z) as (l & -> & G); auto.
      exists l. split; auto. }
  destruct E as (v & G & ->). exists v. split; auto. eapply snap_id; eauto.
Qed.

Lemma put_no_throw i x l e : put i x l <> Throw e.
Proof. unfold put. destruct (_ && _)%bool; discriminate. Qed.

Lemma snap_no_throw r l e : snap r l <> Throw e.
Proof.
  unfold snap. destruct (put 0 0 l) eqn:E; cbn [bind]; try discriminate.
  apply put_no_throw. now apply put_no_throw in E.
Qed.

Lemma get_grid_throws r n igrid z :
  (exists e, get_grid r n igrid z = Throw e) <->
  (~ (1 <= igrid <= 5)%Z \/ (igrid = 5%Z /\ ~ 0 < z < 1)).
Proof.
  unfold get_grid.
  set (v := if (n <? 0)%Z then _ else _).
  change (bind v (fun bval => bind (put 0 0 bval) (fun bval0 =>
            put (Z.of_nat (length bval0) - 1) r bval0))) with (bind v (snap r)).
  assert (Hv : (exists e, v = Throw e) <-> (~ (1 <= igrid <= 5)%Z \/ (igrid = 5%Z /\ ~ 0 < z < 1))).
  { unfold v, geometric_values.
    destruct (Z.ltb_spec n 0).
    - destruct (Z.leb_spec 1 igrid); destruct (Z.leb_spec igrid 4); cbn [andb];
        try (split; [intros [ee He]; discriminate|lia]);
        destruct (Z.eqb_spec igrid 5); try lia;
        destruct (Rleb_spec z 0); destruct (Rleb_spec 1 z); cbn [orb];
        (split; [intros [ee He]; try discriminate; try (left; lia); right; split; auto; lra
                |intros [?|[? ?]]; try lia; eauto; try (exfalso; lra)]).
    - destruct (Z.eqb_spec igrid 1); [split; [intros [ee He]; discriminate|lia]|].
      destruct (Z.eqb_spec igrid 2); [split; [intros [ee He]; discriminate|lia]|].
      destruct (Z.eqb_spec igrid 3); [split; [intros [ee He]; discriminate|lia]|].
      destruct (Z.eqb_spec igrid 4); [split; [intros [ee He]; discriminate|lia]|].
      destruct (Z.eqb_spec igrid 5).
      + destruct (Rleb_spec z 0); destruct (Rleb_spec 1 z); cbn [orb];
        try (split; [intros [ee He]; try discriminate; right; split; auto; lra
                |intros [?|[? ?]]; try lia; eauto; try (exfalso; lra)]).
        split; [intros [ee He]; destruct (Z.to_nat n); discriminate|].
        intros [?|[? ?]]; [lia|exfalso; lra].
      + split; [intros _; left; lia|eauto]. }
  rewrite <- Hv. split.
  - intros [ee He]. destruct v; cbn [bind] in He; eauto; try discriminate.
    now apply snap_no_throw in He.
  - intros [e ->]. exists e. reflexivity.
Qed.

(* ---------- concatenation ---------- *)

Lemma concat_ok a n l b m r : grid_from_0_to a n l -> grid_from_0_to b m r ->
  (1 <= m)%Z ->
  exists c, concatenate_grid l r = Ok c /\ grid_from_0_to (a + b) (n + m) c /\
    (forall v, In v l -> In v c) /\ (forall v, In v r -> In (v + a) c).
Proof.
  intros (L1 & I1 & H1 & E1) (L2 & I2 & H2 & E2) Hm.
  destruct l as [|l0 l]; [discriminate|]. destruct r as [|r0 r]; [discriminate|].
  injection H1 as ->. injection H2 as ->. cbn [concatenate_grid].
  destruct (Reqb_spec 0 0); [|lra]. cbn [negb].
  assert (Hla : last (0 :: l) 0 = a).
  { rewrite <- E1. apply last_indep. discriminate. }
  rewrite Hla.
  assert (Hr : r <> nil) by (destruct r; [simpl in L2; lia|discriminate]).
  eexists. split; [reflexivity|]. repeat split.
  - rewrite app_length, map_length. simpl in *. lia.
  - apply (increasing_app (0 :: l)); auto.
    + apply increasing_map; [intros; lra|]. apply increasing_inv_cons in I2. tauto.
    + intros x y Hx Hy. apply in_map_iff in Hy. destruct Hy as (w & <- & Hw).
      destruct (increasing_inv_cons _ _ I2) as [_ P]. apply P in Hw.
      assert (x <= a); [|lra].
      apply (In_nth _ _ 0) in Hx. destruct Hx as (k & Hk & <-).
      rewrite <- Hla.
      destruct (Nat.eq_dec k (length (0 :: l) - 1)) as [->|Hn].
      * right. clear. generalize (0 :: l) as q. intros q.
        destruct q as [|x q]; [reflexivity|]. revert x. induction q; intros x; auto.
        replace (length (x :: a :: q) - 1)%nat with (S (length (a :: q) - 1)) by (simpl; lia).
        exact (IHq a).
      * left. assert (last (0 :: l) 0 = nth (length (0 :: l) - 1) (0 :: l) 0) as ->.
        { clear. generalize (0 :: l) as q. intros q.
          destruct q as [|x q]; [reflexivity|]. revert x. induction q; intros x; auto.
          replace (length (x :: a :: q) - 1)%nat with (S (length (a :: q) - 1)) by (simpl; lia).
          exact (IHq a). }
        apply I1; lia.
  - rewrite last_app_r by (destruct r; [tauto|discriminate]).
    rewrite (last_indep _ _ ((-1) + a)) by (destruct r; [tauto|discriminate]).
    rewrite (last_map (fun x => x + a)) by auto.
    assert (last r (-1) = b) as ->; [|ring].
    rewrite <- E2. destruct r; [tauto|reflexivity].
  - intros v Hv. apply in_or_app. auto.
  - intros v [<-|Hv].
    + apply in_or_app. left. rewrite Rplus_0_l, <- Hla. apply last_in. discriminate.
    + apply in_or_app. right. apply in_map_iff. eauto.
Qed.

Lemma last_nth (l : list R) d : last l d = nth (length l - 1) l d.
Proof.
  induction l as [|x l IH]; [reflexivity|]. destruct l; [reflexivity|].
  change (last (x :: r :: l) d) with (last (r :: l) d). rewrite IH.
  replace (length (x :: r :: l) - 1)%nat with (S (length (r :: l) - 1)) by (simpl; lia).
  reflexivity.
Qed.

Lemma grid_in_last a n l : grid_from_0_to a n l -> In a l.
Proof.
  intros (_ & _ & H & <-). apply last_in. destruct l; discriminate.
Qed.

Lemma reversed_ok d n igrid z : 0 < d -> (0 < n)%Z -> admissible igrid z ->
  exists l, reversed_grid d n igrid z = Ok l /\ grid_from_0_to d n l.
Proof.
  intros Hd Hn Ha. unfold reversed_grid.
  destruct (get_grid_ok d n igrid z Hd Hn Ha) as (l & -> & (L & I & H & E)). cbn [bind].
  set (v := map (fun x => - x + d) (rev l)).
  assert (Hne : l <> nil) by (destruct l; discriminate).
  assert (G : grid_from_0_to d n v).
  { repeat split.
    - unfold v. rewrite map_length, rev_length. auto.
    - intros i j Hij Hj. unfold v in *. rewrite map_length, rev_length in Hj.
      rewrite (nth_indep _ 0 (- 0 + d)), (nth_indep _ 0 (- 0 + d)) by (rewrite map_length, rev_length; lia).
      rewrite !(map_nth (fun x => - x + d)), !rev_nth by lia.
      assert (nth (length l - S j) l 0 < nth (length l - S i) l 0); [|lra].
      apply I; lia.
    - unfold v. destruct l as [|x l] using rev_ind; [tauto|]. clear IHl.
      rewrite rev_app_distr. simpl. rewrite last_app_r in E by discriminate. simpl in E.
      subst. f_equal. ring.
    - unfold v. destruct l as [|x l]; [discriminate|]. injection H as ->.
      simpl rev. rewrite map_app, last_app_r by discriminate. simpl. ring. }
  exists v. split; auto. exact (snap_id d n v G).
Qed.

Lemma finite_ok n rmax igrid z n0 rn igrid0 z0 :
  0 < rn < rmax -> (0 < n)%Z -> (0 < n0)%Z -> admissible igrid z -> admissible igrid0 z0 ->
  exists l, finite_nuclear_grid n rmax igrid z n0 rn igrid0 z0 = Ok l /\
    grid_from_0_to (rmax + rn) (2 * n0 + n) l /\ In rn l /\ In (2 * rn) l.
Proof.
  intros Hr Hn Hn0 Ha Ha0. unfold finite_nuclear_grid.
  destruct (Z.eqb_spec n0 0); [lia|]. cbn [negb].
  destruct (get_grid_ok rn n0 igrid0 z0) as (b & -> & Gb); auto; try lra. cbn [bind].
  destruct (get_grid_ok (rmax - rn) n igrid z) as (e & -> & Ge); auto; try lra. cbn [bind].
  destruct (concat_ok _ _ _ _ _ _ Gb Gb) as (c & -> & Gc & Il & Ir); [lia|]. cbn [bind].
  destruct (concat_ok _ _ _ _ _ _ Gc Ge) as (f & -> & Gf & Jl & Jr); [lia|].
  exists f. split; auto. split.
  - replace (rmax + rn) with (rn + rn + (rmax - rn)) by ring.
    replace (2 * n0 + n)%Z with (n0 + n0 + n)%Z by ring. auto.
  - split; [apply Jl, Il, (grid_in_last _ _ _ Gb)|].
    replace (2 * rn) with (rn + rn) by ring. apply Jl, (grid_in_last _ _ _ Gc).
Qed.

Lemma offcenter_ok n0 zm zlr rh n rmax igrid z :
  (0 <= zm)%Z -> (0 < zlr)%Z -> 0 < rh < rmax -> (0 < n)%Z -> (0 < n0)%Z -> admissible igrid z ->
  exists l, offcenter_nuclear_grid n0 zm zlr rh n rmax igrid z = Ok l /\
    grid_from_0_to rmax ((if (zm =? 0)%Z then n0 else 2 * n0) + n) l /\ In rh l /\
    In (IZR zm * rh / IZR (zm + zlr)) l.
Proof.
  intros Hm Hlr Hr Hn Hn0 Ha. unfold offcenter_nuclear_grid.
  destruct (Z.eqb_spec (zm + zlr) 0); [lia|]. destruct (Z.eqb_spec zlr 0); [lia|]. cbn [negb].
  set (b0 := IZR zm * rh / IZR (zm + zlr)).
  assert (Hs : 0 < IZR (zm + zlr)) by (apply IZR_lt; lia).
  assert (Hb0 : b0 < rh).
  { unfold b0. rewrite plus_IZR in *. apply (Rmult_lt_reg_r (IZR zm + IZR zlr)); auto.
    unfold Rdiv. rewrite Rmult_assoc, Rinv_l by lra.
    assert (0 < IZR zlr) by (apply IZR_lt; auto). nra. }
  destruct (get_grid_ok (rmax - rh) n igrid z) as (b2 & Eb2 & G2); auto; try lra.
  destruct (Z.eqb_spec zm 0) as [->|Hne].
  - cbn [negb bind andb orb].
    assert (b0 = 0) as E0 by (unfold b0, Rdiv; ring).
    rewrite E0 in *.
    destruct (reversed_ok (rh - 0) n0 igrid z) as (b1 & -> & G1); auto; try lra. cbn [bind].
    rewrite Eb2. cbn [bind].
    destruct (concat_ok _ _ _ _ _ _ G1 G2) as (c & -> & Gc & Il & Ir); [lia|].
    exists c. split; auto. replace (rh - 0 + (rmax - rh)) with rmax in Gc by ring.
    split; auto. replace (rh - 0) with rh in * by ring. split.
    + apply Il. apply (grid_in_last _ _ _ G1).
    + apply Il. destruct G1 as (_ & _ & H & _). destruct b1; [discriminate|].
      injection H as ->. left; auto.
  - cbn [negb andb orb].
    assert (0 < IZR zm) by (apply IZR_lt; lia).
    assert (0 < b0) by (unfold b0; apply Rdiv_lt_0_compat; [apply Rmult_lt_0_compat; lra|lra]).
    destruct (get_grid_ok b0 n0 igrid z) as (a0 & -> & G0); auto. cbn [bind].
    destruct (reversed_ok (rh - b0) n0 igrid z) as (b1 & -> & G1); auto; try lra. cbn [bind].
    rewrite Eb2. cbn [bind].
    destruct (concat_ok _ _ _ _ _ _ G0 G1) as (c & -> & Gc & Il & Ir); [lia|]. cbn [bind].
    destruct (concat_ok _ _ _ _ _ _ Gc G2) as (f & -> & Gf & Jl & Jr); [lia|].
    exists f. split; auto.
    replace (b0 + (rh - b0)) with rh in * by ring.
    replace (rh + (rmax - rh)) with rmax in Gf by ring.
    replace (2 * n0 + n)%Z with (n0 + n0 + n)%Z by ring. split; auto. split.
    + apply Jl, (grid_in_last _ _ _ Gc).
    + apply Jl, Il, (grid_in_last _ _ _ G0).
Qed.

(* ---------- the added boundary ---------- *)

Lemma increasing_le_last l d : increasing l -> forall v, In v l -> v <= last l d.
Proof.
  intros I v Hv. rewrite last_nth.
  apply (In_nth _ _ 0) in Hv. destruct Hv as (k & Hk & <-).
  rewrite (nth_indep _ d 0) by lia.
  destruct (Nat.eq_dec k (length l - 1)) as [->|Hn]; [right; auto|]. left. apply I; lia.
Qed.

Lemma increasing_ge_hd l x : increasing l -> hd_error l = Some x -> forall v, In v l -> x <= v.
Proof.
  intros I H v Hv. destruct l; [discriminate|]. injection H as ->.
  destruct Hv as [->|Hv]; [lra|]. apply increasing_inv_cons in I. left. now apply I.
Qed.

Lemma increasing_unique_ends l a b : increasing l -> In a l -> In b l ->
  (forall v, In v l -> a <= v <= b) -> hd_error l = Some a /\ last l (-1) = b.
Proof.
  intros I Ha Hb H. destruct l as [|x l]; [destruct Ha|]. split.
  - simpl. f_equal. assert (a <= x <= b) by (apply H; left; auto).
    pose proof (increasing_ge_hd _ x I eq_refl a Ha). lra.
  - pose proof (increasing_le_last _ (-1) I b Hb).
    assert (In (last (x :: l) (-1)) (x :: l)) as Hl by (apply last_in; discriminate).
    apply H in Hl. lra.
Qed.

Lemma add_element_ok r n l s : grid_from_0_to r n l -> 0 <= s <= r ->
  let l' := add_element l true s in
  grid_from_0_to r (n + if in_dec Req_EM_T s l then 0 else 1) l' /\
  (forall v, In v l' <-> v = s \/ In v l).
Proof.
  intros (L & I & H & E) Hs. unfold add_element.
  destruct (existsb (fun v => Reqb v s) l) eqn:Ex.
  - apply existsb_Reqb in Ex. simpl. destruct (in_dec Req_EM_T s l); [|tauto]. split.
    + repeat split; auto. lia.
    + intros v. split; auto. intros [->|]; auto.
  - assert (Hni : ~ In s l) by (intros Q; apply existsb_Reqb in Q; congruence).
    destruct (in_dec Req_EM_T s l); [tauto|]. cbv zeta.
    pose proof (sortR_perm (l ++ [s])) as P.
    assert (Hin : forall v, In v (sortR (l ++ [s])) <-> v = s \/ In v l).
    { intros v. split; intros Hv.
      - apply (Permutation_in _ (Permutation_sym P)) in Hv. apply in_app_or in Hv.
        destruct Hv as [|[|[]]]; auto.
      - apply (Permutation_in _ P). apply in_or_app. destruct Hv; [right; left; auto|left; auto]. }
    split; auto.
    assert (Inc : increasing (sortR (l ++ [s]))).
    { apply sorted_nodup_increasing; [apply sortR_sorted|].
      apply (Permutation_NoDup P), (Permutation_NoDup (l := s :: l)).
      - apply Permutation_cons_append.
      - constructor; auto. now apply increasing_nodup. }
    assert (H0 : In 0 l) by (destruct l; [discriminate|injection H as ->; left; auto]).
    assert (Hr : In r l) by (rewrite <- E; apply last_in; destruct l; discriminate).
    destruct (increasing_unique_ends (sortR (l ++ [s])) 0 r) as (A & B); auto.
    + apply Hin. auto.
    + apply Hin. auto.
    + intros v Hv. apply Hin in Hv. destruct Hv as [->|Hv]; auto. split.
      * apply (increasing_ge_hd l 0 I H v Hv).
      * rewrite <- E. now apply increasing_le_last.
    + repeat split; auto. rewrite <- (Permutation_length P), app_length. simpl. lia.
Qed.

(* ---------- form_grid ---------- *)

Lemma form_grid_plain m Rrms N Rmax ig z N0 ig0 z0 Zc Rh sc :
  m = POINT_NUCLEUS \/ m = REGULARIZED_NUCLEUS ->
  form_grid m Rrms N Rmax ig z N0 ig0 z0 Zc 0 0 Rh false sc = get_grid Rmax N ig z.
Proof.
  intros H. unfold form_grid, normal_grid, add_element.
  destruct H as [-> | ->]; cbn [negb Z.eqb orb];
  destruct (get_grid Rmax N ig z); reflexivity.
Qed.

Lemma form_grid_add m Rrms N Rmax ig z N0 ig0 z0 Zc Zl Zr Rh sc l :
  form_grid m Rrms N Rmax ig z N0 ig0 z0 Zc Zl Zr Rh false 0 = Ok l ->
  form_grid m Rrms N Rmax ig z N0 ig0 z0 Zc Zl Zr Rh true sc = Ok (add_element l true sc).
Proof.
  unfold form_grid. set (g := if negb _ then _ else _). destruct g; cbn [bind]; try discriminate.
  unfold add_element at 1. intros E. injection E as ->. reflexivity.
Qed.

Lemma form_grid_finite m Rrms rn N Rmax ig z N0 ig0 z0 Zc Rh sc :
  ((m = HOLLOW_NUCLEUS /\ rn = Rrms) \/
   (m = SPHERICAL_NUCLEUS /\ rn = sqrt (5 / 3) * Rrms) \/
   (m = GAUSSIAN_NUCLEUS /\ rn = 3 * Rrms)) ->
  0 < rn < Rmax -> (0 < N)%Z -> (0 < N0)%Z -> admissible ig z -> admissible ig0 z0 ->
  exists l, form_grid m Rrms N Rmax ig z N0 ig0 z0 Zc 0 0 Rh false sc = Ok l /\
    grid_from_0_to (Rmax + rn) (2 * N0 + N) l /\ In rn l.
Proof.
  intros Hm Hr HN HN0 Ha Ha0. unfold form_grid, add_element.
  destruct (finite_ok N Rmax ig z N0 rn ig0 z0) as (l & E & G & I1 & _); auto.
  exists l.
  destruct Hm as [[-> ->]|[[-> ->]|[-> ->]]]; cbn [negb Z.eqb orb nuclear_radius bind];
  rewrite E; auto.
Qed.

Lemma form_grid_offcenter m Rrms N Rmax ig z N0 ig0 z0 Zc Zl Zr Rh sc :
  m = POINT_NUCLEUS \/ m = REGULARIZED_NUCLEUS ->
  (0 <= Zc)%Z -> (0 <= Zl)%Z -> (0 <= Zr)%Z -> (0 < Zl + Zr)%Z ->
  0 < Rh < Rmax -> (0 < N)%Z -> (0 < N0)%Z -> admissible ig z ->
  exists l, form_grid m Rrms N Rmax ig z N0 ig0 z0 Zc Zl Zr Rh false sc = Ok l /\
    grid_from_0_to Rmax ((if (Zc =? 0)%Z then N0 else 2 * N0) + N) l /\ In Rh l /\
    In (IZR Zc * Rh / IZR (Zc + Z.max Zl Zr)) l.
Proof.
  intros Hm HZ HL HR HLR Hr HN HN0 Ha. unfold form_grid, add_element.
  destruct (offcenter_ok N0 Zc (Z.max Zl Zr) Rh N Rmax ig z) as (l & E & G); auto; try lia.
  exists l. split; auto.
  assert (negb (Zl =? 0)%Z || negb (Zr =? 0)%Z = true) as ->.
  { destruct (Z.eqb_spec Zl 0); destruct (Z.eqb_spec Zr 0); auto; lia. }
  destruct Hm as [-> | ->]; cbn [negb]; rewrite E; reflexivity.
Qed.

Lemma form_grid_throws m Rrms N Rmax ig z N0 ig0 z0 Zc Zl Zr Rh ae sc :
  (m <> POINT_NUCLEUS /\ m <> REGULARIZED_NUCLEUS /\ (Zl <> 0 \/ Zr <> 0)%Z) \/
  m = NOSUCH_NUCLEUS ->
  form_grid m Rrms N Rmax ig z N0 ig0 z0 Zc Zl Zr Rh ae sc = Throw LogicError.
Proof.
  unfold form_grid. intros [(H1 & H2 & H3)|H].
  - assert (negb (Zl =? 0)%Z || negb (Zr =? 0)%Z = true) as ->.
    { destruct (Z.eqb_spec Zl 0); destruct (Z.eqb_spec Zr 0); auto; lia. }
    destruct m; try tauto; reflexivity.
  - subst. cbn [negb nuclear_radius bind]. destruct (_ || _)%bool; reflexivity.
Qed.

Lemma finite_end_differs m Rrms rn N Rmax ig z N0 ig0 z0 Zc Rh sc l :
  ((m = HOLLOW_NUCLEUS /\ rn = Rrms) \/
   (m = SPHERICAL_NUCLEUS /\ rn = sqrt (5 / 3) * Rrms) \/
   (m = GAUSSIAN_NUCLEUS /\ rn = 3 * Rrms)) ->
  0 < rn < Rmax -> (0 < N)%Z -> (0 < N0)%Z -> admissible ig z -> admissible ig0 z0 ->
  form_grid m Rrms N Rmax ig z N0 ig0 z0 Zc 0 0 Rh false sc = Ok l ->
  last l 0 <> Rmax.
Proof.
  intros Hm Hr HN HN0 Ha Ha0 E.
  destruct (form_grid_finite m Rrms rn N Rmax ig z N0 ig0 z0 Zc Rh sc) as (l' & E' & G & _); auto.
  rewrite E in E'. injection E' as <-. destruct G as (_ & _ & H & L).
  rewrite (last_indep l 0 (-1)) by (destruct l; discriminate). lra.
Qed.

Lemma negative_exponent_bad : exists l,
  get_grid 1 2 3 (-1) = Ok l /\ ~ increasing l.
Proof.
  unfold get_grid. eexists. split; [reflexivity|].
  intros H. specialize (H 1%nat 2%nat). simpl in H.
  assert (1 * rpow (1 * (1 / (1 + 1))) (-1) < 1) by (apply H; lia).
  unfold rpow in H0. destruct (Reqb_spec (1 * (1 / (1 + 1))) 0); [lra|].
  unfold Rpower in H0. pose proof exp_0.
  assert (ln (1 * (1 / (1 + 1))) < 0).
  { rewrite <- ln_1. apply ln_increasing; lra. }
  assert (exp 0 < exp (-1 * ln (1 * (1 / (1 + 1))))) by (apply exp_increasing; lra). lra.
Qed.
