(** Proofs: shape of the Gauss-Lobatto rule. *)
Require Import Reals List Arith Bool ZArith Lia Lra.
Require Import Verif.Prelude Verif.FEModel Verif.ShapeModel Verif.ShapeSpec Verif.ShapePoly Verif.ShapeLeg Verif.ShapeOrth.
Require Import Verif.LbModel Verif.LbSpec.
Import ListNotations.
Open Scope R_scope.

Lemma lb_row_leg j x : lb_row j x = (leg j x, leg (S j) x).
Proof.
  induction j as [|j IH]; [reflexivity|]. cbn [lb_row]. rewrite IH. f_equal.
  rewrite leg_rec. replace (INR (j + 2)) with (INR (S j) + 1) by (rewrite <- S_INR; f_equal; lia).
  unfold Rdiv. rewrite Rmult_1_l. f_equal. ring.
Qed.
Lemma lb_pn_leg j x : lb_pn j x = (leg j x, leg (S j) x).
Proof.
  induction j as [|j IH]; [reflexivity|]. cbn [lb_pn]. rewrite IH. f_equal.
  rewrite leg_rec. replace (INR (j + 2)) with (INR (S j) + 1) by (rewrite <- S_INR; f_equal; lia).
  f_equal. ring.
Qed.

Lemma leg_opp n x : leg n (- x) = lsign n * leg n x.
Proof.
  revert n. apply (two_step (fun n => leg n (- x) = lsign n * leg n x)).
  - rewrite !leg0. unfold lsign. cbn. ring.
  - rewrite !leg1. unfold lsign. cbn. ring.
  - intros n H0 H1. rewrite !leg_rec, H0, H1, !lsign_S. field. apply INRS.
Qed.
Lemma lsign_sq n : lsign n * lsign n = 1.
Proof. unfold lsign. destruct (Nat.even n); ring. Qed.
Lemma lsign_nz n : lsign n <> 0.
Proof. intros H. pose proof (lsign_sq n) as E. rewrite H in E. lra. Qed.

Lemma newton_value n x y : (2 <= n)%nat -> lb_newton n x = Ok y ->
  leg (n - 1) x <> 0 /\ y = x - (x * leg (n - 1) x - leg (n - 2) x) / (INR n * leg (n - 1) x).
Proof.
  intros Hn H. unfold lb_newton in H. rewrite lb_row_leg in H.
  replace (S (n - 2)) with (n - 1)%nat in H by lia.
  destruct (Reqb_spec (leg (n - 1) x) 0) as [|E]; [discriminate|]. injection H as <-. split; [exact E | reflexivity].
Qed.
Lemma newton_make n x : (2 <= n)%nat -> leg (n - 1) x <> 0 ->
  lb_newton n x = Ok (x - (x * leg (n - 1) x - leg (n - 2) x) / (INR n * leg (n - 1) x)).
Proof.
  intros Hn H. unfold lb_newton. rewrite lb_row_leg. replace (S (n - 2)) with (n - 1)%nat by lia.
  destruct (Reqb_spec (leg (n - 1) x) 0) as [E|E]; [contradiction | reflexivity].
Qed.
Lemma weight_value n x y : (2 <= n)%nat -> lb_weight n x = Ok y ->
  leg (n - 1) x <> 0 /\ y = 2 / ((INR n - 1) * INR n * leg (n - 1) x * leg (n - 1) x).
Proof.
  intros Hn H. unfold lb_weight in H. rewrite lb_pn_leg in H. cbn [snd] in H.
  replace (S (n - 2)) with (n - 1)%nat in H by lia.
  destruct (Reqb_spec (leg (n - 1) x) 0) as [|E]; [discriminate|]. injection H as <-. split; [exact E | reflexivity].
Qed.
Lemma weight_make n x : (2 <= n)%nat -> leg (n - 1) x <> 0 ->
  lb_weight n x = Ok (2 / ((INR n - 1) * INR n * leg (n - 1) x * leg (n - 1) x)).
Proof.
  intros Hn H. unfold lb_weight. rewrite lb_pn_leg. cbn [snd]. replace (S (n - 2)) with (n - 1)%nat by lia.
  destruct (Reqb_spec (leg (n - 1) x) 0) as [E|E]; [contradiction | reflexivity].
Qed.

(** * Steps on all nodes *)
Lemma all_len {A B} (f : A -> res B) l : forall s, lb_all f l = Ok s -> length s = length l.
Proof.
  induction l as [|a l IH]; intros s H; cbn [lb_all] in H.
  - injection H as <-. reflexivity.
  - destruct (f a); cbn [bind] in H; try discriminate.
    destruct (lb_all f l); cbn [bind] in H; try discriminate. injection H as <-. cbn. f_equal. apply IH. reflexivity.
Qed.
Lemma all_at (f : R -> res R) l : forall s i, lb_all f l = Ok s -> (i < length l)%nat -> f (at_ l i) = Ok (at_ s i).
Proof.
  induction l as [|a l IH]; intros s i H Hi; cbn [lb_all length] in *; [lia|].
  destruct (f a) as [b| | |] eqn:E; cbn [bind] in H; try discriminate.
  destruct (lb_all f l) as [t| | |] eqn:E'; cbn [bind] in H; try discriminate. injection H as <-.
  destruct i; [exact E|]. unfold at_. cbn [nth]. apply IH; [reflexivity | lia].
Qed.
Lemma all_make (f : R -> res R) (g : R -> R) l : (forall a, In a l -> f a = Ok (g a)) -> lb_all f l = Ok (map g l).
Proof.
  induction l as [|a l IH]; intros H; [reflexivity|]. cbn [lb_all map]. rewrite H by (left; reflexivity). cbn [bind].
  rewrite IH by (intros; apply H; right; assumption). reflexivity.
Qed.
Lemma change_le x : forall y e, (forall i, (i < length x)%nat -> (i < length y)%nat -> Rabs (at_ x i - at_ y i) <= lb_change x y e) /\ e <= lb_change x y e.
Proof.
  induction x as [|a x IH]; intros y e; cbn [lb_change length]; [split; [intros; lia | lra]|].
  destruct y as [|b y]; cbn [length]; [split; [intros; lia | lra]|].
  destruct (IH y (if Rltb e (Rabs (a - b)) then Rabs (a - b) else e)) as [A B].
  destruct (Rltb_spec e (Rabs (a - b))) as [C|C].
  - split; [|lra]. intros [|i] Hi Hj; unfold at_; cbn [nth]; [exact B | apply A; lia].
  - split; [|lra]. intros [|i] Hi Hj; unfold at_; cbn [nth]; [lra | apply A; lia].
Qed.
Lemma change_same x : lb_change x x 0 = 0.
Proof.
  induction x as [|a x IH]; [reflexivity|]. cbn [lb_change]. replace (a - a) with 0 by ring. rewrite Rabs_R0.
  destruct (Rltb_spec 0 0); [lra | exact IH].
Qed.
Lemma change_zero x y : length x = length y -> lb_change x y 0 <= 0 -> x = y.
Proof.
  intros Hl H. apply (nth_ext _ _ 0 0); [exact Hl|]. intros i Hi.
  destruct (change_le x y 0) as [A _]. specialize (A i Hi ltac:(lia)). unfold at_ in A.
  pose proof (Rabs_pos (nth i x 0 - nth i y 0)). assert (E : Rabs (nth i x 0 - nth i y 0) = 0) by lra.
  destruct (Req_dec (nth i x 0 - nth i y 0) 0) as [|N]; [lra|]. apply Rabs_no_R0 in N. contradiction.
Qed.

(** The nodes that leave the loop come from a last step which moved nothing by more
    than the tolerance; whatever a step preserves holds of both. *)
Lemma loop_last (Q : list R -> Prop) tol n fuel : forall x0 x,
  (forall y z, Q y -> lb_all (lb_newton n) y = Ok z -> Q z) -> Q x0 ->
  lb_loop tol n fuel x0 = Ok x ->
  exists y, Q y /\ Q x /\ lb_all (lb_newton n) y = Ok x /\ lb_change x y 0 <= tol.
Proof.
  induction fuel as [|k IH]; intros x0 x HQ H0 H; cbn [lb_loop] in H; [discriminate|].
  destruct (lb_all (lb_newton n) x0) as [z| | |] eqn:E; cbn [bind] in H; try discriminate.
  destruct (Rleb_spec (lb_change z x0 0) tol) as [L|L].
  - injection H as <-. exists x0. repeat split; try assumption. apply (HQ x0); assumption.
  - apply (IH z x HQ); [apply (HQ x0); assumption | exact H].
Qed.

(** * What every step preserves *)
Definition shaped (n : nat) (x : list R) : Prop :=
  length x = n /\ at_ x 0 = 1 /\ at_ x (n - 1) = -1 /\
  (forall i, (i < n)%nat -> at_ x (n - 1 - i) = - at_ x i).

Lemma newton_1 n : (2 <= n)%nat -> lb_newton n 1 = Ok 1.
Proof.
  intros Hn. rewrite newton_make; [| exact Hn | rewrite leg_at_1; lra]. rewrite !leg_at_1. f_equal. unfold Rdiv. ring.
Qed.
Lemma newton_opp n x y : (2 <= n)%nat -> lb_newton n x = Ok y -> lb_newton n (- x) = Ok (- y).
Proof.
  intros Hn H. destruct (newton_value n x y Hn H) as [E ->]. pose proof (lsign_nz (n - 1)) as Hsg.
  assert (I : INR n <> 0) by (apply not_0_INR; lia).
  rewrite newton_make; [| exact Hn | rewrite leg_opp; apply Rmult_integral_contrapositive_currified; assumption].
  f_equal. rewrite !leg_opp. replace (lsign (n - 2)) with (- lsign (n - 1)).
  - field. repeat split; assumption.
  - replace (n - 1)%nat with (S (n - 2)) by lia. rewrite lsign_S. ring.
Qed.
Lemma shaped_step n y z : (2 <= n)%nat -> shaped n y -> lb_all (lb_newton n) y = Ok z -> shaped n z.
Proof.
  intros Hn (L & H0 & H1 & Hs) H. pose proof (all_len _ _ _ H) as Lz.
  assert (A : forall i, (i < n)%nat -> lb_newton n (at_ y i) = Ok (at_ z i)) by (intros i Hi; apply (all_at _ _ _ _ H); lia).
  assert (S : forall i, (i < n)%nat -> at_ z (n - 1 - i) = - at_ z i).
  { intros i Hi. pose proof (A (n - 1 - i)%nat ltac:(lia)) as B. rewrite (Hs i Hi) in B.
    rewrite (newton_opp n _ _ Hn (A i Hi)) in B. injection B as <-. reflexivity. }
  assert (Z0 : at_ z 0 = 1).
  { pose proof (A 0%nat ltac:(lia)) as B. rewrite H0, newton_1 in B by exact Hn. injection B as <-. reflexivity. }
  repeat split; [lia | exact Z0 | | exact S].
  pose proof (S 0%nat ltac:(lia)) as B. rewrite Nat.sub_0_r in B. rewrite B, Z0. reflexivity.
Qed.
Lemma guess_at n i : (i < n)%nat -> at_ (map (lb_guess n) (seq 0 n)) i = lb_guess n i.
Proof.
  intros Hi. unfold at_. rewrite (nth_indep _ 0 (lb_guess n 0%nat)) by (rewrite map_length, seq_length; exact Hi).
  rewrite map_nth, seq_nth by exact Hi. reflexivity.
Qed.
Lemma guess_opp n i : (2 <= n)%nat -> (i < n)%nat -> lb_guess n (n - 1 - i)%nat = - lb_guess n i.
Proof.
  intros Hn Hi. unfold lb_guess. rewrite (minus_INR (n - 1) i) by lia.
  assert (INR (n - 1) <> 0) by (apply not_0_INR; lia).
  replace (PI * (INR (n - 1) - INR i) / INR (n - 1)) with (- (PI * INR i / INR (n - 1)) + PI) by (field; assumption).
  rewrite neg_cos, cos_neg. reflexivity.
Qed.
Lemma shaped_guess n : (2 <= n)%nat -> shaped n (map (lb_guess n) (seq 0 n)).
Proof.
  intros Hn. assert (G0 : lb_guess n 0%nat = 1).
  { unfold lb_guess. cbn [INR]. replace (PI * 0 / INR (n - 1)) with 0 by (unfold Rdiv; ring). apply cos_0. }
  repeat split.
  - rewrite map_length, seq_length. reflexivity.
  - rewrite guess_at by lia. exact G0.
  - rewrite guess_at by lia. pose proof (guess_opp n 0 Hn ltac:(lia)) as E. rewrite Nat.sub_0_r in E. rewrite E, G0. reflexivity.
  - intros i Hi. rewrite !guess_at by lia. apply guess_opp; assumption.
Qed.

(** * The result *)
Lemma rev_at (l : list R) i : (i < length l)%nat -> at_ (rev l) i = at_ l (length l - 1 - i).
Proof. intros Hi. unfold at_. rewrite rev_nth by exact Hi. f_equal. lia. Qed.

Lemma compute_inv tol fuel n x w : lobatto_compute tol fuel n = Ok (x, w) ->
  exists m y z, n = Z.of_nat m /\ (2 <= m)%nat /\ x = rev z /\ shaped m y /\ shaped m z /\
    lb_all (lb_newton m) y = Ok z /\ lb_change z y 0 <= tol /\ lb_all (lb_weight m) x = Ok w.
Proof.
  unfold lobatto_compute. destruct (Z.ltb_spec n 2) as [|Hn]; [discriminate|].
  set (m := Z.to_nat n). intros H.
  destruct (lb_loop tol m fuel (map (lb_guess m) (seq 0 m))) as [z| | |] eqn:E; cbn [bind] in H; try discriminate.
  destruct (lb_all (lb_weight m) (rev z)) as [u| | |] eqn:E'; cbn [bind] in H; try discriminate.
  injection H as <- <-.
  destruct (loop_last (shaped m) tol m fuel _ _ ltac:(intros y t Hy Ht; apply (shaped_step m y t); [subst m; lia | exact Hy | exact Ht])
    ltac:(apply shaped_guess; subst m; lia) E) as (y & Qy & Qz & Hs & Hc).
  exists m, y, z. repeat split; try assumption; try apply Qy; try apply Qz; subst m; lia.
Qed.

Lemma compute_throws tol fuel n : (n < 2)%Z -> lobatto_compute tol fuel n = Throw RuntimeError.
Proof. intros H. unfold lobatto_compute. destruct (Z.ltb_spec n 2); [reflexivity | lia]. Qed.
Lemma loop_no_throw tol n fuel : forall x e, lb_loop tol n fuel x <> Throw e.
Proof.
  assert (A : forall l e, lb_all (lb_newton n) l <> Throw e).
  { induction l as [|a l IH]; intros e; cbn [lb_all]; [discriminate|].
    unfold lb_newton at 1. destruct (lb_row (n - 2) a) as [p q]. destruct (Reqb q 0); cbn [bind]; [discriminate|].
    specialize (IH e). destruct (lb_all (lb_newton n) l); cbn [bind]; congruence. }
  induction fuel as [|k IH]; intros x e; cbn [lb_loop]; [discriminate|].
  specialize (A x e). destruct (lb_all (lb_newton n) x); cbn [bind]; try congruence.
  destruct (Rleb (lb_change a x 0) tol); [discriminate | apply IH].
Qed.
Lemma compute_throw_only tol fuel n e : lobatto_compute tol fuel n = Throw e -> (n < 2)%Z /\ e = RuntimeError.
Proof.
  unfold lobatto_compute. destruct (Z.ltb_spec n 2) as [L|L]; [intros H; injection H as <-; split; [exact L | reflexivity]|].
  pose proof (loop_no_throw tol (Z.to_nat n) fuel (map (lb_guess (Z.to_nat n)) (seq 0 (Z.to_nat n))) e) as N.
  destruct (lb_loop tol (Z.to_nat n) fuel _) as [z|e'| |]; cbn [bind]; try discriminate; [|congruence].
  assert (A : forall l, lb_all (lb_weight (Z.to_nat n)) l <> Throw e).
  { induction l as [|a l IH]; cbn [lb_all]; [discriminate|]. unfold lb_weight at 1.
    destruct (Reqb _ 0); cbn [bind]; [discriminate|].
    destruct (lb_all (lb_weight (Z.to_nat n)) l); cbn [bind]; congruence. }
  specialize (A (rev z)). destruct (lb_all (lb_weight (Z.to_nat n)) (rev z)); cbn [bind]; congruence.
Qed.

Theorem compute_shape tol fuel n x w : lobatto_compute tol fuel n = Ok (x, w) ->
  let m := Z.to_nat n in
  length x = m /\ length w = m /\ at_ x 0 = -1 /\ at_ x (m - 1) = 1 /\
  at_ w 0 = 2 / (IZR n * (IZR n - 1)) /\ at_ w (m - 1) = 2 / (IZR n * (IZR n - 1)) /\
  (forall i, (i < m)%nat -> at_ x (m - 1 - i) = - at_ x i /\ at_ w (m - 1 - i) = at_ w i /\ 0 < at_ w i).
Proof.
  intros H. destruct (compute_inv _ _ _ _ _ H) as (m & y & z & -> & Hm & -> & Sy & (Lz & Z0 & Z1 & Zs) & _ & _ & Hw).
  rewrite Nat2Z.id. cbv zeta. rewrite <- INR_IZR_INZ.
  assert (Lr : length (rev z) = m) by (rewrite rev_length; exact Lz).
  assert (W : forall i, (i < m)%nat -> leg (m - 1) (at_ (rev z) i) <> 0 /\
     at_ w i = 2 / ((INR m - 1) * INR m * leg (m - 1) (at_ (rev z) i) * leg (m - 1) (at_ (rev z) i))).
  { intros i Hi. apply weight_value; [exact Hm|]. apply (all_at _ _ _ _ Hw). lia. }
  assert (X : forall i, (i < m)%nat -> at_ (rev z) (m - 1 - i) = - at_ (rev z) i).
  { intros i Hi. rewrite !rev_at by lia. rewrite Lz. apply Zs. lia. }
  assert (X0 : at_ (rev z) 0 = -1) by (rewrite rev_at by lia; rewrite Lz, Nat.sub_0_r; exact Z1).
  assert (X1 : at_ (rev z) (m - 1) = 1) by (pose proof (X 0%nat ltac:(lia)) as E; rewrite Nat.sub_0_r in E; rewrite E, X0; lra).
  assert (I : 1 <= INR m - 1).
  { replace (INR m - 1) with (INR (m - 1)) by (rewrite minus_INR by lia; cbn; ring). apply (le_INR 1). lia. }
  assert (Ws : forall i, (i < m)%nat -> at_ w (m - 1 - i) = at_ w i).
  { intros i Hi. destruct (W i Hi) as [Ni ->]. destruct (W (m - 1 - i)%nat ltac:(lia)) as [_ ->]. rewrite X by exact Hi.
    rewrite leg_opp. pose proof (lsign_sq (m - 1)) as Q.
    replace ((INR m - 1) * INR m * (lsign (m - 1) * leg (m - 1) (at_ (rev z) i)) * (lsign (m - 1) * leg (m - 1) (at_ (rev z) i)))
      with ((lsign (m - 1) * lsign (m - 1)) * ((INR m - 1) * INR m * leg (m - 1) (at_ (rev z) i) * leg (m - 1) (at_ (rev z) i))) by ring.
    rewrite Q, Rmult_1_l. reflexivity. }
  assert (W1 : at_ w (m - 1) = 2 / (INR m * (INR m - 1))).
  { destruct (W (m - 1)%nat ltac:(lia)) as [_ ->]. rewrite X1, leg_at_1. f_equal. ring. }
  assert (W0 : at_ w 0 = 2 / (INR m * (INR m - 1))).
  { rewrite <- W1. pose proof (Ws 0%nat ltac:(lia)) as E. rewrite Nat.sub_0_r in E. symmetry. exact E. }
  repeat split; try assumption.
  - rewrite (all_len _ _ _ Hw). exact Lr.
  - apply X; assumption.
  - apply Ws; assumption.
  - destruct (W i H0) as [Ni ->]. apply Rdiv_lt_0_compat; [lra|].
    assert (0 < leg (m - 1) (at_ (rev z) i) * leg (m - 1) (at_ (rev z) i)) by (apply (Rlt_0_sqr _ Ni)).
    assert (0 < (INR m - 1) * INR m) by (apply Rmult_lt_0_compat; lra).
    rewrite Rmult_assoc. apply Rmult_lt_0_compat; assumption.
Qed.
