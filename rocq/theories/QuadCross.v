(** Proofs about projections between two radial bases and the angular rule. *)
Require Import Reals List Arith Bool Lia Lra Psatz.
Require Import Verif.Prelude Verif.QuadModel Verif.QuadSpec Verif.QuadInt.
Import ListNotations.
Open Scope R_scope.

Lemma incr_le n a : increasing_upto n a -> forall i j, (i <= j)%nat -> (j <= n)%nat -> a i <= a j.
Proof.
  intros H i j Hij. induction Hij as [|j Hij IH]; intros Hj; [lra|].
  specialize (IH ltac:(lia)). specialize (H j ltac:(lia)). lra.
Qed.
Lemma incr_find n a t : increasing_upto n a -> a 0%nat <= t < a n -> exists i, (i < n)%nat /\ a i <= t < a (S i).
Proof.
  induction n as [|n IH]; intros H Ht; [lra|].
  destruct (Rlt_le_dec t (a n)) as [L|L].
  - destruct IH as [i [Hi H1]]; [intros i Hi; apply H; lia|lra|]. exists i. split; [lia|exact H1].
  - exists n. split; [lia|lra].
Qed.
Lemma incr_unique n a t i j : increasing_upto n a -> (i < n)%nat -> (j < n)%nat ->
  a i <= t < a (S i) -> a j <= t < a (S j) -> i = j.
Proof.
  intros H Hi Hj H1 H2. destruct (lt_eq_lt_dec i j) as [[L|E]|L]; [|exact E|].
  - pose proof (incr_le n a H (S i) j ltac:(lia) ltac:(lia)). lra.
  - pose proof (incr_le n a H (S j) i ltac:(lia) ltac:(lia)). lra.
Qed.

Ltac rmm := repeat (unfold Rmax, Rmin in *; match goal with
  | |- context [Rle_dec ?u ?v] => destruct (Rle_dec u v)
  | H : context [Rle_dec ?u ?v] |- _ => destruct (Rle_dec u v) end).

Lemma lsum_cons {A} (x : A) l f : lsum (x :: l) f = f x + lsum l f.
Proof. reflexivity. Qed.

Section Cross.
Variables (nA nB : nat) (a b : vec) (fa ca fb cb : nat -> nat).
Hypothesis Ha : increasing_upto nA a.
Hypothesis Hb : increasing_upto nB b.

Lemma overlaps_iff i j : (i < nA)%nat -> (j < nB)%nat ->
  (overlaps a b i j = true <-> int_start a b i j < int_end a b i j).
Proof.
  intros Hi Hj. specialize (Ha i Hi). specialize (Hb j Hj).
  unfold overlaps, int_start, int_end. rewrite orb_true_iff, !andb_true_iff.
  destruct (Rleb_spec (a i) (b j)); destruct (Rltb_spec (b j) (a (S i)));
  destruct (Rleb_spec (b j) (a i)); destruct (Rltb_spec (a i) (b (S j)));
  (split; [intros [[? ?]|[? ?]]; try discriminate; unfold Rmax, Rmin; rmm; lra
          |unfold Rmax, Rmin; rmm; intros; try lra; auto]).
Qed.

Lemma listed i j : (i < nA)%nat -> (In j (overlap_list nB a b i) <-> (j < nB)%nat /\ int_start a b i j < int_end a b i j).
Proof.
  intros Hi. unfold overlap_list. rewrite filter_In, in_seq. split.
  - intros [H1 H2]. split; [lia|]. apply overlaps_iff; [exact Hi|lia|exact H2].
  - intros [H1 H2]. split; [lia|]. apply overlaps_iff; assumption.
Qed.

Lemma panel_inside i j : (i < nA)%nat -> In j (overlap_list nB a b i) ->
  int_start a b i j < int_end a b i j /\
  a i <= int_start a b i j /\ int_end a b i j <= a (S i) /\ b j <= int_start a b i j /\ int_end a b i j <= b (S j).
Proof.
  intros Hi Hj. apply listed in Hj; [|exact Hi]. destruct Hj as [Hj H]. split; [exact H|].
  unfold int_start, int_end. repeat split; [apply Rmax_l|apply Rmin_l|apply Rmax_r|apply Rmin_r].
Qed.

Lemma panel_cover t : Rmax (a 0%nat) (b 0%nat) <= t < Rmin (a nA) (b nB) ->
  exists i j, ((i < nA)%nat /\ In j (overlap_list nB a b i) /\ int_start a b i j <= t < int_end a b i j) /\
    forall i' j', (i' < nA)%nat -> In j' (overlap_list nB a b i') -> int_start a b i' j' <= t < int_end a b i' j' -> i' = i /\ j' = j.
Proof.
  intros Ht.
  assert (H1 : a 0%nat <= t < a nA) by (rmm; lra). assert (H2 : b 0%nat <= t < b nB) by (rmm; lra).
  destruct (incr_find nA a t Ha H1) as [i [Hi Ei]]. destruct (incr_find nB b t Hb H2) as [j [Hj Ej]].
  assert (S1 : int_start a b i j <= t < int_end a b i j) by (unfold int_start, int_end; rmm; lra).
  exists i, j. split.
  - split; [exact Hi|]. split; [apply listed; [exact Hi|split; [exact Hj|lra]]|exact S1].
  - intros i' j' Hi' Hj' Ht'. pose proof (panel_inside i' j' Hi' Hj') as [P0 [P1 [P2 [P3 P4]]]].
    apply listed in Hj'; [|exact Hi']. destruct Hj' as [Hj' _].
    split; [apply (incr_unique nA a t)|apply (incr_unique nB b t)]; auto; lra.
Qed.

(** ** Telescoping *)
Definition clampR (lo hi t : R) : R := Rmin (Rmax t lo) hi.

Lemma pair_clamp (F : R -> R) i j : (i < nA)%nat -> (j < nB)%nat ->
  (if overlaps a b i j then F (int_end a b i j) - F (int_start a b i j) else 0)
  = F (clampR (a i) (a (S i)) (b (S j))) - F (clampR (a i) (a (S i)) (b j)).
Proof.
  intros Hi Hj. pose proof (overlaps_iff i j Hi Hj) as E. pose proof (Ha i Hi). pose proof (Hb j Hj).
  destruct (overlaps a b i j).
  - assert (L : int_start a b i j < int_end a b i j) by (apply E; reflexivity).
    replace (clampR (a i) (a (S i)) (b (S j))) with (int_end a b i j) by (unfold clampR, int_start, int_end in *; rmm; lra).
    replace (clampR (a i) (a (S i)) (b j)) with (int_start a b i j) by (unfold clampR, int_start, int_end in *; rmm; lra).
    reflexivity.
  - assert (L : ~ int_start a b i j < int_end a b i j) by (intros C; apply E in C; discriminate).
    replace (clampR (a i) (a (S i)) (b (S j))) with (clampR (a i) (a (S i)) (b j)); [lra|].
    unfold clampR, int_start, int_end in *; rmm; lra.
Qed.

Lemma sum_telescope n (G : nat -> R) : sum n (fun i => G (S i) - G i) = G n - G 0%nat.
Proof. induction n; cbn [sum]; [lra|]. rewrite IHn. lra. Qed.

Lemma inner_clamp (F : R -> R) i : (i < nA)%nat ->
  lsum (overlap_list nB a b i) (fun j => F (int_end a b i j) - F (int_start a b i j))
  = F (clampR (a i) (a (S i)) (b nB)) - F (clampR (a i) (a (S i)) (b 0%nat)).
Proof.
  intros Hi. unfold overlap_list. rewrite lsum_filter, lsum_seq0.
  rewrite (sum_ext _ _ (fun j => F (clampR (a i) (a (S i)) (b (S j))) - F (clampR (a i) (a (S i)) (b j)))).
  - apply (sum_telescope nB (fun j => F (clampR (a i) (a (S i)) (b j)))).
  - intros j Hj. apply pair_clamp; assumption.
Qed.

Lemma outer_clamp (F : R -> R) t : sum nA (fun i => F (clampR (a i) (a (S i)) t) - F (a i)) = F (clampR (a 0%nat) (a nA) t) - F (a 0%nat).
Proof.
  rewrite (sum_ext _ _ (fun i => F (Rmin (Rmax t (a 0%nat)) (a (S i))) - F (Rmin (Rmax t (a 0%nat)) (a i)))).
  - rewrite (sum_telescope nA (fun i => F (Rmin (Rmax t (a 0%nat)) (a i)))). unfold clampR.
    replace (Rmin (Rmax t (a 0%nat)) (a 0%nat)) with (a 0%nat) by (rmm; lra). reflexivity.
  - intros i Hi. pose proof (Ha i Hi) as H1. pose proof (incr_le nA a Ha 0 i ltac:(lia) ltac:(lia)) as H2. unfold clampR.
    destruct (Rle_lt_dec (a i) t) as [L|L].
    + f_equal; f_equal; [|f_equal]; rmm; lra.
    + replace (Rmin (Rmax t (a i)) (a (S i))) with (a i) by (rmm; lra).
      replace (Rmin (Rmax t (a 0%nat)) (a (S i))) with (Rmin (Rmax t (a 0%nat)) (a i)) by (rmm; lra). lra.
Qed.

Lemma panels_total (F : R -> R) :
  sum nA (fun i => lsum (overlap_list nB a b i) (fun j => F (int_end a b i j) - F (int_start a b i j)))
  = if Rltb (Rmax (a 0%nat) (b 0%nat)) (Rmin (a nA) (b nB))
    then F (Rmin (a nA) (b nB)) - F (Rmax (a 0%nat) (b 0%nat)) else 0.
Proof.
  rewrite (sum_ext _ _ (fun i => (F (clampR (a i) (a (S i)) (b nB)) - F (a i)) - (F (clampR (a i) (a (S i)) (b 0%nat)) - F (a i)))).
  2:{ intros i Hi. rewrite inner_clamp by exact Hi. lra. }
  rewrite sum_minus, !outer_clamp.
  pose proof (incr_le nA a Ha 0 nA ltac:(lia) ltac:(lia)) as H1.
  pose proof (incr_le nB b Hb 0 nB ltac:(lia) ltac:(lia)) as H2.
  destruct (Rltb_spec (Rmax (a 0%nat) (b 0%nat)) (Rmin (a nA) (b nB))) as [L|L].
  - replace (clampR (a 0%nat) (a nA) (b nB)) with (Rmin (a nA) (b nB)) by (unfold clampR; rmm; lra).
    replace (clampR (a 0%nat) (a nA) (b 0%nat)) with (Rmax (a 0%nat) (b 0%nat)) by (unfold clampR; rmm; lra). lra.
  - replace (clampR (a 0%nat) (a nA) (b nB)) with (clampR (a 0%nat) (a nA) (b 0%nat)) by (unfold clampR; rmm; lra). lra.
Qed.

(** ** The matrix *)
Lemma rect_value r0 nr c0 nc B M u v : add_rect r0 nr c0 nc B M u v =
  M u v + (if ((r0 <=? u) && (u <? r0 + nr) && ((c0 <=? v) && (v <? c0 + nc)))%nat%bool then B (u - r0)%nat (v - c0)%nat else 0).
Proof. unfold add_rect. destruct (_ && _)%bool; lra. Qed.

Definition share (B : nat -> nat -> mat) (u v i j : nat) : R :=
  if ((fa i <=? u) && (u <? fa i + ca i) && ((fb j <=? v) && (v <? fb j + cb j)))%nat%bool
  then B i j (u - fa i)%nat (v - fb j)%nat else 0.

Lemma cross_entry B u v : cross_matrix nA nB a b fa ca fb cb B u v
  = sum nA (fun i => lsum (overlap_list nB a b i) (share B u v i)).
Proof.
  unfold cross_matrix. rewrite <- lsum_seq0.
  assert (HI : forall i l M, fold_left (fun S j => add_rect (fa i) (ca i) (fb j) (cb j) (B i j) S) l M u v = M u v + lsum l (share B u v i)).
  { intros i. induction l as [|j l IH]; intros M; cbn [fold_left]; [unfold lsum; cbn; lra|].
    rewrite IH, rect_value, lsum_cons. unfold share at 2. lra. }
  assert (HO : forall l M, fold_left (fun S i => fold_left (fun S j => add_rect (fa i) (ca i) (fb j) (cb j) (B i j) S) (overlap_list nB a b i) S) l M u v
              = M u v + lsum l (fun i => lsum (overlap_list nB a b i) (share B u v i))).
  { induction l as [|i l IH]; intros M; cbn [fold_left]; [unfold lsum; cbn; lra|].
    rewrite IH, HI, lsum_cons. lra. }
  rewrite HO. unfold mzero. lra.
Qed.

Lemma cross_exact B u v (F : R -> R) :
  (forall i j, (i < nA)%nat -> In j (overlap_list nB a b i) ->
     share B u v i j = F (int_end a b i j) - F (int_start a b i j)) ->
  cross_matrix nA nB a b fa ca fb cb B u v =
    if Rltb (Rmax (a 0%nat) (b 0%nat)) (Rmin (a nA) (b nB))
    then F (Rmin (a nA) (b nB)) - F (Rmax (a 0%nat) (b 0%nat)) else 0.
Proof.
  intros H. rewrite cross_entry, <- panels_total. apply sum_ext. intros i Hi. apply lsum_ext. intros j Hj. apply H; assumption.
Qed.

(** ** One block *)
Lemma cross_points nq (x : vec) i j q : (i < nA)%nat -> In j (overlap_list nB a b i) -> (q < nq)%nat ->
  let t := Rmin (Rmax (1 / 2 * (int_end a b i j + int_start a b i j) + 1 / 2 * (int_end a b i j - int_start a b i j) * x q) (int_start a b i j)) (int_end a b i j) in
  (a i <= t <= a (S i) /\ b j <= t <= b (S j)) /\
  (-1 <= x q <= 1 -> t = node x (int_start a b i j) (int_end a b i j) q).
Proof.
  intros Hi Hj Hq t. pose proof (panel_inside i j Hi Hj) as [P0 [P1 [P2 [P3 P4]]]].
  split.
  - unfold t. rmm; lra.
  - intros Hx. unfold t, node.
    set (s := int_start a b i j) in *. set (e := int_end a b i j) in *.
    replace (1 / 2 * (e + s) + 1 / 2 * (e - s) * x q) with ((e + s) / 2 + (e - s) / 2 * x q) by field.
    assert (s <= (e + s) / 2 + (e - s) / 2 * x q <= e) by nra.
    rmm; lra.
Qed.

Lemma block_quad nq (x w : vec) wt fi fj i j u v : (i < nA)%nat -> In j (overlap_list nB a b i) ->
  (forall q, (q < nq)%nat -> -1 <= x q <= 1) ->
  cross_block a b nq x w wt fi fj i j u v = quad nq x w (int_start a b i j) (int_end a b i j) (fun t => wt t * fi t u * fj t v).
Proof.
  intros Hi Hj Hx. unfold cross_block, quad. cbv zeta. apply sum_ext. intros q Hq.
  pose proof (cross_points nq x i j q Hi Hj Hq) as C. cbv zeta in C. destruct C as [_ C]. rewrite C by (apply Hx; exact Hq).
  unfold node. field.
Qed.
End Cross.

(* ------------------------------------------------------------------ *)
(** * Angular rule *)
Section Compound.
Variables (xc wc : vec) (nphi : nat).
Let dphi := 2 * PI / INR nphi.
Let step := fun (i : nat) (st : vec * vec * vec) (j : nat) =>
      let '(cth, phi, w) := st in
      let idx := (i * nphi + j)%nat in
      (store1 cth idx (xc i), store1 phi idx (INR j * dphi), store1 w idx (wc i * dphi)).

Lemma row_fill i k : forall st idx,
  let st' := fold_left (step i) (seq 0 k) st in
  let hit := ((i * nphi <=? idx) && (idx <? i * nphi + k))%nat%bool in
  fst (fst st') idx = (if hit then xc i else fst (fst st) idx) /\
  snd (fst st') idx = (if hit then INR (idx - i * nphi) * dphi else snd (fst st) idx) /\
  snd st' idx = (if hit then wc i * dphi else snd st idx).
Proof.
  induction k as [|k IH]; intros st idx.
  - cbn [seq fold_left]. cbv zeta. destruct (Nat.leb_spec (i * nphi) idx); destruct (Nat.ltb_spec idx (i * nphi + 0)); cbn [andb]; try lia; auto.
  - rewrite seq_S, fold_left_app. cbn [fold_left Nat.add].
    specialize (IH st idx). cbv zeta in IH |- *.
    destruct (fold_left (step i) (seq 0 k) st) as [[c p] w'] eqn:E. cbn [fst snd] in IH. destruct IH as [I1 [I2 I3]].
    unfold step. cbn [fst snd]. unfold store1.
    destruct (Nat.eqb_spec idx (i * nphi + k)) as [->|Hn].
    + destruct (Nat.leb_spec (i * nphi) (i * nphi + k)); [|lia].
      destruct (Nat.ltb_spec (i * nphi + k) (i * nphi + S k)); [|lia]. cbn [andb].
      replace (i * nphi + k - i * nphi)%nat with k by lia. auto.
    + rewrite I1, I2, I3.
      destruct (Nat.leb_spec (i * nphi) idx); destruct (Nat.ltb_spec idx (i * nphi + k)); destruct (Nat.ltb_spec idx (i * nphi + S k)); cbn [andb]; try lia; auto.
Qed.

Lemma all_fill n : (1 <= nphi)%nat -> forall idx, (idx < n * nphi)%nat ->
  fst (fst (compound_rule n xc wc nphi)) idx = xc (idx / nphi)%nat /\
  snd (fst (compound_rule n xc wc nphi)) idx = INR (idx mod nphi) * dphi /\
  snd (compound_rule n xc wc nphi) idx = wc (idx / nphi)%nat * dphi.
Proof.
  intros Hp.
  assert (H : forall m, (m <= n)%nat -> forall idx,
     let st := fold_left (fun st i => fold_left (step i) (seq 0 nphi) st) (seq 0 m) ((fun _ => 0), (fun _ => 0), (fun _ => 0)) in
     (idx < m * nphi)%nat ->
     fst (fst st) idx = xc (idx / nphi)%nat /\ snd (fst st) idx = INR (idx mod nphi) * dphi /\ snd st idx = wc (idx / nphi)%nat * dphi).
  { induction m as [|m IH]; intros Hm idx; [cbn; lia|]. cbv zeta.
    rewrite seq_S, fold_left_app. cbn [fold_left Nat.add]. intros Hidx.
    pose proof (row_fill m nphi (fold_left (fun st i => fold_left (step i) (seq 0 nphi) st) (seq 0 m) ((fun _ => 0), (fun _ => 0), (fun _ => 0))) idx) as R.
    cbv zeta in R. destruct R as [R1 [R2 R3]]. rewrite R1, R2, R3.
    destruct (Nat.leb_spec (m * nphi) idx) as [L|L].
    - destruct (Nat.ltb_spec idx (m * nphi + nphi)) as [_|C]; [|lia]. cbn [andb].
      assert (Eq : (idx / nphi = m)%nat).
      { symmetry. apply (Nat.div_unique idx nphi m (idx - m * nphi)); lia. }
      assert (Em : (idx mod nphi = idx - m * nphi)%nat).
      { symmetry. apply (Nat.mod_unique idx nphi m (idx - m * nphi)); lia. }
      rewrite Eq, Em. auto.
    - cbn [andb]. apply IH; lia. }
  intros idx Hi. apply (H n (le_n n) idx Hi).
Qed.

Lemma compound_sum n (f : R -> R -> R) : (1 <= nphi)%nat ->
  let '(cth, phi, w) := compound_rule n xc wc nphi in
  sum (n * nphi) (fun k => w k * f (cth k) (phi k)) =
  sum n (fun i => wc i * (dphi * sum nphi (fun j => f (xc i) (INR j * dphi)))).
Proof.
  intros Hp. pose proof (all_fill n Hp) as A. destruct (compound_rule n xc wc nphi) as [[cth phi] w]. cbn [fst snd] in A.
  rewrite (sum_ext _ _ (fun k => (fun i j => wc i * dphi * f (xc i) (INR j * dphi)) (k / nphi)%nat (k mod nphi)%nat)).
  2:{ intros k Hk. destruct (A k Hk) as [A1 [A2 A3]]. rewrite A1, A2, A3. reflexivity. }
  rewrite (sum_flatten n nphi (fun i j => wc i * dphi * f (xc i) (INR j * dphi))). apply sum_ext. intros i Hi.
  rewrite <- sum_scal, <- sum_scal. apply sum_ext. intros j Hj. ring.
Qed.
End Compound.

(** Sums of sines and cosines over equally spaced angles. *)
Lemma cos_telescope h n : 2 * sin (h / 2) * sum n (fun j => cos (INR j * h)) = sin ((INR n - 1 / 2) * h) + sin (h / 2).
Proof.
  induction n as [|n IH].
  - cbn [sum]. cbn [INR]. replace ((0 - 1 / 2) * h) with (- (h / 2)) by field. rewrite sin_neg. lra.
  - cbn [sum]. rewrite Rmult_plus_distr_l, IH. rewrite S_INR.
    replace ((INR n - 1 / 2) * h) with (INR n * h - h / 2) by field.
    replace ((INR n + 1 - 1 / 2) * h) with (INR n * h + h / 2) by field.
    rewrite sin_plus, sin_minus. ring.
Qed.
Lemma sin_telescope h n : 2 * sin (h / 2) * sum n (fun j => sin (INR j * h)) = cos (h / 2) - cos ((INR n - 1 / 2) * h).
Proof.
  induction n as [|n IH].
  - cbn [sum]. cbn [INR]. replace ((0 - 1 / 2) * h) with (- (h / 2)) by field. rewrite cos_neg. lra.
  - cbn [sum]. rewrite Rmult_plus_distr_l, IH. rewrite S_INR.
    replace ((INR n - 1 / 2) * h) with (INR n * h - h / 2) by field.
    replace ((INR n + 1 - 1 / 2) * h) with (INR n * h + h / 2) by field.
    rewrite cos_plus, cos_minus. ring.
Qed.
Section Phi.
Variables (m n : nat).
Hypothesis Hm : (0 < m < n)%nat.
Let dphi := 2 * PI / INR n.
Let h := INR m * dphi.
Lemma n_pos : 0 < INR n. Proof. apply lt_0_INR. lia. Qed.
Lemma half_pos : sin (h / 2) <> 0.
Proof.
  assert (Hn := n_pos). assert (0 < INR m) by (apply lt_0_INR; lia). assert (INR m < INR n) by (apply lt_INR; lia).
  assert (E : h / 2 = PI * (INR m / INR n)) by (unfold h, dphi; field; lra).
  assert (0 < INR m / INR n < 1).
  { split; [apply Rdiv_lt_0_compat; assumption|]. apply (Rmult_lt_reg_r (INR n)); [exact Hn|]. unfold Rdiv.
    rewrite Rmult_assoc, Rinv_l by lra. lra. }
  assert (0 < sin (h / 2)); [|lra]. pose proof PI_RGT_0. apply sin_gt_0; rewrite E; nra.
Qed.
Lemma last_angle : (INR n - 1 / 2) * h = - (h / 2) + 2 * INR m * PI.
Proof. assert (Hn := n_pos). unfold h, dphi. field. lra. Qed.
Lemma cos_sum : sum n (fun j => cos (INR m * (INR j * dphi))) = 0.
Proof.
  pose proof (cos_telescope h n) as E. rewrite last_angle, sin_period, sin_neg in E.
  rewrite (sum_ext _ _ (fun j => cos (INR j * h))) by (intros j _; f_equal; unfold h; ring).
  pose proof half_pos. apply (Rmult_eq_reg_l (2 * sin (h / 2))); [lra|lra].
Qed.
Lemma sin_sum : sum n (fun j => sin (INR m * (INR j * dphi))) = 0.
Proof.
  pose proof (sin_telescope h n) as E. rewrite last_angle, cos_period, cos_neg in E.
  rewrite (sum_ext _ _ (fun j => sin (INR j * h))) by (intros j _; f_equal; unfold h; ring).
  pose proof half_pos. apply (Rmult_eq_reg_l (2 * sin (h / 2))); [lra|lra].
Qed.
End Phi.

Lemma sum_one n : sum n (fun _ => 1) = INR n.
Proof. induction n; [reflexivity|]. cbn [sum]. rewrite IHn, S_INR. reflexivity. Qed.

Lemma phi_exact n m : (m < n)%nat ->
  (2 * PI / INR n) * sum n (fun j => cos (INR m * (INR j * (2 * PI / INR n)))) = (if (m =? 0)%nat then 2 * PI else 0) /\
  (2 * PI / INR n) * sum n (fun j => sin (INR m * (INR j * (2 * PI / INR n)))) = 0.
Proof.
  intros H. assert (Hn : 0 < INR n) by (apply lt_0_INR; lia). destruct (Nat.eqb_spec m 0) as [->|Hm].
  - split.
    + rewrite (sum_ext _ _ (fun _ => 1)) by (intros j _; cbn [INR]; rewrite Rmult_0_l; apply cos_0).
      rewrite sum_one. field. lra.
    + rewrite (sum_zero' n); [ring|]. intros j _. cbn [INR]. rewrite Rmult_0_l. apply sin_0.
  - rewrite cos_sum, sin_sum by lia. split; ring.
Qed.
