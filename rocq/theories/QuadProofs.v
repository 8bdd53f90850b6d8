(** Proofs of the quadrature properties. *)
Require Import Reals List Arith Bool ZArith Lia Lra Psatz Permutation Sorted.
Require Import Verif.Prelude Verif.FEModel Verif.FEProofs Verif.QuadModel Verif.QuadSpec.
Import ListNotations.
Open Scope R_scope.

(* ------------------------------------------------------------------ *)
(** * Ladders *)

Lemma order_0 nmax n0 : (n0 <= nmax)%nat -> order nmax n0 0 = n0.
Proof. intros H. unfold order. destruct (nmax <=? n0)%nat; [reflexivity|]. rewrite Nat.mul_1_r. lia. Qed.
Lemma order_0' nmax n0 : order nmax n0 0 = n0.
Proof. unfold order. destruct (Nat.leb_spec nmax n0); [reflexivity|]. rewrite Nat.mul_1_r. lia. Qed.
Lemma order_S nmax n0 i : (order nmax n0 i < nmax)%nat -> order nmax n0 (S i) = Nat.min (2 * order nmax n0 i) nmax.
Proof.
  unfold order. destruct (Nat.leb_spec nmax n0) as [H|H]; intros E; [lia|].
  rewrite Nat.pow_succ_r'. assert (n0 * 2 ^ i < nmax)%nat by lia.
  rewrite (Nat.min_l (n0 * 2 ^ i)) by lia. replace (n0 * (2 * 2 ^ i))%nat with (2 * (n0 * 2 ^ i))%nat by ring. reflexivity.
Qed.
Lemma fscal_fplus c t s : fscal c (fplus s t) = rel c t s.
Proof. destruct s; reflexivity. Qed.
Lemma fscal_times c s : fscal c s = times c s.
Proof. destruct s; reflexivity. Qed.
Lemma flt_half c d e : 0 < c -> magnitude d -> flt (times c d) e -> fle (Fin 0) d.
Proof. intros Hc [->|H] H1; [discriminate H1|exact H]. Qed.

Section Ladder.
Variable Blk : Type.
Variables (dist : Blk -> Blk -> fp) (scale : Blk -> fp).
Variables (tol sqrteps floor_rel : R).
Variable eval : nat -> Blk.
Variables (nmax n0 : nat).
Hypothesis Hn0 : (1 <= n0)%nat.
Hypothesis Hd : forall a b, magnitude (dist a b).
Let o := order nmax n0.
Let d := fun k => dist (eval (o k)) (eval (o (k - 1)%nat)).
Let s := fun k => scale (eval (o k)).

Lemma stop_true k : (1 <= k)%nat ->
  (rule_stop Blk dist scale tol sqrteps (eval (o k)) (eval (o (k - 1)%nat))
    (if (2 <=? k)%nat then d (k - 1) else Fin (-1)) (if (3 <=? k)%nat then d (k - 2) else Fin (-1)) = true
   <-> settled tol sqrteps d s k).
Proof.
  intros Hk. unfold rule_stop. rewrite !fscal_fplus, !fscal_times.
  change (dist (eval (o k)) (eval (o (k - 1)%nat))) with (d k). change (scale (eval (o k))) with (s k).
  unfold settled, fle, flt. rewrite !orb_true_iff, !andb_true_iff.
  split.
  - intros [[H|[[H1 H2] H3]]|[[H1 H2] H3]].
    + left. split; [lia|exact H].
    + destruct (Nat.leb_spec 2 k).
      * right; left. split; [lia|]. split; assumption.
      * exfalso. cbn in H1. destruct (Rleb_spec 0 (-1)); [lra|discriminate].
    + destruct (Nat.leb_spec 3 k).
      * right; right. split; [lia|]. split; assumption.
      * exfalso. cbn in H1. destruct (Rleb_spec 0 (-1)); [lra|discriminate].
  - intros [[H1 H2]|[[H1 [H2 H3]]|[H1 [H2 H3]]]].
    + left; left. exact H2.
    + left; right. destruct (Nat.leb_spec 2 k); [|lia]. repeat split; try assumption.
      apply (flt_half (1/2) (d (k-1)%nat) (d k)); [lra|apply Hd|exact H3].
    + right. destruct (Nat.leb_spec 3 k); [|lia]. repeat split; try assumption.
      apply (flt_half (1/8) (d (k-2)%nat) (d k)); [lra|apply Hd|exact H3].
Qed.

Lemma block_true k : (1 <= k)%nat ->
  (block_stop Blk dist scale tol sqrteps floor_rel (eval (o k)) (eval (o (k - 1)%nat))
    (if (2 <=? k)%nat then d (k - 1) else Fin (-1)) = true
   <-> settled2 tol sqrteps floor_rel d s k).
Proof.
  intros Hk. unfold block_stop. rewrite !fscal_fplus, !fscal_times.
  change (dist (eval (o k)) (eval (o (k - 1)%nat))) with (d k). change (scale (eval (o k))) with (s k).
  unfold settled2, fle, flt. rewrite !orb_true_iff, !andb_true_iff, !orb_true_iff, !andb_true_iff.
  split.
  - intros [H|[H1 [H2|[H2 H3]]]].
    + left. split; [lia|exact H].
    + right. split; [lia|]. split; [exact H1|]. left. exact H2.
    + right. split; [lia|]. split; [exact H1|]. right.
      destruct (Nat.leb_spec 2 k).
      * split; [lia|exact H3].
      * exfalso. cbn in H2. destruct (Rleb_spec 0 (-1)); [lra|discriminate].
  - intros [[H1 H2]|[H1 [H2 [H3|[H3 H4]]]]].
    + left. exact H2.
    + right. split; [exact H2|]. left; exact H3.
    + right. split; [exact H2|]. right. destruct (Nat.leb_spec 2 k); [|lia]. split; [|exact H4].
      apply (flt_half (1/2) (d (k-1)%nat) (d k)); [lra|apply Hd|exact H4].
Qed.

Lemma settled_0 : ~ settled tol sqrteps d s 0.
Proof. intros [[H _]|[[H _]|[H _]]]; lia. Qed.
Lemma settled2_0 : ~ settled2 tol sqrteps floor_rel d s 0.
Proof. intros [[H _]|[H _]]; lia. Qed.

Lemma o_pos i : (1 <= o i)%nat \/ (nmax = 0)%nat.
Proof.
  unfold o, order. destruct (Nat.leb_spec nmax n0); [lia|].
  assert (1 <= 2 ^ i)%nat by (apply Nat.neq_0_lt_0; apply Nat.pow_nonzero; lia).
  assert (1 <= n0 * 2 ^ i)%nat by nia. lia.
Qed.

Lemma tried_step (i : nat) : o i :: rev (map o (seq 0 i)) = rev (map o (seq 0 (S i))).
Proof. rewrite seq_S, map_app, rev_app_distr. reflexivity. Qed.

Lemma rule_inv : forall fuel i,
  (forall j, (j < i)%nat -> ~ settled tol sqrteps d s j /\ (o j < nmax)%nat) ->
  (1 <= fuel)%nat -> (nmax < fuel + o i)%nat ->
  exists k, rule_loop Blk dist scale tol sqrteps eval nmax fuel (o i)
              (match i with O => None | S p => Some (eval (o p)) end)
              (if (2 <=? i)%nat then d (i - 1) else Fin (-1)) (if (3 <=? i)%nat then d (i - 2) else Fin (-1))
              (rev (map o (seq 0 i)))
            = Ok (rev (map o (seq 0 (S k))), eval (o k))
    /\ first_stop nmax n0 (settled tol sqrteps d s) k.
Proof.
  induction fuel as [|f IH]; intros i Hi Hf Hm; [lia|].
  cbn [rule_loop]. rewrite tried_step.
  assert (Done : (settled tol sqrteps d s i \/ (nmax <= o i)%nat) -> first_stop nmax n0 (settled tol sqrteps d s) i)
    by (intros D; split; [exact D|exact Hi]).
  assert (Go : ~ settled tol sqrteps d s i -> (o i < nmax)%nat ->
     exists k, rule_loop Blk dist scale tol sqrteps eval nmax f (o (S i)) (Some (eval (o i)))
              (if (2 <=? S i)%nat then d (S i - 1) else Fin (-1)) (if (3 <=? S i)%nat then d (S i - 2) else Fin (-1))
              (rev (map o (seq 0 (S i))))
            = Ok (rev (map o (seq 0 (S k))), eval (o k))
    /\ first_stop nmax n0 (settled tol sqrteps d s) k).
  { intros Hns Hlt. apply (IH (S i)).
    - intros j Hj. destruct (Nat.eq_dec j i) as [->|]; [split; assumption|apply Hi; lia].
    - destruct (o_pos i); lia.
    - pose proof (o_pos i). unfold o at 1. rewrite order_S by exact Hlt. fold (o i). lia. }
  destruct i as [|p].
  - destruct (Nat.leb_spec nmax (o 0)) as [Hc|Hc].
    + exists 0%nat. split; [reflexivity|]. apply Done. right. exact Hc.
    + destruct (Go settled_0 Hc) as [k [E F]]. exists k. split; [|exact F].
      rewrite <- E. f_equal. symmetry. apply order_S. exact Hc.
  - destruct (stop_true (S p) ltac:(lia)) as [S1 S2].
    replace (S p - 1)%nat with p in S1, S2 by lia.
    replace (S p - 1)%nat with p by lia.
    destruct (rule_stop _ _ _ _ _ _ _ _ _) eqn:E.
    + exists (S p). split; [reflexivity|]. apply Done. left. apply S1. reflexivity.
    + assert (Hns : ~ settled tol sqrteps d s (S p)) by (intros C; apply S2 in C; discriminate).
      destruct (Nat.leb_spec nmax (o (S p))) as [Hc|Hc].
      * exists (S p). split; [reflexivity|]. apply Done. right. exact Hc.
      * destruct (Go Hns Hc) as [k [E' F]]. exists k. split; [|exact F].
        rewrite <- E'. f_equal.
        -- symmetry. apply order_S. exact Hc.
        -- unfold d. replace (S (S p) - 1)%nat with (S p) by lia. replace (S p - 1)%nat with p by lia. reflexivity.
        -- replace (S (S p) - 2)%nat with p by lia. reflexivity.
Qed.

Lemma seed_eq i : (match i with O => eval (o i) | S _ => eval (o 0) end) = eval (o 0).
Proof. destruct i; reflexivity. Qed.

Lemma block_inv fallback : forall fuel i,
  (forall j, (j < i)%nat -> ~ settled2 tol sqrteps floor_rel d s j /\ (o j < nmax)%nat) ->
  (1 <= fuel)%nat -> (nmax < fuel + o i)%nat ->
  exists k, first_stop nmax n0 (settled2 tol sqrteps floor_rel d s) k /\
    ((settled2 tol sqrteps floor_rel d s k \/ fallback = false) ->
       block_loop Blk dist scale tol sqrteps floor_rel eval nmax fallback n0 fuel (o i)
              (match i with O => None | S p => Some (eval (o p)) end)
              (match i with O => None | S _ => Some (eval (o 0)) end)
              (if (2 <=? i)%nat then d (i - 1) else Fin (-1))
              (rev (map o (seq 0 i)))
            = Ok (rev (map o (seq 0 (S k))), eval (o k), o k))
    /\ (~ settled2 tol sqrteps floor_rel d s k -> fallback = true ->
       block_loop Blk dist scale tol sqrteps floor_rel eval nmax fallback n0 fuel (o i)
              (match i with O => None | S p => Some (eval (o p)) end)
              (match i with O => None | S _ => Some (eval (o 0)) end)
              (if (2 <=? i)%nat then d (i - 1) else Fin (-1))
              (rev (map o (seq 0 i)))
            = Ok (rev (map o (seq 0 (S k))), eval (o 0), n0)).
Proof.
  induction fuel as [|f IH]; intros i Hi Hf Hm; [lia|].
  cbn [block_loop]. rewrite tried_step.
  assert (Done : (settled2 tol sqrteps floor_rel d s i \/ (nmax <= o i)%nat) -> first_stop nmax n0 (settled2 tol sqrteps floor_rel d s) i)
    by (intros D; split; [exact D|exact Hi]).
  assert (Go := fun (Hns : ~ settled2 tol sqrteps floor_rel d s i) (Hlt : (o i < nmax)%nat) => IH (S i)).
  assert (Go' : ~ settled2 tol sqrteps floor_rel d s i -> (o i < nmax)%nat ->
    (forall j : nat, (j < S i)%nat -> ~ settled2 tol sqrteps floor_rel d s j /\ (o j < nmax)%nat) /\ (1 <= f)%nat /\ (nmax < f + o (S i))%nat).
  { intros Hns Hlt. split; [|split].
    - intros j Hj. destruct (Nat.eq_dec j i) as [->|]; [split; assumption|apply Hi; lia].
    - destruct (o_pos i); lia.
    - pose proof (o_pos i). unfold o at 1. rewrite order_S by exact Hlt. fold (o i). lia. }
  destruct i as [|p].
  - destruct (Nat.leb_spec nmax (o 0)) as [Hc|Hc].
    + exists 0%nat. split; [apply Done; right; exact Hc|]. destruct fallback.
      * split; [intros [H|H]; [exfalso; apply settled2_0; exact H|discriminate]|reflexivity].
      * split; [reflexivity|discriminate].
    + destruct (Go' settled2_0 Hc) as [H1 [H2 H3]].
      destruct (IH 1%nat H1 H2 H3) as [k [F [E1 E2]]]. exists k. split; [exact F|].
      replace (Nat.min (2 * o 0) nmax) with (o 1) by (apply order_S; exact Hc).
      split; assumption.
  - destruct (block_true (S p) ltac:(lia)) as [S1 S2].
    replace (S p - 1)%nat with p in S1, S2 by lia.
    replace (S p - 1)%nat with p by lia.
    destruct (block_stop _ _ _ _ _ _ _ _ _) eqn:E.
    + exists (S p). assert (Hs := S1 eq_refl). split; [apply Done; left; exact Hs|].
      split; [reflexivity|]. intros C; contradiction.
    + assert (Hns : ~ settled2 tol sqrteps floor_rel d s (S p)) by (intros C; apply S2 in C; discriminate).
      destruct (Nat.leb_spec nmax (o (S p))) as [Hc|Hc].
      * exists (S p). split; [apply Done; right; exact Hc|]. destruct fallback.
        -- split; [intros [H|H]; [contradiction|discriminate]|reflexivity].
        -- split; [reflexivity|discriminate].
      * destruct (Go' Hns Hc) as [H1 [H2 H3]].
        destruct (IH (S (S p)) H1 H2 H3) as [k [F [E1 E2]]]. exists k. split; [exact F|].
        assert (Ed : dist (eval (o (S p))) (eval (o p)) = d (S (S p) - 1)).
        { unfold d. replace (S (S p) - 1)%nat with (S p) by lia. replace (S p - 1)%nat with p by lia. reflexivity. }
        rewrite Ed.
        replace (Nat.min (2 * o (S p)) nmax) with (o (S (S p))) by (apply order_S; exact Hc).
        split; assumption.
Qed.
End Ladder.

Lemma rule_runs (Blk : Type) dist scale tol sqrteps (eval : nat -> Blk) nmax nstart :
  (forall a b, magnitude (dist a b)) ->
  let n0 := Z.to_nat (Z.max nstart 2) in
  let o := order nmax n0 in
  exists k, converge_rule Blk dist scale tol sqrteps eval nmax nstart = Ok (rev (map o (seq 0 (S k))), eval (o k))
    /\ first_stop nmax n0 (settled tol sqrteps (fun i => dist (eval (o i)) (eval (o (i - 1)%nat))) (fun i => scale (eval (o i)))) k.
Proof.
  intros Hd n0 o.
  destruct (rule_inv Blk dist scale tol sqrteps eval nmax n0 ltac:(unfold n0; lia) Hd (S nmax) 0) as [k [E F]].
  - intros j Hj; lia.
  - lia.
  - lia.
  - exists k. split; [|exact F]. unfold converge_rule. fold n0. unfold o.
    rewrite order_0' in E. exact E.
Qed.

Lemma block_runs (Blk : Type) dist scale tol sqrteps floor_rel (eval : nat -> Blk) nmax fallback nstart :
  (forall a b, magnitude (dist a b)) ->
  let n0 := Z.to_nat (Z.max nstart 2) in
  let o := order nmax n0 in
  let ok := settled2 tol sqrteps floor_rel (fun i => dist (eval (o i)) (eval (o (i - 1)%nat))) (fun i => scale (eval (o i))) in
  exists k, first_stop nmax n0 ok k /\
    ((ok k \/ fallback = false) ->
       converge_block Blk dist scale tol sqrteps floor_rel eval nmax fallback nstart
       = Ok (rev (map o (seq 0 (S k))), eval (o k), o k)) /\
    (~ ok k -> fallback = true ->
       converge_block Blk dist scale tol sqrteps floor_rel eval nmax fallback nstart
       = Ok (rev (map o (seq 0 (S k))), eval n0, n0)).
Proof.
  intros Hd n0 o ok.
  destruct (block_inv Blk dist scale tol sqrteps floor_rel eval nmax n0 ltac:(unfold n0; lia) Hd fallback (S nmax) 0) as [k [F [E1 E2]]].
  - intros j Hj; lia.
  - lia.
  - lia.
  - exists k. rewrite order_0' in E1, E2. split; [exact F|]. split; assumption.
Qed.

(** ** Consequences *)
Lemma first_stop_bound nmax n0 ok k : (2 <= n0)%nat -> first_stop nmax n0 ok k ->
  k = 0%nat \/ (2 ^ k < nmax)%nat.
Proof.
  intros Hn [_ H]. destruct k as [|p]; [left; reflexivity|right].
  destruct (H p ltac:(lia)) as [_ Hp]. unfold order in Hp.
  destruct (Nat.leb_spec nmax n0); [lia|]. rewrite Nat.pow_succ_r'.
  assert (n0 * 2 ^ p < nmax)%nat by lia. nia.
Qed.

Lemma first_stop_evals ok n0 k : (2 <= n0)%nat -> first_stop order_cap n0 ok k -> (S k <= 9)%nat.
Proof.
  intros Hn H. destruct (first_stop_bound _ _ _ _ Hn H) as [->|H1]; [lia|].
  destruct (Nat.le_gt_cases k 8) as [|C]; [lia|exfalso].
  assert (2 ^ 9 <= 2 ^ k)%nat by (apply Nat.pow_le_mono_r; lia).
  unfold order_cap in H1. change (2 ^ 9)%nat with 512%nat in H0. lia.
Qed.

Lemma order_le nmax n0 k : (order nmax n0 k <= Nat.max nmax n0)%nat.
Proof. unfold order. destruct (nmax <=? n0)%nat; lia. Qed.

Lemma fle_fin a b : fle (Fin a) (Fin b) <-> a <= b.
Proof. unfold fle. cbn. destruct (Rleb_spec a b); split; intros; try lra; try discriminate; auto. Qed.
Lemma flt_fin a b : flt (Fin a) (Fin b) <-> a < b.
Proof. unfold flt. cbn. destruct (Rltb_spec a b); split; intros; try lra; try discriminate; auto. Qed.
Lemma fle_rel_mono d c1 c2 t s : c1 <= c2 -> 0 <= t -> magnitude s -> fle d (rel c1 t s) -> fle d (rel c2 t s).
Proof.
  intros Hc Ht Hm H. destruct s as [r| | |]; try exact H.
  destruct Hm as [C|Hm]; [discriminate|]. apply fle_fin in Hm.
  destruct d as [v| | |]; try exact H. cbn [rel] in *.
  apply fle_fin in H. apply fle_fin. nra.
Qed.
Lemma settled_close tol sqrteps d s k : 0 <= tol -> tol <= sqrteps -> (forall i, magnitude (s i)) ->
  settled tol sqrteps d s k -> (1 <= k)%nat /\ fle (d k) (rel sqrteps tol (s k)).
Proof.
  intros H0 H1 Hs [[K H]|[[K [H _]]|[K [H _]]]]; (split; [lia|]); try exact H.
  apply (fle_rel_mono _ tol); auto.
Qed.
Lemma settled2_close tol sqrteps fl d s k : 0 <= tol -> tol <= sqrteps -> (forall i, magnitude (s i)) ->
  settled2 tol sqrteps fl d s k -> (1 <= k)%nat /\ fle (d k) (rel sqrteps tol (s k)).
Proof.
  intros H0 H1 Hs [[K H]|[K [H _]]]; (split; [lia|]); try exact H.
  apply (fle_rel_mono _ tol); auto.
Qed.

(** A block that does not change any more is accepted at the second evaluation. *)
Lemma settles_at_1 tol d s : 0 <= tol -> d 1%nat = Fin 0 -> fle (Fin 0) (s 1%nat) -> forall q, settled tol q d s 1.
Proof.
  intros Ht Hd Hs q. left. split; [lia|]. rewrite Hd.
  destruct (s 1%nat) as [r| | |]; try exact Hs. apply fle_fin in Hs. cbn [rel]. apply fle_fin. nra.
Qed.

Lemma settled2_dec tol sqrteps fl d s k : settled2 tol sqrteps fl d s k \/ ~ settled2 tol sqrteps fl d s k.
Proof.
  assert (B : forall b, Decidable.decidable (b = true)) by (intros []; [left|right]; congruence).
  unfold settled2, fle, flt.
  repeat first [apply Decidable.dec_or | apply Decidable.dec_and | apply B | apply Nat.le_decidable].
Qed.

(** What the radial and one-electron ladders guarantee. *)
Lemma rule_result (Blk : Type) dist scale tol sqrteps (eval : nat -> Blk) nmax nstart :
  (forall a b, magnitude (dist a b)) -> (forall a, magnitude (scale a)) -> 0 <= tol -> tol <= sqrteps ->
  exists k tried, converge_rule Blk dist scale tol sqrteps eval nmax nstart
     = Ok (tried, eval (order nmax (Z.to_nat (Z.max nstart 2)) k)) /\
    tried = rev (map (order nmax (Z.to_nat (Z.max nstart 2))) (seq 0 (S k))) /\
    (forall n, In n tried -> (n <= Nat.max nmax (Z.to_nat (Z.max nstart 2)))%nat) /\
    (k = 0%nat \/ (2 ^ k < nmax)%nat) /\
    ((nmax <= order nmax (Z.to_nat (Z.max nstart 2)) k)%nat \/
     (1 <= k)%nat /\
     fle (dist (eval (order nmax (Z.to_nat (Z.max nstart 2)) k)) (eval (order nmax (Z.to_nat (Z.max nstart 2)) (k - 1))))
         (rel sqrteps tol (scale (eval (order nmax (Z.to_nat (Z.max nstart 2)) k))))).
Proof.
  intros Hd Hs Ht Hq.
  destruct (rule_runs Blk dist scale tol sqrteps eval nmax nstart Hd) as [k [E F]].
  exists k, (rev (map (order nmax (Z.to_nat (Z.max nstart 2))) (seq 0 (S k)))).
  split; [exact E|]. split; [reflexivity|]. split; [|split].
  - intros n Hn. apply in_rev in Hn. apply in_map_iff in Hn. destruct Hn as [i [<- _]]. apply order_le.
  - eapply first_stop_bound; [|exact F]. lia.
  - destruct F as [[A|A] _]; [right|left; exact A].
    apply (settled_close tol sqrteps _ _ k) in A; [exact A|exact Ht|exact Hq|]. intros i; apply Hs.
Qed.

Lemma block_result (Blk : Type) dist scale tol sqrteps floor_rel (eval : nat -> Blk) nmax fallback nstart :
  (forall a b, magnitude (dist a b)) -> (forall a, magnitude (scale a)) -> 0 <= tol -> tol <= sqrteps ->
  let n0 := Z.to_nat (Z.max nstart 2) in
  exists k tried n, converge_block Blk dist scale tol sqrteps floor_rel eval nmax fallback nstart = Ok (tried, eval n, n) /\
    tried = rev (map (order nmax n0) (seq 0 (S k))) /\ In n tried /\
    (forall i, In i tried -> (i <= Nat.max nmax n0)%nat) /\
    (k = 0%nat \/ (2 ^ k < nmax)%nat) /\
    (n = order nmax n0 k /\ (1 <= k)%nat /\
       fle (dist (eval n) (eval (order nmax n0 (k - 1)))) (rel sqrteps tol (scale (eval n)))
     \/ (nmax <= order nmax n0 k)%nat /\ n = (if fallback then n0 else order nmax n0 k)).
Proof.
  intros Hd Hs Ht Hq n0.
  destruct (block_runs Blk dist scale tol sqrteps floor_rel eval nmax fallback nstart Hd) as [k [F [E1 E2]]].
  fold n0 in F, E1, E2.
  assert (HB : k = 0%nat \/ (2 ^ k < nmax)%nat) by (eapply first_stop_bound; [|exact F]; unfold n0; lia).
  assert (HT : forall i, In i (rev (map (order nmax n0) (seq 0 (S k)))) -> (i <= Nat.max nmax n0)%nat).
  { intros n Hn. apply in_rev in Hn. apply in_map_iff in Hn. destruct Hn as [i [<- _]]. apply order_le. }
  assert (HI : forall i, (i <= k)%nat -> In (order nmax n0 i) (rev (map (order nmax n0) (seq 0 (S k))))).
  { intros i Hi. apply -> in_rev. apply in_map. apply in_seq. lia. }
  destruct F as [[A|A] F].
  - exists k, (rev (map (order nmax n0) (seq 0 (S k)))), (order nmax n0 k).
    split; [apply E1; left; exact A|]. split; [reflexivity|]. split; [apply HI; lia|].
    split; [exact HT|]. split; [exact HB|]. left. split; [reflexivity|].
    apply (settled2_close tol sqrteps floor_rel _ _ k) in A; [exact A|exact Ht|exact Hq|]. intros i; apply Hs.
  - destruct fallback.
    + assert (D : settled2 tol sqrteps floor_rel (fun i => dist (eval (order nmax n0 i)) (eval (order nmax n0 (i - 1)%nat))) (fun i => scale (eval (order nmax n0 i))) k \/ ~ settled2 tol sqrteps floor_rel (fun i => dist (eval (order nmax n0 i)) (eval (order nmax n0 (i - 1)%nat))) (fun i => scale (eval (order nmax n0 i))) k).
      { apply settled2_dec. }
      destruct D as [D|D].
      * exists k, (rev (map (order nmax n0) (seq 0 (S k)))), (order nmax n0 k).
        split; [apply E1; left; exact D|]. split; [reflexivity|]. split; [apply HI; lia|].
        split; [exact HT|]. split; [exact HB|]. left. split; [reflexivity|].
        apply (settled2_close tol sqrteps floor_rel _ _ k) in D; [exact D|exact Ht|exact Hq|]. intros i; apply Hs.
      * exists k, (rev (map (order nmax n0) (seq 0 (S k)))), n0.
        split; [apply E2; [exact D|reflexivity]|]. split; [reflexivity|].
        split; [rewrite <- (order_0' nmax n0) at 1; apply HI; lia|].
        split; [exact HT|]. split; [exact HB|]. right. split; [exact A|reflexivity].
    + exists k, (rev (map (order nmax n0) (seq 0 (S k)))), (order nmax n0 k).
      split; [apply E1; right; reflexivity|]. split; [reflexivity|]. split; [apply HI; lia|].
      split; [exact HT|]. split; [exact HB|]. right. split; [exact A|reflexivity].
Qed.

(** A rule that is exact from the start is evaluated twice and its value returned. *)
Lemma rule_exact (Blk : Type) dist scale tol sqrteps (eval : nat -> Blk) nmax nstart (I : Blk) :
  (forall a b, magnitude (dist a b)) -> 0 <= tol -> (forall a, dist a a = Fin 0) -> fle (Fin 0) (scale I) ->
  (Z.to_nat (Z.max nstart 2) < nmax)%nat ->
  (forall n, (Z.to_nat (Z.max nstart 2) <= n <= nmax)%nat -> eval n = I) ->
  exists n1, converge_rule Blk dist scale tol sqrteps eval nmax nstart = Ok ([n1; Z.to_nat (Z.max nstart 2)], I).
Proof.
  intros Hd Ht H0 Hs Hn He.
  destruct (rule_runs Blk dist scale tol sqrteps eval nmax nstart Hd) as [k [E F]].
  set (n0 := Z.to_nat (Z.max nstart 2)) in *.
  assert (B0 : (2 <= n0)%nat) by (unfold n0; lia).
  assert (O0 : order nmax n0 0 = n0) by apply order_0'.
  assert (O1 : order nmax n0 1 = Nat.min (2 * n0) nmax) by (rewrite order_S; rewrite O0; [reflexivity|lia]).
  assert (S1 : settled tol sqrteps (fun i => dist (eval (order nmax n0 i)) (eval (order nmax n0 (i - 1)))) (fun i => scale (eval (order nmax n0 i))) 1).
  { apply settles_at_1; [exact Ht| |].
    - cbn [Nat.sub]. rewrite O0, O1, !He by lia. apply H0.
    - cbn beta. rewrite O1, He by lia. exact Hs. }
  destruct F as [F1 F2].
  destruct k as [|[|k]].
  - exfalso. destruct F1 as [F1|F1].
    + destruct F1 as [[C _]|[[C _]|[C _]]]; lia.
    + rewrite O0 in F1. lia.
  - exists (order nmax n0 1). rewrite E. cbn [seq map rev app]. rewrite O0. rewrite (He (order nmax n0 1)) by lia. reflexivity.
  - exfalso. apply (F2 1%nat); [lia|exact S1].
Qed.

(** Non-numbers run the ladder to its cap. *)
Lemma rule_nan (Blk : Type) dist scale tol sqrteps (eval : nat -> Blk) nmax nstart :
  (forall a b, dist a b = NaN) -> (Z.to_nat (Z.max nstart 2) <= nmax)%nat ->
  exists tried, converge_rule Blk dist scale tol sqrteps eval nmax nstart = Ok (tried, eval nmax).
Proof.
  intros Hd Hn.
  destruct (rule_runs Blk dist scale tol sqrteps eval nmax nstart ltac:(intros; left; apply Hd)) as [k [E F]].
  eexists. rewrite E. do 2 f_equal.
  assert (A : (nmax <= order nmax (Z.to_nat (Z.max nstart 2)) k)%nat).
  { destruct F as [[A|A] _]; [exfalso|exact A].
    destruct A as [[_ A]|[[_ [A _]]|[_ [A _]]]]; rewrite Hd in A; discriminate A. }
  assert (order nmax (Z.to_nat (Z.max nstart 2)) k = nmax); [|rewrite H; reflexivity].
  unfold order in *. destruct (nmax <=? Z.to_nat (Z.max nstart 2))%nat; lia.
Qed.

(** Starting orders. *)
Lemma auto_nstart_ok nov nn fd :
  (5 <= auto_nstart nov nn fd <= 512)%Z /\
  ((2 * Z.max 0 (nov * nn - 1) + Z.max 0 fd <= 2 * auto_nstart nov nn fd - 3)%Z \/ auto_nstart nov nn fd = 512%Z).
Proof.
  unfold auto_nstart. set (dg := (2 * Z.max 0 (nov * nn - 1) + Z.max 0 fd)%Z).
  assert (0 <= dg)%Z by (unfold dg; lia).
  rewrite Z.quot_div_nonneg by lia.
  assert (Hd : (dg <= 2 * ((dg + 4) / 2 + 2) - 3)%Z).
  { pose proof (Z.mod_pos_bound (dg + 4) 2 ltac:(lia)). pose proof (Z.div_mod (dg + 4) 2 ltac:(lia)). lia. }
  set (m := ((dg + 4) / 2 + 2)%Z) in *.
  destruct (Z.ltb_spec m 5); destruct (Z.ltb_spec 512 5); destruct (Z.ltb_spec 512 m); lia.
Qed.
Lemma twoe_nstart_ok n : (5 <= twoe_nstart n <= 512)%nat /\ ((n <= twoe_nstart n)%nat \/ twoe_nstart n = 512%nat) /\ ((5 <= n <= 512)%nat -> twoe_nstart n = n).
Proof.
  unfold twoe_nstart, order_cap.
  destruct (Nat.ltb_spec n 5); destruct (Nat.ltb_spec 512 5); destruct (Nat.ltb_spec 512 n); lia.
Qed.

(* ------------------------------------------------------------------ *)
(** * Panels *)

Lemma sortR_in l v : In v (sortR l) <-> In v l.
Proof. split; intros H; [apply (Permutation_in v (Permutation_sym (sortR_perm l)))|apply (Permutation_in v (sortR_perm l))]; exact H. Qed.

(** The non-degenerate consecutive pairs of a sorted list tile the range from its
    first to its last entry. *)
Lemma tiles_sorted : forall l a, sorted_le (a :: l) ->
  tiles a (last (a :: l) 0) (filter (fun p => Rltb (fst p) (snd p)) (consecutive (a :: l))).
Proof.
  induction l as [|b l IH]; intros a H.
  - cbn. reflexivity.
  - apply sorted_le_tail in H as [Hs Ha].
    change (consecutive (a :: b :: l)) with ((a, b) :: consecutive (b :: l)).
    change (last (a :: b :: l) 0) with (last (b :: l) 0).
    cbn [filter fst snd]. destruct (Rltb_spec a b) as [L|L].
    + cbn [tiles fst snd]. split; [reflexivity|]. split; [exact L|]. apply IH. exact Hs.
    + assert (a = b) by (specialize (Ha b (or_introl eq_refl)); lra). subst b. apply IH. exact Hs.
Qed.

(** Nothing of a sorted list lies strictly between two consecutive entries. *)
Lemma consecutive_gap : forall l p v, sorted_le l -> In p (consecutive l) -> In v l -> ~ (fst p < v < snd p).
Proof.
  induction l as [|a l IH]; intros p v Hs Hp Hv; [destruct Hv|].
  destruct l as [|b l]; [destruct Hp|].
  change (consecutive (a :: b :: l)) with ((a, b) :: consecutive (b :: l)) in Hp.
  apply sorted_le_tail in Hs as [Hs Ha].
  destruct Hp as [<-|Hp].
  - cbn [fst snd]. destruct Hv as [->|Hv]; [lra|].
    destruct Hv as [->|Hv]; [lra|]. apply sorted_le_tail in Hs as [_ Hb]. specialize (Hb v Hv). lra.
  - destruct Hv as [<-|Hv]; [|apply (IH p v Hs Hp Hv)].
    assert (Hf : In (fst p) (b :: l)).
    { clear - Hp. revert p Hp. revert b. induction l as [|c l IH]; intros b p Hp; [destruct Hp|].
      change (consecutive (b :: c :: l)) with ((b, c) :: consecutive (c :: l)) in Hp.
      destruct Hp as [<-|Hp]; [left; reflexivity|]. right. apply IH. exact Hp. }
    specialize (Ha _ Hf). lra.
Qed.

Lemma consecutive_in : forall l p, In p (consecutive l) -> In (fst p) l /\ In (snd p) l.
Proof.
  induction l as [|a l IH]; intros p Hp; [destruct Hp|].
  destruct l as [|b l]; [destruct Hp|].
  change (consecutive (a :: b :: l)) with ((a, b) :: consecutive (b :: l)) in Hp.
  destruct Hp as [<-|Hp]; [cbn; auto|]. destruct (IH p Hp). split; right; assumption.
Qed.

Section Panels.
Variables (mid sf xl xr : R) (bps : list R).
Hypothesis Hsf : 0 < sf.
Hypothesis Hx : xl <= xr.
Let xb := panel_bounds mid sf xl xr bps.

Lemma xb_in v : In v xb <-> v = xl \/ v = xr \/ (xl < v < xr /\ In (mid + sf * v) bps).
Proof.
  unfold xb, panel_bounds. rewrite sortR_in. cbn [In]. rewrite in_app_iff. cbn [In].
  rewrite filter_In, in_map_iff.
  assert (E : (exists bp, (bp - mid) / sf = v /\ In bp bps) <-> In (mid + sf * v) bps).
  { split.
    - intros [bp [<- H]]. replace (mid + sf * ((bp - mid) / sf)) with bp by (field; lra). exact H.
    - intros H. exists (mid + sf * v). split; [field; lra|exact H]. }
  rewrite E. rewrite andb_true_iff.
  split.
  - intros [H|[[H [H1 H2]]|[H|[]]]]; auto.
    destruct (Rltb_spec xl v); [|discriminate]. destruct (Rltb_spec v xr); [|discriminate].
    right; right. split; [lra|exact H].
  - intros [H|[H|[[H1 H2] H]]]; auto.
    right; left. split; [exact H|]. destruct (Rltb_spec xl v); [|lra]. destruct (Rltb_spec v xr); [auto|lra].
Qed.

Lemma xb_sorted : sorted_le xb.
Proof. apply sortR_sorted. Qed.

Lemma xb_bounds v : In v xb -> xl <= v <= xr.
Proof. intros H. apply xb_in in H. destruct H as [->|[->|[H _]]]; lra. Qed.

Lemma sorted_ends l a b : sorted_le l -> In a l -> In b l -> (forall v, In v l -> a <= v <= b) -> hd 0 l = a /\ last l 0 = b.
Proof.
  intros Hs Ha Hb H. destruct l as [|h t]; [destruct Ha|]. split.
  - cbn. pose proof (proj2 (sorted_le_tail _ _ Hs)) as Hm. specialize (H h (or_introl eq_refl)).
    destruct Ha as [->|Ha]; [reflexivity|]. specialize (Hm a Ha). lra.
  - assert (L : In (last (h :: t) 0) (h :: t)).
    { assert (X : h :: t <> []) by discriminate. rewrite (app_removelast_last 0 X) at 2. apply in_or_app. right. left. reflexivity. }
    assert (M : forall v, In v (h :: t) -> v <= last (h :: t) 0).
    { clear - Hs. revert h Hs. induction t as [|c t IH]; intros h Hs v Hv.
      - destruct Hv as [->|[]]. cbn. lra.
      - apply sorted_le_tail in Hs as [Hs Hh]. change (last (h :: c :: t) 0) with (last (c :: t) 0).
        destruct Hv as [->|Hv]; [|apply IH; assumption].
        apply Rle_trans with c; [apply Hh; left; reflexivity|apply IH; [exact Hs|left; reflexivity]]. }
    specialize (M b Hb). specialize (H _ L). lra.
Qed.

Lemma panels_tile : tiles xl xr (panels mid sf xl xr bps).
Proof.
  unfold panels. change (panel_bounds mid sf xl xr bps) with xb.
  destruct (sorted_ends xb xl xr xb_sorted) as [E1 E2].
  - apply xb_in; auto.
  - apply xb_in; auto.
  - apply xb_bounds.
  - pose proof xb_sorted as Hs. destruct xb as [|h t]; [cbn in *; congruence|].
    cbn [hd] in E1. subst h. rewrite <- E2. apply tiles_sorted. exact Hs.
Qed.

Lemma panels_smooth p : In p (panels mid sf xl xr bps) -> smooth mid sf bps (fst p) (snd p).
Proof.
  unfold panels. change (panel_bounds mid sf xl xr bps) with xb. rewrite filter_In. intros [H _] v Hv C.
  pose proof (consecutive_in _ _ H) as [H1 H2]. apply xb_bounds in H1, H2.
  set (t := (v - mid) / sf). assert (Ev : v = mid + sf * t) by (unfold t; field; lra).
  assert (Ct : fst p < t < snd p) by (rewrite Ev in C; nra).
  apply (consecutive_gap xb p t xb_sorted H); [|exact Ct].
  apply xb_in. right; right. split; [lra|]. rewrite <- Ev. exact Hv.
Qed.

Lemma panels_ends p : In p (panels mid sf xl xr bps) -> xl <= fst p /\ fst p < snd p /\ snd p <= xr.
Proof.
  unfold panels. change (panel_bounds mid sf xl xr bps) with xb. rewrite filter_In. intros [H L].
  pose proof (consecutive_in _ _ H) as [H1 H2]. apply xb_bounds in H1, H2.
  destruct (Rltb_spec (fst p) (snd p)); [lra|discriminate].
Qed.

Lemma tiles_telescope (F : R -> R) : forall ps a b, tiles a b ps -> lsum ps (fun p => F (snd p) - F (fst p)) = F b - F a.
Proof.
  induction ps as [|p ps IH]; intros a b H.
  - cbn in H. subst. cbn. lra.
  - destruct H as [E [_ H]]. cbn [lsum]. unfold lsum in *. cbn [fold_right] in *. rewrite (IH _ _ H). subst a. lra.
Qed.

Lemma auto_sum (panel : R -> R -> mat) i j : panels mid sf xl xr bps <> [] ->
  matrix_element_auto panel mid sf xl xr bps i j = lsum (panels mid sf xl xr bps) (fun p => panel (fst p) (snd p) i j).
Proof.
  unfold matrix_element_auto. destruct (panels mid sf xl xr bps) as [|p ps]; [congruence|]. intros _.
  assert (H : forall l M, fold_left (fun total q => madd total (panel (fst q) (snd q))) l M i j = M i j + lsum l (fun p => panel (fst p) (snd p) i j)).
  { induction l as [|q l IH]; intros M; cbn [fold_left]; [unfold lsum; cbn; lra|].
    rewrite IH. unfold madd, lsum. cbn [fold_right]. lra. }
  rewrite H. unfold lsum. cbn [fold_right]. lra.
Qed.

Lemma auto_exact (panel : R -> R -> mat) (F : R -> R) i j :
  (forall a b, xl <= a -> a <= b -> b <= xr -> smooth mid sf bps a b -> panel a b i j = F b - F a) ->
  matrix_element_auto panel mid sf xl xr bps i j = F xr - F xl.
Proof.
  intros H. destruct (panels mid sf xl xr bps) as [|p ps] eqn:E.
  - unfold matrix_element_auto. rewrite E. pose proof panels_tile as T. rewrite E in T. cbn in T.
    apply H; try lra. intros v _ C. subst xr. nra.
  - rewrite auto_sum by (rewrite E; discriminate).
    rewrite <- (tiles_telescope F _ _ _ panels_tile). apply lsum_ext. intros q Hq.
    pose proof (panels_ends q Hq) as [? [? ?]]. apply H; try lra. apply panels_smooth. exact Hq.
Qed.
End Panels.
