(** Proofs about the quadrature caches. *)
Require Import Reals List Arith Bool ZArith Lia.
Require Import Verif.Prelude Verif.FEModel Verif.ShapeModel Verif.QuadModel Verif.RadModel Verif.RadSpec.
Import ListNotations.
Open Scope R_scope.

(** What a cache holds is what the evaluator gives. *)
Definition sound (tab : nat -> res table) (c : list table) : Prop :=
  forall i, sized (nth i c []) = true -> tab i = Ok (nth i c []).

Lemma put_length c i m : length (put c i m) = length c.
Proof. unfold put. rewrite map_length, seq_length. reflexivity. Qed.
Lemma put_nth c i m j : nth j (put c i m) [] = if ((j =? i)%nat && (j <? length c)%nat)%bool then m else nth j c [].
Proof.
  unfold put. destruct (Nat.ltb_spec j (length c)) as [H|H].
  - assert (G : forall g, nth j (map g (seq 0 (length c))) ([] : table) = g j).
    { intros g. rewrite nth_indep with (d' := g 0%nat) by (rewrite map_length, seq_length; exact H).
      rewrite (map_nth g (seq 0 (length c)) 0%nat j), seq_nth by exact H. reflexivity. }
    rewrite G. rewrite andb_true_r. reflexivity.
  - rewrite andb_false_r. rewrite !nth_overflow; [reflexivity | exact H | rewrite map_length, seq_length; exact H].
Qed.

Lemma sound_empty tab n : sound tab (repeat [] n).
Proof.
  intros i H. exfalso. assert (nth i (repeat ([] : table) n) [] = []) as E.
  { destruct (Nat.lt_ge_cases i n); [apply nth_repeat | apply nth_overflow; rewrite repeat_length; assumption]. }
  rewrite E in H. discriminate.
Qed.
Lemma sound_resized tab n c : sound tab c -> sound tab (resized n c).
Proof. intros H. unfold resized. destruct (length c =? n)%nat; [exact H | apply sound_empty]. Qed.
Lemma resized_length n c : length (resized n c) = n.
Proof. unfold resized. destruct (Nat.eqb_spec (length c) n); [assumption | apply repeat_length]. Qed.

Lemma fill1_sound tab need c i : sound tab c -> sound tab (fst (fill1 need (tab i) c i)).
Proof.
  intros H. unfold fill1. destruct (need && negb (sized (nth i c [])))%bool; [|exact H].
  destruct (tab i) as [m|e| |] eqn:E; cbn [fst]; try exact H.
  intros j. rewrite put_nth. destruct (Nat.eqb_spec j i) as [->|N]; cbn [andb]; [|apply H].
  destruct (i <? length c)%nat; [intros _; exact E | apply H].
Qed.

(** After the statement the entry is there; the others are as before. *)
Lemma fill1_post tab c i c' : sound tab c -> (i < length c)%nat -> fill1 true (tab i) c i = (c', Ok tt) ->
  length c' = length c /\ tab i = Ok (nth i c' []) /\ (forall j, j <> i -> nth j c' [] = nth j c []).
Proof.
  intros H Hi. unfold fill1. cbn [andb]. destruct (sized (nth i c [])) eqn:S; cbn [negb].
  - intros E. injection E as <-. split; [reflexivity|]. split; [apply H; exact S | reflexivity].
  - destruct (tab i) as [m|e| |] eqn:E; try discriminate. intros F. injection F as <-.
    split; [apply put_length|]. split.
    + rewrite put_nth, Nat.eqb_refl. destruct (Nat.ltb_spec i (length c)); [reflexivity | lia].
    + intros j N. rewrite put_nth. destruct (Nat.eqb_spec j i); [contradiction | reflexivity].
Qed.
Lemma fill1_length need ev c i : length (fst (fill1 need ev c i)) = length c.
Proof. unfold fill1. destruct (need && negb (sized (nth i c [])))%bool; [|reflexivity]. destruct ev; cbn [fst]; try reflexivity. apply put_length. Qed.

Definition csound (rb : rad) (c : cache) : Prop :=
  sound (bf_table rb) (bfq c) /\ sound (df_table rb) (dfq c) /\ sound (lf_table rb) (lfq c).

Lemma fill_loop_sound rb nd nl els : forall c, csound rb c -> csound rb (fst (fill_loop rb nd nl els c)).
Proof.
  induction els as [|i els IH]; intros c (H1 & H2 & H3); cbn [fill_loop]; [repeat split; assumption|].
  pose proof (fill1_sound (bf_table rb) true (bfq c) i H1) as B1.
  pose proof (fill1_sound (df_table rb) nd (dfq c) i H2) as B2.
  pose proof (fill1_sound (lf_table rb) nl (lfq c) i H3) as B3.
  destruct (fill1 true (bf_table rb i) (bfq c) i) as [b1 o1]. cbn [fst] in B1.
  destruct o1 as [u| | |]; cbn [fst]; try (repeat split; assumption).
  destruct (fill1 nd (df_table rb i) (dfq c) i) as [d1 o2]. cbn [fst] in B2.
  destruct o2 as [u2| | |]; cbn [fst]; try (repeat split; assumption).
  destruct (fill1 nl (lf_table rb i) (lfq c) i) as [l1 o3]. cbn [fst] in B3.
  destruct o3 as [u3| | |]; cbn [fst]; try (repeat split; assumption).
  apply IH. repeat split; assumption.
Qed.

Lemma fill_sound rb nd nl c : csound rb c -> csound rb (fst (fill_quadrature_cache rb nd nl c)).
Proof.
  intros (H1 & H2 & H3). unfold fill_quadrature_cache. apply fill_loop_sound.
  repeat split; cbn [bfq dfq lfq]; apply sound_resized; assumption.
Qed.

Lemma run_sound rb es : csound (fst (run rb es)) (snd (run rb es)).
Proof.
  unfold run. assert (G : forall es s, csound (fst s) (snd s) -> csound (fst (fold_left step es s)) (snd (fold_left step es s))).
  { clear. induction es as [|e es IH]; intros s H; cbn [fold_left]; [exact H|]. apply IH. destruct e as [nd nl|rb]; cbn [step fst snd].
    - apply fill_sound. exact H.
    - repeat split; intros [|i]; discriminate. }
  apply G. repeat split; intros [|i]; discriminate.
Qed.

Lemma from_cache_sound tab c i : sound tab c -> from_cache c i (tab i) = tab i.
Proof.
  intros H. unfold from_cache. destruct (i <? length c)%nat; [|reflexivity]. cbn [andb].
  destruct (sized (nth i c [])) eqn:S; [|reflexivity]. symmetry. apply H. exact S.
Qed.

Lemma transparent rb0 es iel : let rb := fst (run rb0 es) in let c := snd (run rb0 es) in
  get_bf_q rb c iel = bf_table rb iel /\ get_df_q rb c iel = df_table rb iel /\ get_lf_q rb c iel = lf_table rb iel.
Proof.
  cbn zeta. destruct (run_sound rb0 es) as (H1 & H2 & H3). unfold get_bf_q, get_df_q, get_lf_q.
  repeat split; apply from_cache_sound; assumption.
Qed.

(** The basis itself is only changed by assignments. *)
Lemma run_basis rb es : fst (run rb es) = last_basis rb es.
Proof.
  unfold run, last_basis. assert (G : forall es s, fst (fold_left step es s) = fold_left (fun r e => match e with Fill _ _ => r | Replace r' => r' end) es (fst s)).
  { clear. induction es as [|e es IH]; intros s; cbn [fold_left]; [reflexivity|]. rewrite IH. f_equal. destruct e; reflexivity. }
  apply G.
Qed.

(** What a completed fill leaves. *)
Lemma fill_loop_held rb nd nl els : forall c c', csound rb c -> NoDup els ->
  (forall i, In i els -> (i < length (bfq c))%nat /\ (i < length (dfq c))%nat /\ (i < length (lfq c))%nat) ->
  fill_loop rb nd nl els c = (c', Ok tt) ->
  length (bfq c') = length (bfq c) /\ length (dfq c') = length (dfq c) /\ length (lfq c') = length (lfq c) /\
  (forall i, In i els -> held (bf_table rb) (bfq c') i /\ (nd = true -> held (df_table rb) (dfq c') i) /\ (nl = true -> held (lf_table rb) (lfq c') i)) /\
  (forall i, ~ In i els -> nth i (bfq c') [] = nth i (bfq c) [] /\ nth i (dfq c') [] = nth i (dfq c) [] /\ nth i (lfq c') [] = nth i (lfq c) []).
Proof.
  induction els as [|i els IH]; intros c c' (H1 & H2 & H3) Hnd Hin; cbn [fill_loop].
  { intros E. injection E as <-. repeat split; try reflexivity; contradiction. }
  pose proof (fill1_sound (bf_table rb) true (bfq c) i H1) as B1.
  pose proof (fill1_sound (df_table rb) nd (dfq c) i H2) as B2.
  pose proof (fill1_sound (lf_table rb) nl (lfq c) i H3) as B3.
  destruct (Hin i (or_introl eq_refl)) as (L1 & L2 & L3).
  destruct (fill1 true (bf_table rb i) (bfq c) i) as [b1 o1] eqn:E1. cbn [fst] in B1.
  destruct o1 as [[]| | |]; try discriminate.
  destruct (fill1 nd (df_table rb i) (dfq c) i) as [d1 o2] eqn:E2. cbn [fst] in B2.
  destruct o2 as [[]| | |]; try discriminate.
  destruct (fill1 nl (lf_table rb i) (lfq c) i) as [l1 o3] eqn:E3. cbn [fst] in B3.
  destruct o3 as [[]| | |]; try discriminate.
  intros E.
  assert (S : forall need tab c0 c1, sound tab c0 -> (i < length c0)%nat -> fill1 need (tab i) c0 i = (c1, Ok tt) ->
     length c1 = length c0 /\ (need = true -> tab i = Ok (nth i c1 [])) /\ (forall j, j <> i -> nth j c1 [] = nth j c0 [])).
  { intros need tab c0 c1 Hs Hl F. destruct need.
    - destruct (fill1_post tab c0 i c1 Hs Hl F) as (A & B & C). repeat split; auto.
    - cbn in F. injection F as <-. repeat split; auto. discriminate. }
  destruct (S _ _ _ _ H1 L1 E1) as (A1 & A2 & A3). destruct (S _ _ _ _ H2 L2 E2) as (A4 & A5 & A6). destruct (S _ _ _ _ H3 L3 E3) as (A7 & A8 & A9).
  inversion Hnd as [|? ? Hni Hnd']. subst.
  destruct (IH (mkCache b1 d1 l1) c' (conj B1 (conj B2 B3)) Hnd') as (C1 & C2 & C3 & C4 & C5); cbn [bfq dfq lfq] in *.
  { intros j Hj. rewrite A1, A4, A7. apply Hin. right. exact Hj. }
  { exact E. }
  split; [congruence|]. split; [congruence|]. split; [congruence|]. split.
  - intros j [<-|Hj]; [|apply C4; exact Hj]. destruct (C5 i Hni) as (D1 & D2 & D3). unfold held. rewrite D1, D2, D3.
    split; [split; [congruence | apply A2; reflexivity]|].
    split; intros N; (split; [congruence|]); [apply A5 | apply A8]; exact N.
  - intros j Hj. cbn [In] in Hj. destruct (C5 j) as (D1 & D2 & D3); [tauto|]. rewrite D1, D2, D3.
    repeat split; [apply A3 | apply A6 | apply A9]; intros ->; tauto.
Qed.

Lemma filled rb0 es nd nl c' : let rb := fst (run rb0 es) in
  fill_quadrature_cache rb nd nl (snd (run rb0 es)) = (c', Ok tt) ->
  forall i, (i < get_nelem (rb_fe rb))%nat ->
    held (bf_table rb) (bfq c') i /\ (nd = true -> held (df_table rb) (dfq c') i) /\ (nl = true -> held (lf_table rb) (lfq c') i).
Proof.
  cbn zeta. intros E i Hi. destruct (run_sound rb0 es) as (H1 & H2 & H3).
  set (rb := fst (run rb0 es)) in *. set (c := snd (run rb0 es)) in *. unfold fill_quadrature_cache in E.
  eapply fill_loop_held in E; [destruct E as (_ & _ & _ & E & _); apply E; apply in_seq; lia | | apply seq_NoDup |].
  - repeat split; cbn [bfq dfq lfq]; apply sound_resized; assumption.
  - intros j Hj. apply in_seq in Hj. cbn [bfq dfq lfq]. rewrite !resized_length. lia.
Qed.
