(** One iteration of the loop over elements, and the threads that share the output. *)
Require Import Reals ZArith List Bool Arith Lia Lra Permutation.
Require Import Verif.Prelude Verif.FEModel Verif.FESpec Verif.FEProofs Verif.FEProps Verif.AngModel Verif.AngProofs Verif.JKModel Verif.DftModel Verif.DftSpec Verif.DftProofs Verif.DftXc Verif.DftFock Verif.DftFockR Verif.DftAtom.
Import ListNotations.
Local Open Scope R_scope.

(** * Additions to shared matrices *)
Lemma set_nth_length {A} n (x : A) l : length (set_nth n x l) = length l.
Proof. revert n. induction l as [|y l IH]; intros [|n]; cbn; auto. Qed.
Lemma nth_error_set_nth {A} n (x : A) l m : (n < length l)%nat ->
  nth_error (set_nth n x l) m = if Nat.eqb m n then Some x else nth_error l m.
Proof.
  revert n m. induction l as [|y l IH]; intros [|n] [|m] H; cbn in *; try lia; auto. apply IH. lia.
Qed.
Lemma lsum_set_nth {A} n (x a : A) l F : nth_error l n = Some a -> lsum (set_nth n x l) F = lsum l F - F a + F x.
Proof.
  revert n. induction l as [|y l IH]; intros [|n] H; cbn in *; try discriminate.
  - injection H as ->. unfold lsum; cbn. lra.
  - assert (E := IH n H). unfold lsum in *. cbn. lra.
Qed.

Definition key (u : update) : nat * nat * nat := fst u.
Definition apart (ths : list adder) : Prop :=
  forall t t' a a' u u', t <> t' -> nth_error ths t = Some a -> nth_error ths t' = Some a' ->
    In u (snd a) -> In u' (snd a') -> key u <> key u'.
Definition current (H : shared) (ths : list adder) : Prop :=
  forall t v k i j x l, nth_error ths t = Some (Some v, (k, i, j, x) :: l) -> v = dent (H k) i j.
Definition pending (ths : list adder) k i j : R := lsum ths (fun a => effect (snd a) k i j).

Lemma pending_set t a (a' : adder) ths k i j : nth_error ths t = Some a ->
  pending (set_nth t a' ths) k i j = pending ths k i j - effect (snd a) k i j + effect (snd a') k i j.
Proof. intros E. unfold pending. rewrite (lsum_set_nth t a' a ths _ E). reflexivity. Qed.
Lemma pending_same t a (a' : adder) ths k i j : nth_error ths t = Some a -> snd a' = snd a ->
  pending (set_nth t a' ths) k i j = pending ths k i j.
Proof. intros E H. rewrite (pending_set t a a' ths k i j E), H. ring. Qed.
Lemma effect_cons k' i' j' x us k i j : effect ((k', i', j', x) :: us) k i j =
  (if (Nat.eqb k' k && Nat.eqb i' i && Nat.eqb j' j)%bool then x else 0) + effect us k i j.
Proof. reflexivity. Qed.
Lemma set_entry_ok H k i j x k' i' j' : dent (set_entry H k i j x k') i' j' =
  if (Nat.eqb k k' && Nat.eqb i i' && Nat.eqb j j')%bool then x else dent (H k') i' j'.
Proof.
  unfold set_entry. rewrite (Nat.eqb_sym k k'). destruct (Nat.eqb_spec k' k) as [->|]; cbn; auto.
  rewrite (Nat.eqb_sym i i'), (Nat.eqb_sym j j'). destruct (_ && _)%bool; reflexivity.
Qed.
Lemma set_entry_dim H k i j x k' : drows (set_entry H k i j x k') = drows (H k') /\ dcols (set_entry H k i j x k') = dcols (H k').
Proof. unfold set_entry. destruct (Nat.eqb_spec k' k) as [->|]; cbn; auto. Qed.

Lemma run_adders_inv sched : forall H ths, apart ths -> current H ths ->
  (forall k, drows (fst (run_adders sched H ths) k) = drows (H k) /\ dcols (fst (run_adders sched H ths) k) = dcols (H k)) /\
  (forall k i j, dent (fst (run_adders sched H ths) k) i j + pending (snd (run_adders sched H ths)) k i j = dent (H k) i j + pending ths k i j).
Proof.
  induction sched as [|t sched IH]; intros H ths Ha Hc; cbn [run_adders]; [split; auto|].
  destruct (nth_error ths t) as [a|] eqn:Et; [|apply IH; auto].
  assert (Hlt : (t < length ths)%nat) by (apply nth_error_Some; congruence).
  assert (Hsub : forall a' H', incl (snd a') (snd a) ->
    apart (set_nth t a' ths) /\
    ((forall t' v k i j x l, t' <> t -> nth_error ths t' = Some (Some v, (k, i, j, x) :: l) -> dent (H' k) i j = dent (H k) i j) ->
     (forall v k i j x l, a' = (Some v, (k, i, j, x) :: l) -> v = dent (H' k) i j) -> current H' (set_nth t a' ths))).
  { intros a' H' Hi. split.
    - intros t1 t2 a1 a2 u1 u2 Hne. rewrite !nth_error_set_nth by auto. intros E1 E2 I1 I2.
      destruct (Nat.eqb_spec t1 t) as [->|]; [injection E1 as <-; apply Hi in I1|];
      (destruct (Nat.eqb_spec t2 t) as [->|]; [injection E2 as <-; apply Hi in I2|]);
        [congruence|eapply (Ha t t2); eauto|eapply (Ha t1 t); eauto|eapply (Ha t1 t2); eauto].
    - intros Ho Hn t' v k i j x l. rewrite nth_error_set_nth by auto. destruct (Nat.eqb_spec t' t) as [->|Hne].
      + intros E. injection E as ->. eapply Hn; eauto.
      + intros E. rewrite (Ho t' v k i j x l Hne E). eapply Hc; eauto. }
  destruct a as [rd [|[[[k i] j] x] l]].
  - assert (Es : adder_step H (rd, []) = (H, (rd, []))) by (destruct rd; reflexivity). rewrite Es. cbv beta iota.
    destruct (Hsub (rd, []) H (incl_refl _)) as [S1 S2].
    assert (C : current H (set_nth t (rd, []) ths)) by (apply S2; [auto|intros; discriminate]).
    destruct (IH H _ S1 C) as [I1 I2].
    split; [exact I1|]. intros k0 i0 j0. etransitivity; [apply I2|]. 
    f_equal. exact (pending_same t _ (rd, []) ths k0 i0 j0 Et eq_refl).
  - destruct rd as [v|]; cbn [adder_step]; cbv beta iota.
    + assert (Ev := Hc t v k i j x l Et).
      destruct (Hsub (None, l) (set_entry H k i j (v + x))) as [S1 S2]; [intros u Hu; right; exact Hu|].
      assert (C : current (set_entry H k i j (v + x)) (set_nth t (None, l) ths)).
      { apply S2; [|intros; discriminate]. intros t' v' k' i' j' x' l' Hne E'. rewrite set_entry_ok.
        assert (Hk := Ha t t' _ _ (k, i, j, x) (k', i', j', x') (fun e => Hne (eq_sym e)) Et E' (or_introl eq_refl) (or_introl eq_refl)).
        unfold key in Hk. cbn in Hk.
        destruct (Nat.eqb_spec k k') as [->|]; [|reflexivity]. destruct (Nat.eqb_spec i i') as [->|]; [|reflexivity].
        destruct (Nat.eqb_spec j j') as [->|]; [congruence|reflexivity]. }
      destruct (IH _ _ S1 C) as [I1 I2]. split.
      * intros k'. destruct (I1 k') as [J1 J2]. destruct (set_entry_dim H k i j (v + x) k') as [J3 J4].
        split; [exact (eq_trans J1 J3)|exact (eq_trans J2 J4)].
      * intros k' i' j'. etransitivity; [apply I2|]. rewrite set_entry_ok. 
        assert (Ep := pending_set t _ (None, l) ths k' i' j' Et). cbn [snd] in Ep. rewrite effect_cons in Ep.
        match goal with |- _ + ?p = _ => change p with (pending (set_nth t ((None, l) : adder) ths) k' i' j') end. rewrite Ep. clear Ep. destruct (Nat.eqb_spec k k') as [<-|]; cbn [andb]; [|ring].
        destruct (Nat.eqb_spec i i') as [<-|]; cbn [andb]; [|ring]. destruct (Nat.eqb_spec j j') as [Ej|]; cbn [andb]; [|ring].
        subst j'. rewrite Ev. ring.
    + set (a' := (Some (dent (H k) i j), (k, i, j, x) :: l)).
      destruct (Hsub a' H (incl_refl _)) as [S1 S2].
      assert (C : current H (set_nth t a' ths)).
      { apply S2; [auto|]. intros v k' i' j' x' l' E. unfold a' in E. injection E as <- <- <- <- <- <-. reflexivity. }
      destruct (IH _ _ S1 C) as [I1 I2].
      split; [exact I1|]. intros k' i' j'. etransitivity; [apply I2|]. 
      f_equal. exact (pending_same t _ a' ths k' i' j' Et eq_refl).
Qed.

(** Accesses left to do *)
Definition left (a : adder) : nat := (2 * length (snd a) - match a with (Some _, _ :: _) => 1 | _ => 0 end)%nat.
Lemma run_adders_left sched : forall H ths,
  map left (snd (run_adders sched H ths)) = map (fun ta => left (snd ta) - count_occ Nat.eq_dec sched (fst ta))%nat (combine (seq 0 (length ths)) ths).
Proof.
  assert (Base : forall (ths : list adder) s f, (forall t a, nth_error ths t = Some a -> f (s + t)%nat a = left a) ->
    map left ths = map (fun ta => f (fst ta) (snd ta)) (combine (seq s (length ths)) ths)).
  { induction ths as [|a ths IH]; intros s f Hf; cbn; auto. f_equal.
    - assert (E := Hf 0%nat a eq_refl). rewrite Nat.add_0_r in E. symmetry. exact E.
    - apply IH. intros t b Hb. assert (E := Hf (S t) b Hb). rewrite Nat.add_succ_r in E. exact E. }
  assert (Ext : forall (ths ths' : list adder) s f f', length ths = length ths' ->
    (forall t a a', nth_error ths t = Some a -> nth_error ths' t = Some a' -> (f (s + t) a = f' (s + t) a')%nat) ->
    map (fun ta => f (fst ta) (snd ta)) (combine (seq s (length ths)) ths) = map (fun ta : nat * adder => f' (fst ta) (snd ta) : nat) (combine (seq s (length ths')) ths')).
  { induction ths as [|a ths IH]; intros [|a' ths'] s f f' Hl Hf; cbn in *; try lia; auto. f_equal.
    - assert (E := Hf 0%nat a a' eq_refl eq_refl). rewrite Nat.add_0_r in E. exact E.
    - apply IH; [lia|]. intros t b b' Hb Hb'. assert (E := Hf (S t) b b' Hb Hb'). rewrite Nat.add_succ_r in E. exact E. }
  induction sched as [|t sched IH]; intros H ths; cbn [run_adders].
  - cbn [snd count_occ]. apply (Base ths 0%nat (fun t a => left a - 0)%nat). intros; lia.
  - destruct (nth_error ths t) as [a|] eqn:Et.
    + assert (Hlt : (t < length ths)%nat) by (apply nth_error_Some; congruence).
      destruct (adder_step H a) as [H' a'] eqn:Es. rewrite IH.
      apply (Ext _ _ 0%nat (fun t0 b => left b - count_occ Nat.eq_dec sched t0)%nat (fun t0 b => left b - count_occ Nat.eq_dec (t :: sched) t0)%nat).
      { apply set_nth_length. }
      intros t' b b'. rewrite nth_error_set_nth by auto. cbn [Nat.add count_occ].
      destruct (Nat.eqb_spec t' t) as [->|Hne].
      * intros E E'. rewrite Et in E'. injection E' as <-. injection E as <-. destruct (Nat.eq_dec t t); [|contradiction].
        destruct a as [[v|] [|[[[k i] j] x] l]]; cbn in Es; injection Es as <- <-; unfold left; cbn [snd length]; lia.
      * intros E E'. rewrite E in E'. injection E' as <-. destruct (Nat.eq_dec t t') as [->|]; [contradiction|]. lia.
    + rewrite IH. apply (Ext ths ths 0%nat (fun t0 b => left b - count_occ Nat.eq_dec sched t0)%nat (fun t0 b => left b - count_occ Nat.eq_dec (t :: sched) t0)%nat); auto.
      intros t' b b' E E'. rewrite E in E'. injection E' as <-. cbn [Nat.add count_occ].
      destruct (Nat.eq_dec t t') as [->|]; [congruence|]. lia.
Qed.
Lemma all_done_left ths : all_done ths = true <-> (forall x, In x (map left ths) -> x = 0%nat).
Proof.
  unfold all_done. rewrite forallb_forall. split.
  - intros H x Hx. apply in_map_iff in Hx. destruct Hx as (a & <- & Ha). specialize (H a Ha). unfold left.
    destruct a as [[v|] [|u l]]; cbn in *; try discriminate; lia.
  - intros H a Ha. assert (E := H (left a) (in_map left _ _ Ha)). unfold left in E.
    destruct a as [[v|] [|u l]]; cbn in *; auto; lia.
Qed.
Lemma done_pending ths k i j : all_done ths = true -> pending ths k i j = 0.
Proof.
  unfold all_done. rewrite forallb_forall. intros H. apply lsum_zero. intros a Ha. specialize (H a Ha).
  destruct a as [rd [|u l]]; [reflexivity|discriminate].
Qed.
Lemma done_indep sched Hx Hy ths : all_done (snd (run_adders sched Hx ths)) = all_done (snd (run_adders sched Hy ths)).
Proof.
  assert (G : forall H H', all_done (snd (run_adders sched H ths)) = true -> all_done (snd (run_adders sched H' ths)) = true).
  { intros H H' E. apply (proj2 (all_done_left _)). rewrite run_adders_left, <- (run_adders_left sched H). apply (proj1 (all_done_left _)). exact E. }
  destruct (all_done (snd (run_adders sched Hx ths))) eqn:E1, (all_done (snd (run_adders sched Hy ths))) eqn:E2; auto.
  - rewrite (G Hx Hy E1) in E2. discriminate.
  - rewrite (G Hy Hx E2) in E1. discriminate.
Qed.
Lemma enough_done sched H ths N : (forall a, In a ths -> (2 * length (snd a) <= N)%nat) ->
  (forall t, (t < length ths)%nat -> (N <= count_occ Nat.eq_dec sched t)%nat) ->
  all_done (snd (run_adders sched H ths)) = true.
Proof.
  intros HN Hc. apply all_done_left. rewrite run_adders_left. intros x Hx. apply in_map_iff in Hx.
  destruct Hx as ([t a] & <- & Hi). cbn [fst snd].
  assert (Ht := in_combine_l _ _ _ _ Hi). assert (Ha := in_combine_r _ _ _ _ Hi). apply in_seq in Ht.
  assert (H1 := HN a Ha). assert (Hlt : (t < length ths)%nat) by (clear - Ht; destruct Ht as [_ Ht]; cbn [Nat.add] in Ht; exact Ht). assert (H2 := Hc t Hlt). unfold left.
  destruct a as [[v|] [|u l]]; cbn [fst snd length] in *; lia.
Qed.

(** * Threads *)
Definition add3 (l : list nat) (S : nat -> sums) : sums :=
  (lsum l (fun e => fst (fst (S e))), lsum l (fun e => snd (fst (S e))), lsum l (fun e => snd (S e))).
Lemma add3_cons e l S : add3 (e :: l) S = sums_add (S e) (add3 l S).
Proof. reflexivity. Qed.
Lemma sums_add_0 s : sums_add s (0, 0, 0) = s.
Proof. destruct s as [[x y] z]. unfold sums_add; cbn. f_equal; [f_equal|]; ring. Qed.
Lemma sums_add_0l s : sums_add (0, 0, 0) s = s.
Proof. destruct s as [[x y] z]. unfold sums_add; cbn. f_equal; [f_equal|]; ring. Qed.
Lemma sums_add_assoc a b c : sums_add (sums_add a b) c = sums_add a (sums_add b c).
Proof. unfold sums_add; cbn. f_equal; [f_equal|]; ring. Qed.
Lemma add3_app l m S : add3 (l ++ m) S = sums_add (add3 l S) (add3 m S).
Proof. unfold add3, sums_add; cbn. rewrite !lsum_app. reflexivity. Qed.
Lemma add3_perm l m S : Permutation l m -> add3 l S = add3 m S.
Proof. intros H. unfold add3. rewrite !(lsum_perm l m) by auto. reflexivity. Qed.
Lemma fold_sums l : forall s, fold_left sums_add l s = sums_add s (fold_left sums_add l (0, 0, 0)).
Proof.
  induction l as [|x l IH]; intros s; cbn; [rewrite sums_add_0; auto|].
  rewrite IH, (IH (sums_add (0, 0, 0) x)), sums_add_0l. apply sums_add_assoc.
Qed.

Section Threads.
Context {W : Type}.
Variables (it : W -> nat -> res (W * sums * list update)) (Inv : W -> Prop) (n nel : nat)
  (ind : nat -> list nat) (S : nat -> sums) (F : nat -> nat -> nat -> nat -> R).
Hypothesis Hit : forall w iel, Inv w -> (iel < nel)%nat -> exists w' us, it w iel = Ok (w', S iel, us) /\ Inv w' /\
  within (ind iel) n us /\ forall k i j, (i < n)%nat -> (j < n)%nat -> effect us k i j = F iel k i j.

Lemma thread_loop_ok els : forall w, Inv w -> (forall e, In e els -> (e < nel)%nat) -> exists w' us,
  thread_loop it w els = Ok (w', add3 els S, us) /\ Inv w' /\
  (forall u, In u us -> exists e, In e els /\ In (snd (fst (fst u))) (ind e)) /\
  forall k i j, (i < n)%nat -> (j < n)%nat -> effect us k i j = lsum els (fun e => F e k i j).
Proof.
  unfold thread_loop. intros w Hw Hels.
  assert (G : forall l w s us, Inv w -> (forall e, In e l -> (e < nel)%nat) -> exists w' us',
    fold_res (fun st iel => let '(w, s, us) := st in
    bind (it w iel) (fun o => let '(w', s', us') := o in Ok (w', sums_add s s', us ++ us'))) l (w, s, us)
    = Ok (w', sums_add s (add3 l S), us ++ us') /\ Inv w' /\
    (forall u, In u us' -> exists e, In e l /\ In (snd (fst (fst u))) (ind e)) /\
    forall k i j, (i < n)%nat -> (j < n)%nat -> effect us' k i j = lsum l (fun e => F e k i j)).
  { induction l as [|e l IH]; intros w0 s us Hf Hl; cbn [fold_res].
    - exists w0, []. rewrite app_nil_r. split; [|split; [auto|split; [contradiction|reflexivity]]].
      change (add3 [] S) with (0, 0, 0). rewrite sums_add_0. reflexivity.
    - destruct (Hit w0 e Hf) as (w1 & u1 & E1 & F1 & W1 & Ef1); [apply Hl; left; auto|]. rewrite E1. cbn [bind].
      destruct (IH w1 (sums_add s (S e)) (us ++ u1) F1) as (w2 & u2 & E2 & F2 & W2 & Ef2); [intros; apply Hl; right; auto|].
      exists w2, (u1 ++ u2). rewrite E2, add3_cons, sums_add_assoc, app_assoc. split; [reflexivity|split; [auto|]]. split.
      + intros u Hu. apply in_app_or in Hu. destruct Hu as [Hu|Hu].
        * destruct u as [[[k i] j] x]. exists e. split; [left; auto|]. apply (W1 k i j x Hu).
        * destruct (W2 u Hu) as (e' & He & Hi). exists e'. split; [right; auto|auto].
      + intros k i j Hi Hj. rewrite effect_app, Ef1, Ef2 by auto. reflexivity. }
  destruct (G els w (0, 0, 0) [] Hw Hels) as (w' & us & E & R1 & R2 & R3). exists w', us.
  rewrite sums_add_0l in E. cbn [app] in E. auto.
Qed.

Lemma all_threads_ok asg : forall ws, length ws = length asg -> (forall w, In w ws -> Inv w) ->
  (forall e, In e (concat asg) -> (e < nel)%nat) -> exists l, all_threads it ws asg = Some l /\ length l = length asg /\
  (forall o, In o l -> Inv (fst (fst o))) /\
  fold_left sums_add (map (fun o => snd (fst o)) l) (0, 0, 0) = add3 (concat asg) S /\
  (forall t o, nth_error l t = Some o -> exists els, nth_error asg t = Some els /\
     forall u, In u (snd o) -> exists e, In e els /\ In (snd (fst (fst u))) (ind e)) /\
  forall k i j, (i < n)%nat -> (j < n)%nat -> lsum l (fun o => effect (snd o) k i j) = lsum (concat asg) (fun e => F e k i j).
Proof.
  induction asg as [|els asg IH]; intros [|w ws] Hl Hw He; cbn in Hl; try lia; cbn [all_threads].
  - exists []. split; [reflexivity|]. split; [reflexivity|]. split; [contradiction|]. split; [reflexivity|]. split; [intros [|t] o H; discriminate|reflexivity].
  - destruct (thread_loop_ok els w) as (w' & us & E & R1 & R2 & R3); [apply Hw; left; auto|intros; apply He; cbn; apply in_or_app; auto|].
    destruct (IH ws) as (l & El & L1 & L2 & L3 & L4 & L5); [lia|intros; apply Hw; right; auto|intros; apply He; cbn; apply in_or_app; auto|].
    rewrite E, El. eexists; split; [reflexivity|]. split; [cbn; lia|]. split; [|split; [|split]].
    + intros o [<-|H]; auto.
    + cbn [map fold_left fst snd concat]. rewrite fold_sums, L3, add3_app, sums_add_0l. reflexivity.
    + intros [|t] o H; cbn in H |- *; [|apply L4; auto]. injection H as <-. exists els. auto.
    + intros k i j Hi Hj. cbn [concat]. rewrite lsum_app, <- R3, <- L5 by auto. reflexivity.
Qed.

Lemma nodup_concat_apart {A} (ll : list (list A)) : NoDup (concat ll) -> forall t t' l l' x, t <> t' ->
  nth_error ll t = Some l -> nth_error ll t' = Some l' -> In x l -> In x l' -> False.
Proof.
  induction ll as [|m ll IH]; intros Hd [|t] [|t'] l l' x Hne E E' Hx Hx'; cbn in *; try discriminate; [congruence| | |].
  - injection E as ->. assert (Hin : In x (concat ll)) by (apply in_concat; exists l'; split; [eapply nth_error_In; eauto|auto]).
    apply in_split in Hx. destruct Hx as (a & c & ->). rewrite <- app_assoc in Hd. cbn in Hd. apply NoDup_remove_2 in Hd. apply Hd. apply in_or_app; right. apply in_or_app; auto.
  - injection E' as ->. assert (Hin : In x (concat ll)) by (apply in_concat; exists l; split; [eapply nth_error_In; eauto|auto]).
    apply in_split in Hx'. destruct Hx' as (a & c & ->). rewrite <- app_assoc in Hd. cbn in Hd. apply NoDup_remove_2 in Hd. apply Hd. apply in_or_app; right. apply in_or_app; auto.
  - apply (IH ltac:(clear - Hd; induction m; cbn in *; [auto|inversion Hd; auto]) t t' l l' x); auto.
Qed.

(** One parallel loop over elements with pairwise disjoint functions *)
Lemma parallel_loop_ok asg ws H : length ws = length asg -> (forall w, In w ws -> Inv w) ->
  (forall e, In e (concat asg) -> (e < nel)%nat) -> NoDup (concat asg) ->
  (forall e e' mu, In e (concat asg) -> In e' (concat asg) -> e <> e' -> In mu (ind e) -> In mu (ind e') -> False) ->
  exists N, forall sched,
   (parallel_loop it ws asg sched H = OutOfFuel /\ exists t, (t < length asg)%nat /\ (count_occ Nat.eq_dec sched t < N)%nat) \/
   exists ws' ss H', parallel_loop it ws asg sched H = Ok (ws', ss, H') /\ length ws' = length asg /\ (forall w, In w ws' -> Inv w) /\
     fold_left sums_add ss (0, 0, 0) = add3 (concat asg) S /\
     (forall k, drows (H' k) = drows (H k) /\ dcols (H' k) = dcols (H k)) /\
     forall k i j, (i < n)%nat -> (j < n)%nat -> dent (H' k) i j = dent (H k) i j + lsum (concat asg) (fun e => F e k i j).
Proof.
  intros Hl Hw He Hd Hx. destruct (all_threads_ok asg ws Hl Hw He) as (l & El & L1 & L2 & L3 & L4 & L5).
  set (ths := map (fun o : W * sums * list update => (@None R, snd o)) l).
  exists (fold_right Nat.add 0%nat (map (fun a : adder => 2 * length (snd a))%nat ths)). intros sched.
  unfold parallel_loop. rewrite El. fold ths.
  assert (Ha : apart ths).
  { intros t t' a a' u u' Hne E E' Hu Hu' Hk. unfold ths in E, E'. rewrite nth_error_map in E, E'.
    destruct (nth_error l t) as [o|] eqn:Eo; [|discriminate]. destruct (nth_error l t') as [o'|] eqn:Eo'; [|discriminate].
    injection E as <-. injection E' as <-. cbn [snd] in Hu, Hu'.
    destruct (L4 t o Eo) as (els & A1 & A2). destruct (L4 t' o' Eo') as (els' & A1' & A2').
    destruct (A2 u Hu) as (e & B1 & B2). destruct (A2' u' Hu') as (e' & B1' & B2').
    unfold key in Hk. rewrite Hk in B2.
    assert (e <> e'). { intros <-. eapply (nodup_concat_apart asg Hd t t'); eauto. }
    apply (Hx e e' (snd (fst (fst u')))); auto; apply in_concat.
    - exists els. split; [eapply nth_error_In; eauto|auto].
    - exists els'. split; [eapply nth_error_In; eauto|auto]. }
  assert (Hc : current H ths).
  { intros t v k i j x us E. apply nth_error_In in E. unfold ths in E. apply in_map_iff in E. destruct E as (o & E & _). discriminate. }
  assert (I := run_adders_inv sched H ths Ha Hc). destruct (run_adders sched H ths) as [H' ths'] eqn:Er. cbn [fst snd] in I. destruct I as [I1 I2].
  destruct (all_done ths') eqn:Ed.
  - right. eexists _, _, _. split; [reflexivity|]. split; [rewrite map_length; auto|]. split; [|split; [exact L3|split; [exact I1|]]].
    + intros w0 Hi. apply in_map_iff in Hi. destruct Hi as (o & <- & Ho). apply L2; auto.
    + intros k i j Hi Hj. assert (E := I2 k i j). rewrite (done_pending ths') in E by auto. rewrite <- L5 by auto.
      unfold pending, ths in E. rewrite lsum_map in E. cbn [snd] in E. lra.
  - left. split; [reflexivity|].
    destruct (forallb (fun t => Nat.leb (fold_right Nat.add 0%nat (map (fun a : adder => 2 * length (snd a))%nat ths)) (count_occ Nat.eq_dec sched t)) (seq 0 (length asg))) eqn:Ef.
    + exfalso. rewrite forallb_forall in Ef.
      assert (D : all_done (snd (run_adders sched H ths)) = true).
      { eapply (enough_done sched H ths).
        - intros a Hi. assert (Gm : forall m x, In x m -> (x <= fold_right Nat.add 0 m)%nat).
          { induction m; cbn; [contradiction|]. intros x [->|Hx']; [lia|]. specialize (IHm x Hx'). lia. }
          apply (Gm _ _ (in_map (fun a : adder => 2 * length (snd a))%nat _ _ Hi)).
        - intros t Ht. unfold ths in Ht. rewrite map_length, L1 in Ht. apply Nat.leb_le, Ef, in_seq. lia. }
      rewrite Er in D. cbn [snd] in D. congruence.
    + assert (Hex : existsb (fun t => negb (Nat.leb (fold_right Nat.add 0%nat (map (fun a : adder => 2 * length (snd a))%nat ths)) (count_occ Nat.eq_dec sched t))) (seq 0 (length asg)) = true).
      { clear - Ef. induction (seq 0 (length asg)) as [|t m IHm]; cbn in *; [discriminate|]. destruct (Nat.leb _ _); cbn in *; auto. }
      apply existsb_exists in Hex. destruct Hex as (t & Ht & Hn). apply in_seq in Ht. exists t. split; [lia|].
      apply negb_true_iff, Nat.leb_gt in Hn. exact Hn.
Qed.
End Threads.
