(** Parallel loops under any schedule, and the two loops of compute_tei. *)
Require Import Reals ZArith List Bool Arith Lia Lra Permutation FunctionalExtensionality.
Require Import Verif.Prelude Verif.AngModel Verif.CholModel Verif.JKModel Verif.LegModel Verif.LegSpec
  Verif.QuadModel Verif.QuadSpec Verif.QuadProofs Verif.TwoDModel Verif.TeiModel Verif.TeiSpec Verif.TeiProofs.
Import ListNotations.
Local Open Scope R_scope.
Notation consecutive := TeiSpec.consecutive.

(* ------------------------------------------------------------------ *)
(** * Any schedule *)

Lemma set_nth_length : forall A (l : list A) i x, length (set_nth l i x) = length l.
Proof. induction l as [|y l IH]; intros [|i] x; cbn [set_nth length]; auto. Qed.
Lemma set_nth_get : forall A (l : list A) i x j, (i < length l)%nat ->
  nth_error (set_nth l i x) j = if Nat.eqb j i then Some x else nth_error l j.
Proof.
  induction l as [|y l IH]; intros i x j Hi; cbn [length] in Hi; [lia|].
  destruct i as [|i], j as [|j]; cbn [set_nth nth_error]; try reflexivity.
  rewrite IH by lia. reflexivity.
Qed.
Lemma fold_res_app : forall S X (f : S -> X -> res S) l1 l2 s,
  fold_res f (l1 ++ l2) s = bind (fold_res f l1 s) (fun s' => fold_res f l2 s').
Proof.
  induction l1 as [|x l1 IH]; intros l2 s; cbn [app fold_res]; [reflexivity|].
  destruct (f s x) as [s'|e| |]; cbn [bind]; [apply IH|reflexivity..].
Qed.

Section Par.
Variables (Loc : Type) (size : nat) (ths0 : list (thread Loc)) (m0 : memory) (val : nat -> nat -> dmat).
Variable Inv : nat -> list (cell * (Loc -> res (dmat * Loc))) -> Loc -> Prop.
Hypothesis START : forall t th, nth_error ths0 t = Some th -> Inv t (th_todo th) (th_loc th).
Hypothesis STEP : forall t c act todo loc, Inv t ((c, act) :: todo) loc ->
  exists loc', act loc = Ok (val (fst c) (snd c), loc') /\ Inv t todo loc' /\ (snd c < size)%nat.

Definition par_inv (s : list (thread Loc) * memory) : Prop :=
  length (fst s) = length ths0 /\
  (forall t th, nth_error (fst s) t = Some th -> Inv t (th_todo th) (th_loc th) /\
     exists th0 done, nth_error ths0 t = Some th0 /\ cells th0 = done ++ cells th /\
       forall c, In c done -> snd s (fst c) (snd c) = val (fst c) (snd c)) /\
  (forall a i, (forall th, In th ths0 -> ~ In (a, i) (cells th)) -> snd s a i = m0 a i).

Lemma par_inv0 : par_inv (ths0, m0).
Proof.
  split; [reflexivity|]. split; [|reflexivity].
  cbn [fst snd]. intros t th H. split; [apply START; exact H|].
  exists th, []. split; [exact H|]. split; [reflexivity|]. intros c [].
Qed.

Lemma put_get : forall m c v a i, mem_put m c v a i = v \/ ((a, i) <> c /\ mem_put m c v a i = m a i).
Proof.
  intros m [a' i'] v a i. unfold mem_put. cbn [fst snd].
  destruct (Nat.eqb_spec a a'), (Nat.eqb_spec i i'); cbn [andb]; auto; right; split; auto; congruence.
Qed.
Lemma put_same : forall m c v, mem_put m c v (fst c) (snd c) = v.
Proof. intros. unfold mem_put. rewrite !Nat.eqb_refl. reflexivity. Qed.

Lemma step_ok : forall s t, par_inv s -> exists s', par_step size s t = Ok s' /\ par_inv s'.
Proof.
  intros [ths m] t (E & H & F). unfold par_step. cbn [fst snd] in *.
  destruct (nth_error ths t) as [th|] eqn:Et; [|exists (ths, m); split; [reflexivity|exact (conj E (conj H F))]].
  destruct (H t th Et) as (Hi & th0 & done & E0 & Ec & Hd).
  destruct (th_todo th) as [|[c act] todo] eqn:Ed; [exists (ths, m); split; [reflexivity|exact (conj E (conj H F))]|].
  destruct (STEP t c act todo (th_loc th) Hi) as (loc' & Ea & Hi' & Hs). rewrite Ea. cbn [bind fst snd].
  destruct (Nat.ltb_spec (snd c) size); [|lia].
  eexists. split; [reflexivity|].
  assert (Htl : (t < length ths)%nat) by (apply nth_error_Some; congruence).
  assert (Hc : forall c', m (fst c') (snd c') = val (fst c') (snd c') ->
     mem_put m c (val (fst c) (snd c)) (fst c') (snd c') = val (fst c') (snd c')).
  { intros [a i] Hm. cbn [fst snd] in *. unfold mem_put.
    destruct (Nat.eqb_spec a (fst c)), (Nat.eqb_spec i (snd c)); cbn [andb]; subst; auto. }
  split; [|split]; cbn [fst snd].
  - rewrite set_nth_length. exact E.
  - intros t' th' Ht'. rewrite set_nth_get in Ht' by exact Htl.
    destruct (Nat.eqb_spec t' t) as [->|Hne].
    + injection Ht' as <-. cbn [th_todo th_loc]. split; [exact Hi'|].
      exists th0, (done ++ [c]). split; [exact E0|]. split.
      * rewrite Ec. unfold cells. rewrite Ed. cbn [map th_todo fst]. rewrite <- app_assoc. reflexivity.
      * intros c' Hin. apply in_app_iff in Hin. destruct Hin as [Hin|[<-|[]]]; [apply Hc; apply Hd; exact Hin|apply put_same].
    + destruct (H t' th' Ht') as (Hi2 & th2 & d2 & E2 & Ec2 & Hd2). split; [exact Hi2|].
      exists th2, d2. split; [exact E2|]. split; [exact Ec2|]. intros c' Hin. apply Hc, Hd2, Hin.
  - intros a i Hno. destruct (put_get m c (val (fst c) (snd c)) a i) as [Heq|[_ Heq]]; [|rewrite Heq; apply F; exact Hno].
    unfold mem_put. destruct (Nat.eqb_spec a (fst c)), (Nat.eqb_spec i (snd c)); cbn [andb]; try (apply F; exact Hno).
    exfalso. apply (Hno th0); [eapply nth_error_In; exact E0|].
    rewrite Ec. apply in_app_iff. right. unfold cells. rewrite Ed. left. cbn [fst]. subst. destruct c; reflexivity.
Qed.

Lemma run_inv : forall sched s, par_inv s -> exists s', par_run size sched s = Ok s' /\ par_inv s'.
Proof.
  unfold par_run. induction sched as [|t sched IH]; intros s Hs; cbn [fold_res].
  - exists s. split; [reflexivity|exact Hs].
  - destruct (step_ok s t Hs) as (s' & -> & Hs'). cbn [bind]. apply IH. exact Hs'.
Qed.

Lemma inv_done : forall s, par_inv s -> finished s ->
  forall th c, In th ths0 -> In c (cells th) -> snd s (fst c) (snd c) = val (fst c) (snd c).
Proof.
  intros [ths m] (E & H & _) Hf th c Hin Hc. cbn [fst snd] in *.
  destruct (In_nth_error _ _ Hin) as (t & Ht).
  destruct (nth_error ths t) as [th'|] eqn:Et.
  - destruct (H t th' Et) as (_ & th0 & done & E0 & Ec & Hd).
    assert (th0 = th) by congruence. subst th0. apply Hd.
    assert (En : cells th' = []).
    { unfold cells. rewrite (Hf th'); [reflexivity|]. cbn [fst]. eapply nth_error_In; exact Et. }
    rewrite En, app_nil_r in Ec. rewrite <- Ec. exact Hc.
  - apply nth_error_None in Et. assert (t < length ths0)%nat by (apply nth_error_Some; congruence). lia.
Qed.

Definition left_over (ths : list (thread Loc)) : nat := list_sum (map (fun th => length (th_todo th)) ths).
Lemma left_over_zero : forall ths, left_over ths = 0%nat -> forall th, In th ths -> th_todo th = [].
Proof.
  induction ths as [|a ths IH]; intros H th Hin; [destruct Hin|].
  unfold left_over in H. cbn [map] in H. change (list_sum (?x :: ?l)) with (x + list_sum l)%nat in H.
  destruct Hin as [Hin|Hin].
  - subst a. destruct (th_todo th); [reflexivity|cbn [length] in H; lia].
  - apply IH; [unfold left_over; lia|assumption].
Qed.
Lemma left_over_set : forall ths t th th', nth_error ths t = Some th ->
  (left_over (set_nth ths t th') + length (th_todo th) = left_over ths + length (th_todo th'))%nat.
Proof.
  induction ths as [|a ths IH]; intros [|t] th th' H; try discriminate.
  - injection H as ->. unfold left_over. cbn [set_nth map]. change (list_sum (?x :: ?l)) with (x + list_sum l)%nat. lia.
  - specialize (IH t th th' H). unfold left_over in *. cbn [set_nth map]. change (list_sum (?x :: ?l)) with (x + list_sum l)%nat. lia.
Qed.
Lemma left_over_pos : forall ths, left_over ths <> 0%nat -> exists t th, nth_error ths t = Some th /\ th_todo th <> [].
Proof.
  induction ths as [|a ths IH]; intros H; [exfalso; apply H; reflexivity|].
  destruct (th_todo a) as [|x l] eqn:E.
  - destruct IH as (t & th & H1 & H2).
    + intro Hz. apply H. unfold left_over in *. cbn [map]. change (list_sum (?x :: ?l)) with (x + list_sum l)%nat. rewrite E. exact Hz.
    + exists (S t), th. split; assumption.
  - exists 0%nat, a. split; [reflexivity|congruence].
Qed.

Lemma can_finish : forall n s, par_inv s -> left_over (fst s) = n ->
  exists sched s', par_run size sched s = Ok s' /\ finished s'.
Proof.
  induction n as [|n IH]; intros [ths m] Hs Hn; cbn [fst] in Hn.
  - exists [], (ths, m). split; [reflexivity|]. intros th Hin. apply (left_over_zero ths Hn). exact Hin.
  - destruct (left_over_pos ths ltac:(lia)) as (t & th & Et & Hne).
    destruct (step_ok (ths, m) t Hs) as (s' & E & Hs').
    destruct (IH s' Hs') as (sched & s2 & E2 & F2).
    { revert E. unfold par_step. cbn [fst snd]. rewrite Et.
      destruct (th_todo th) as [|[c act] todo] eqn:Ed; [congruence|].
      destruct (act (th_loc th)) as [r|e| |]; cbn [bind]; try discriminate.
      destruct (snd c <? size)%nat; try discriminate. intros [= <-]. cbn [fst].
      pose proof (left_over_set ths t th (mkTh (snd r) todo) Et) as Hl. rewrite Ed in Hl. cbn [length th_todo] in Hl. lia. }
    exists (t :: sched), s2. split; [|exact F2]. unfold par_run in *. cbn [fold_res]. rewrite E. exact E2.
Qed.

(** Summary. *)
Lemma par_ok : forall sched, exists s, par_run size sched (ths0, m0) = Ok s /\
  length (fst s) = length ths0 /\
  (finished s -> forall th c, In th ths0 -> In c (cells th) -> snd s (fst c) (snd c) = val (fst c) (snd c)) /\
  (forall a i, (forall th, In th ths0 -> ~ In (a, i) (cells th)) -> snd s a i = m0 a i) /\
  (exists more s', par_run size (sched ++ more) (ths0, m0) = Ok s' /\ finished s').
Proof.
  intro sched. destruct (run_inv sched _ par_inv0) as (s & E & Hs). exists s.
  split; [exact E|]. split; [apply Hs|]. split; [intro Hf; apply inv_done; assumption|]. split; [apply Hs|].
  destruct (can_finish _ s Hs eq_refl) as (more & s' & E' & F').
  exists more, s'. split; [|exact F']. unfold par_run in *. rewrite fold_res_app, E. exact E'.
Qed.
End Par.

(* ------------------------------------------------------------------ *)
(** * Runs *)

Definition lm_M (lm : list (Z * Z)) (i : nat) : Z := snd (nth i lm (0, 0)%Z).
Definition lm_L (lm : list (Z * Z)) (i : nat) : Z := fst (nth i lm (0, 0)%Z).

Lemma nth_error_lm : forall lm i, (i < length lm)%nat -> nth_error lm i = Some (lm_L lm i, lm_M lm i).
Proof.
  intros lm i H. unfold lm_L, lm_M. rewrite <- surjective_pairing. apply nth_error_nth'. exact H.
Qed.

Lemma run_end_ok : forall fuel lm M j, (j <= length lm)%nat -> (length lm - j <= fuel)%nat ->
  (j <= run_end fuel lm M j <= length lm)%nat /\
  (forall k, (j <= k < run_end fuel lm M j)%nat -> lm_M lm k = M) /\
  ((run_end fuel lm M j < length lm)%nat -> lm_M lm (run_end fuel lm M j) <> M).
Proof.
  induction fuel as [|f IH]; intros lm M j Hj Hf; cbn [run_end].
  - split; [lia|]. split; [intros; lia|intros; lia].
  - destruct (Nat.lt_ge_cases j (length lm)) as [Hl|Hg].
    + rewrite nth_error_lm by exact Hl. destruct (Z.eqb_spec (lm_M lm j) M) as [E|E].
      * destruct (IH lm M (S j) ltac:(lia) ltac:(lia)) as (A & B & C).
        split; [lia|]. split; [|exact C]. intros k Hk. destruct (Nat.eq_dec k j) as [->|]; [exact E|apply B; lia].
      * split; [lia|]. split; [intros; lia|]. intros _. exact E.
    + destruct (nth_error lm j) eqn:En; [assert (j < length lm)%nat by (apply nth_error_Some; congruence); lia|].
      split; [lia|]. split; [intros; lia|intros; lia].
Qed.

Lemma run_end_gt : forall lm i, (i < length lm)%nat -> (i < run_end (length lm) lm (lm_M lm i) i)%nat.
Proof.
  intros lm i H. destruct (run_end_ok (length lm) lm (lm_M lm i) i ltac:(lia) ltac:(lia)) as (A & B & C).
  destruct (Nat.eq_dec (run_end (length lm) lm (lm_M lm i) i) i) as [E|]; [|lia].
  exfalso. apply C; rewrite E; [exact H|reflexivity].
Qed.

Lemma mruns_ok : forall lm, exists runs, mruns lm = Ok runs /\ consecutive 0 (length lm) runs /\
  (forall lo hi, In (lo, hi) runs -> forall k, (lo <= k < hi)%nat -> lm_M lm k = lm_M lm lo) /\
  (forall lo hi, In (lo, hi) runs -> (hi < length lm)%nat -> lm_M lm hi <> lm_M lm lo).
Proof.
  intro lm. unfold mruns.
  assert (H : forall fuel i, (i <= length lm)%nat -> (length lm - i < fuel)%nat ->
    exists runs, mruns_from fuel lm i = Ok runs /\ consecutive i (length lm) runs /\
      (forall lo hi, In (lo, hi) runs -> forall k, (lo <= k < hi)%nat -> lm_M lm k = lm_M lm lo) /\
      (forall lo hi, In (lo, hi) runs -> (hi < length lm)%nat -> lm_M lm hi <> lm_M lm lo)).
  { induction fuel as [|f IH]; intros i Hi Hf; [lia|]. cbn [mruns_from].
    destruct (Nat.lt_ge_cases i (length lm)) as [Hl|Hg].
    - rewrite nth_error_lm by exact Hl. pose proof (run_end_gt lm i Hl) as Hgt.
      destruct (run_end_ok (length lm) lm (lm_M lm i) i ltac:(lia) ltac:(lia)) as (A & B & C).
      set (j := run_end (length lm) lm (lm_M lm i) i) in *. cbv zeta.
      destruct (IH j ltac:(lia) ltac:(lia)) as (runs & -> & H1 & H2 & H3). cbn [bind].
      exists ((i, j) :: runs). split; [reflexivity|]. split; [cbn [consecutive]; auto|].
      split; intros lo hi [[= <- <-]|Hin]; try (apply H2; exact Hin); try (apply H3; exact Hin).
      + exact B.
      + exact C.
    - destruct (nth_error lm i) eqn:En; [assert (i < length lm)%nat by (apply nth_error_Some; congruence); lia|].
      exists []. split; [reflexivity|]. split; [cbn [consecutive]; lia|]. split; intros ? ? []. }
  exact (H (S (length lm)) 0%nat ltac:(lia) ltac:(lia)).
Qed.

Lemma consecutive_bounds : forall runs i n, consecutive i n runs ->
  (i <= n)%nat /\ forall lo hi, In (lo, hi) runs -> (i <= lo /\ lo < hi /\ hi <= n)%nat.
Proof.
  induction runs as [|[lo hi] runs IH]; intros i n H; cbn [consecutive] in H.
  - split; [lia|intros ? ? []].
  - destruct H as (-> & Hlt & H). destruct (IH hi n H) as (A & B). split; [lia|].
    intros lo' hi' [[= <- <-]|Hin]; [lia|]. specialize (B _ _ Hin). lia.
Qed.

Lemma consecutive_flat : forall runs i n, consecutive i n runs ->
  flat_map (fun r => seq (fst r) (snd r - fst r)) runs = seq i (n - i).
Proof.
  induction runs as [|[lo hi] runs IH]; intros i n H; cbn [consecutive] in H.
  - subst. rewrite Nat.sub_diag. reflexivity.
  - destruct H as (-> & Hlt & H). cbn [flat_map fst snd]. rewrite (IH hi n H).
    pose proof (proj1 (consecutive_bounds _ _ _ H)).
    replace (n - i)%nat with ((hi - i) + (n - hi))%nat by lia. rewrite seq_app. do 2 f_equal; lia.
Qed.

Lemma map_nth_seq : forall A B (f : A -> B) (d : A) l, map (fun g => f (nth g l d)) (seq 0 (length l)) = map f l.
Proof.
  induction l as [|a l IH]; [reflexivity|]. cbn [length seq map nth]. f_equal.
  rewrite <- seq_shift, map_map. cbn [nth]. exact IH.
Qed.

Lemma largest_L_ok : forall lm is, (0 <= largest_L lm is)%Z /\ forall i, In i is -> (lm_L lm i <= largest_L lm is)%Z.
Proof.
  intros lm is. unfold largest_L. change (fun m i => Z.max m (fst (nth i lm (0,0)%Z))) with (fun m i => Z.max m (lm_L lm i)).
  assert (H : forall is m, (m <= fold_left (fun m i => Z.max m (lm_L lm i)) is m)%Z /\
    forall i, In i is -> (lm_L lm i <= fold_left (fun m i => Z.max m (lm_L lm i)) is m)%Z).
  { clear is. induction is as [|a is IH]; intros m; cbn [fold_left].
    - split; [lia|intros ? []].
    - destruct (IH (Z.max m (lm_L lm a))) as (A & B). split; [lia|]. intros i [<-|Hin]; [lia|apply B; exact Hin]. }
  exact (H is 0%Z).
Qed.

(* ------------------------------------------------------------------ *)
(** * The order of an element *)

Lemma hardest_ok : forall lm, match hardest lm with
  | None => lm = []
  | Some (L, M) => In (L, M) lm /\ forall L' M', In (L', M') lm -> (L' < L \/ L' = L /\ M' <= M)%Z
  end.
Proof.
  intros [|e0 lm]; [reflexivity|]. unfold hardest.
  set (g := fun b e : Z * Z => if ((fst e >? fst b) || ((fst e =? fst b) && (snd e >? snd b)))%bool%Z then e else b).
  set (le := fun a b : Z * Z => (fst a < fst b \/ fst a = fst b /\ snd a <= snd b)%Z).
  assert (Hg : forall b e, (g b e = b \/ g b e = e) /\ le b (g b e) /\ le e (g b e)).
  { intros [b1 b2] [e1 e2]. unfold g, le. cbn [fst snd].
    destruct (Z.gtb_spec e1 b1), (Z.eqb_spec e1 b1), (Z.gtb_spec e2 b2); cbn [orb andb fst snd]; lia || (split; [auto|lia]). }
  assert (H : forall l b, (fold_left g l b = b \/ In (fold_left g l b) l) /\ le b (fold_left g l b) /\
     forall e, In e l -> le e (fold_left g l b)).
  { induction l as [|a l IH]; intros b; cbn [fold_left].
    - split; [left; reflexivity|]. split; [unfold le; lia|intros ? []].
    - destruct (Hg b a) as (H1 & H2 & H3). destruct (IH (g b a)) as (I1 & I2 & I3).
      split; [destruct I1 as [I1|I1]; [rewrite I1; destruct H1 as [-> | ->]; cbn [In]; auto|cbn [In]; auto]|].
      split; [unfold le in *; lia|]. intros e [<-|Hin]; [unfold le in *; lia|apply I3; exact Hin]. }
  destruct (H (e0 :: lm) e0) as (H1 & _ & H3).
  destruct (fold_left g (e0 :: lm) e0) as [L M] eqn:E. split.
  - destruct H1 as [-> |H1]; [left; reflexivity|exact H1].
  - intros L' M' Hin. exact (H3 (L', M') Hin).
Qed.

Section Loops.
Variables (normal : R -> bool) (cf : R -> nat -> nat -> res R) (seed_low : R) (DP DQ : nat -> nat -> R -> R).
Hypothesis LEG : legendre_ok cf seed_low DP DQ.
Variables (rb : dradial) (lm : list (Z * Z)) (thresh : R).
Hypothesis LM : multipoles_ok lm.
Hypothesis EL : elements_ok rb.
Hypothesis NUM : numerics_ok rb.

Let leg := exact_legendre normal DP DQ.
Let Nel := d_Nel rb.
Let size := (Nel * length lm)%nat.

Lemma order_loop_ok : forall iel, exists n, converged_twoe_order normal cf seed_low rb lm iel = Ok n /\
  element_order normal DP DQ rb lm iel n /\
  forall L M, hardest lm = Some (L, M) ->
    n = snd (the_refined rb (fun n => kernel_matrix rb iel n (leg M true L) (leg M false L)) false (Z.min 512 (Z.max 5 (d_nquad rb)))).
Proof.
  intro iel. unfold converged_twoe_order.
  assert (En : (if (512 <? (if (d_nquad rb <? 5)%Z then 5%Z else d_nquad rb))%Z then 512%Z else (if (d_nquad rb <? 5)%Z then 5%Z else d_nquad rb))
     = Z.min 512 (Z.max 5 (d_nquad rb))).
  { destruct (Z.ltb_spec (d_nquad rb) 5); [destruct (Z.ltb_spec 512 5); lia|destruct (Z.ltb_spec 512 (d_nquad rb)); lia]. }
  cbv zeta. rewrite En. set (nstart := Z.min 512 (Z.max 5 (d_nquad rb))).
  pose proof (hardest_ok lm) as HH. destruct (hardest lm) as [[L M]|].
  2:{ eexists. split; [reflexivity|]. split; [left; split; [exact HH|reflexivity]|]. intros; discriminate. }
  destruct HH as (Hin & Hmax). destruct (LM L M Hin) as (HL & HM).
  set (eval := fun n => kernel_matrix rb iel n (leg M true L) (leg M false L)).
  assert (HP : forall n, bind (run_cached normal cf seed_low (kernel_prog rb iel n L) (mc_new (Z.abs M) L)) (fun r => Ok (fst r)) = Ok (eval n)).
  { intro n. rewrite Z.abs_eq by lia.
    destruct (run_ok normal cf seed_low DP DQ LEG _ (kernel_prog rb iel n L) M L L (mc_new M L) HM ltac:(lia) (good_new _ _ _ _ _) (kernel_asks rb iel n L))
      as (c' & -> & _). cbn [bind fst]. rewrite kernel_prog_ok. reflexivity. }
  pose proof (the_refined_ok rb eval false nstart NUM) as HR.
  set (X := fst (the_refined rb eval false nstart)) in *. set (n := snd (the_refined rb eval false nstart)) in *.
  destruct HR as (tried & E). exists n. split; [|split].
  - revert E. clearbody X n. unfold converge_block. cbv zeta.
    assert (HLp : forall probe, (forall n, probe n = Ok (eval n)) -> forall fuel n1 prev sd pd tr n0 r,
      block_loop dmat (d_dist rb) (d_scale rb) (d_tol rb) (d_sqrteps rb) (d_floor rb) eval order_cap false n0 fuel n1 prev sd pd tr = Ok r ->
      order_loop rb probe fuel n1 prev pd = Ok (snd r)).
    { intros probe HPr. induction fuel as [|k IH]; intros n1 prev sd pd tr n0 r E; cbn [block_loop] in E; [discriminate|]. cbv zeta in E.
      cbn [order_loop]. rewrite HPr. cbn [bind]. cbv zeta.
      destruct (match prev with None => false | Some p => _ end).
      { injection E as <-. reflexivity. }
      destruct (order_cap <=? n1)%nat.
      { injection E as <-. reflexivity. }
      exact (IH _ _ _ _ _ _ _ E). }
    intro E. exact (HLp _ HP _ _ _ _ _ _ _ _ E).
  - right. exists L, M, X. split; [exact Hin|]. split; [exact Hmax|]. exists tried. exact E.
  - intros L' M' [= <- <-]. reflexivity.
Qed.

Definition ord (iel : nat) : nat := match converged_twoe_order normal cf seed_low rb lm iel with Ok n => n | _ => 0%nat end.
Lemma ord_ok : forall iel, converged_twoe_order normal cf seed_low rb lm iel = Ok (ord iel) /\ element_order normal DP DQ rb lm iel (ord iel).
Proof.
  intro iel. unfold ord. destruct (order_loop_ok iel) as (n & -> & H & _). split; [reflexivity|exact H].
Qed.
Lemma orders_ok : orders normal cf seed_low rb lm = Ok (map ord (seq 0 Nel)).
Proof.
  unfold orders. fold Nel.
  assert (H : forall l acc, fold_res (fun l iel => bind (converged_twoe_order normal cf seed_low rb lm iel) (fun n => Ok (l ++ [n]))) l acc = Ok (acc ++ map ord l)).
  { induction l as [|a l IH]; intros acc; cbn [fold_res map]; [rewrite app_nil_r; reflexivity|].
    rewrite (proj1 (ord_ok a)). cbn [bind]. rewrite IH, <- app_assoc. reflexivity. }
  apply H.
Qed.

Definition factor_of (ilm iel : nat) : list (R * vec) :=
  let W := kernel_matrix rb iel (ord iel) (leg (lm_M lm ilm) true (lm_L lm ilm)) (leg (lm_M lm ilm) false (lm_L lm ilm)) in
  signed_cholesky (drows W) (dent W) thresh.
Definition value (a i : nat) : dmat :=
  let ilm := (i / Nel)%nat in let iel := (i mod Nel)%nat in
  let F := fun w k => fst (the_refined rb (element_matrix rb iel k (leg (lm_M lm ilm) w (lm_L lm ilm))) true (Z.max 5 (d_nquad rb))) in
  match a with
  | O => F true 0%nat
  | 1%nat => F true 2%nat
  | 2%nat => F false 0%nat
  | 3%nat => F false 2%nat
  | 4%nat => factor_B (2 * (d_n rb iel * d_n rb iel)) (factor_of ilm iel)
  | _ => factor_sigma (factor_of ilm iel)
  end.

Lemma cell_div : forall ilm iel, (iel < Nel)%nat -> ((ilm * Nel + iel) / Nel = ilm)%nat /\ ((ilm * Nel + iel) mod Nel = iel)%nat.
Proof.
  intros ilm iel H. split.
  - rewrite Nat.div_add_l by lia. rewrite Nat.div_small by exact H. lia.
  - rewrite Nat.add_comm, Nat.mod_add by lia. apply Nat.mod_small. exact H.
Qed.
Lemma cell_size : forall ilm iel, (iel < Nel)%nat -> (ilm < length lm)%nat -> (ilm * Nel + iel < size)%nat.
Proof. intros. unfold size. nia. Qed.

Lemma lm_pos : forall i, (i < length lm)%nat -> (0 <= lm_L lm i)%Z /\ (0 <= lm_M lm i)%Z.
Proof. intros i H. apply LM. eapply nth_error_In. apply nth_error_lm. exact H. Qed.

(** The first loop. *)
Definition inv1 (todo : list (cell * (mcache -> res (dmat * mcache)))) (c : mcache) : Prop :=
  exists M Lmax, (0 <= M)%Z /\ good normal DP DQ M Lmax c /\
  Forall (fun ca => exists w k ilm iel, snd ca = store_integral normal cf seed_low (disjoint_integral rb w k iel (lm_L lm ilm)) /\
    (ilm < length lm)%nat /\ (iel < Nel)%nat /\ lm_M lm ilm = M /\ (lm_L lm ilm <= Lmax)%Z /\
    snd (fst ca) = (ilm * Nel + iel)%nat /\
    value (fst (fst ca)) (snd (fst ca)) = fst (the_refined rb (element_matrix rb iel k (leg M w (lm_L lm ilm))) true (Z.max 5 (d_nquad rb)))) todo.

Lemma disjoint_integral_ok : forall ans w k iel L, (iel < Nel)%nat ->
  answered ans (disjoint_integral rb w k iel L) = Ok (the_refined rb (element_matrix rb iel k (ans w L)) true (Z.max 5 (d_nquad rb))).
Proof.
  intros ans w k iel L Hi. unfold disjoint_integral. rewrite Z.max_comm.
  rewrite (surjective_pairing (the_refined _ _ _ _)). apply converge_prog_ok.
  replace (fun n => answered ans (disjoint_eval rb w k iel L n)) with (element_matrix rb iel k (ans w L)).
  - apply the_refined_ok. exact NUM.
  - extensionality n. symmetry. apply disjoint_eval_ok. apply EL. exact Hi.
Qed.

Lemma step1 : forall (t : nat) c act todo loc, inv1 ((c, act) :: todo) loc ->
  exists loc', act loc = Ok (value (fst c) (snd c), loc') /\ inv1 todo loc' /\ (snd c < size)%nat.
Proof.
  intros _ c act todo loc (M & Lmax & HM & G & HF). inversion HF as [|? ? H1 H2]; subst.
  destruct H1 as (w & k & ilm & iel & Ea & Hlm & Hel & EM & HL & Ec & Ev). cbn [fst snd] in *. subst act.
  destruct (lm_pos ilm Hlm) as (HL0 & _).
  destruct (run_ok normal cf seed_low DP DQ LEG _ (disjoint_integral rb w k iel (lm_L lm ilm)) M Lmax (lm_L lm ilm) loc HM ltac:(lia) G) as (c' & E & G').
  { unfold disjoint_integral, converge_prog. apply block_prog_asks. intro. apply disjoint_eval_asks. }
  exists c'. split; [|split].
  - unfold store_integral. rewrite E. cbn [bind fst snd]. rewrite disjoint_integral_ok by exact Hel. cbn [bind]. rewrite Ev. reflexivity.
  - exists M, Lmax. auto.
  - rewrite Ec. apply cell_size; assumption.
Qed.

Lemma inv1_start : forall runs, mruns lm = Ok runs -> forall t, In t (tasks runs Nel) ->
  inv1 (th_todo (disjoint_thread normal cf seed_low rb lm runs t)) (th_loc (disjoint_thread normal cf seed_low rb lm runs t)).
Proof.
  intros runs ER [g iel] Hin. unfold tasks in Hin. apply in_flat_map in Hin. destruct Hin as (g' & Hg & Hin).
  apply in_map_iff in Hin. destruct Hin as (i & [= -> ->] & Hi). apply in_seq in Hi. apply in_seq in Hg.
  destruct (mruns_ok lm) as (runs' & E' & Hc & Hr & _). rewrite ER in E'. injection E' as <-.
  unfold disjoint_thread. destruct (nth g runs (0, 0)%nat) as [lo hi] eqn:En.
  assert (Hin : In (lo, hi) runs) by (rewrite <- En; apply nth_In; lia).
  destruct (proj2 (consecutive_bounds _ _ _ Hc) lo hi Hin) as (_ & B1 & B2).
  cbn [th_todo th_loc]. exists (lm_M lm lo), (largest_L lm (seq lo (hi - lo))).
  split; [apply lm_pos; lia|]. split; [apply good_new|].
  apply Forall_forall. intros ca Hca. apply in_flat_map in Hca. destruct Hca as (ilm & Hilm & Hca).
  assert (Hb : (lo <= ilm < hi)%nat) by (apply in_seq in Hilm; lia).
  pose proof (Hr lo hi Hin ilm Hb) as HMM.
  pose proof (proj2 (largest_L_ok lm (seq lo (hi - lo))) ilm Hilm) as HLL.
  destruct (cell_div ilm iel ltac:(lia)) as (D1 & D2).
  assert (HX : forall a w k, In (a, w, k) [(0, true, 0); (1, true, 2); (2, false, 0); (3, false, 2)]%nat ->
     ca = ((a, (ilm * d_Nel rb + iel)%nat), store_integral normal cf seed_low (disjoint_integral rb w k iel (lm_L lm ilm))) ->
     exists w k ilm iel, snd ca = store_integral normal cf seed_low (disjoint_integral rb w k iel (lm_L lm ilm)) /\
    (ilm < length lm)%nat /\ (iel < Nel)%nat /\ lm_M lm ilm = lm_M lm lo /\ (lm_L lm ilm <= largest_L lm (seq lo (hi - lo)))%Z /\
    snd (fst ca) = (ilm * Nel + iel)%nat /\
    value (fst (fst ca)) (snd (fst ca)) = fst (the_refined rb (element_matrix rb iel k (leg (lm_M lm lo) w (lm_L lm ilm))) true (Z.max 5 (d_nquad rb)))).
  { intros a w k Ha ->. exists w, k, ilm, iel. cbn [fst snd].
    split; [reflexivity|]. split; [lia|]. split; [lia|]. split; [exact HMM|]. split; [exact HLL|]. split; [reflexivity|].
    unfold value. fold Nel. rewrite D1, D2, HMM. destruct Ha as [[= <- <- <-]|[[= <- <- <-]|[[= <- <- <-]|[[= <- <- <-]|[]]]]]; reflexivity. }
  cbn [In] in Hca. destruct Hca as [<-|[<-|[<-|[<-|[]]]]].
  - apply (HX 0%nat true 0%nat); [cbn [In]; auto|reflexivity].
  - apply (HX 1%nat true 2%nat); [cbn [In]; auto|reflexivity].
  - apply (HX 2%nat false 0%nat); [cbn [In]; auto|reflexivity].
  - apply (HX 3%nat false 2%nat); [cbn [In]; auto 6|reflexivity].
Qed.

(** The cells of the first loop. *)
Lemma flat_map_cells1 : forall iel is,
  map fst (flat_map (fun ilm =>
       let L := fst (nth ilm lm (0, 0)%Z) in
       let at_ := (ilm * d_Nel rb + iel)%nat in
       [((0, at_)%nat, store_integral normal cf seed_low (disjoint_integral rb true 0 iel L));
        ((1, at_)%nat, store_integral normal cf seed_low (disjoint_integral rb true 2 iel L));
        ((2, at_)%nat, store_integral normal cf seed_low (disjoint_integral rb false 0 iel L));
        ((3, at_)%nat, store_integral normal cf seed_low (disjoint_integral rb false 2 iel L))]) is)
  = flat_map (fun ilm => map (fun a => (a, (ilm * Nel + iel)%nat)) (seq 0 4)) is.
Proof. induction is as [|i is IH]; [reflexivity|]. cbn [flat_map]. rewrite map_app. apply f_equal2; [reflexivity|exact IH]. Qed.

Lemma cells1 : forall runs g iel lo hi, nth g runs (0, 0)%nat = (lo, hi) ->
  cells (disjoint_thread normal cf seed_low rb lm runs (g, iel)) =
  flat_map (fun ilm => map (fun a => (a, (ilm * Nel + iel)%nat)) (seq 0 4)) (seq lo (hi - lo)).
Proof.
  intros runs g iel lo hi E. unfold cells, disjoint_thread. rewrite E. cbn [th_todo]. apply flat_map_cells1.
Qed.

(** The second loop. *)
Definition linv (ilm : nat) (s : eloc) : Prop :=
  el_curM s = None \/
  exists m Lmax, el_curM s = Some m /\ (0 <= m)%Z /\ good normal DP DQ m Lmax (el_cache s) /\
    forall i, (ilm <= i < length lm)%nat -> (forall k, (ilm <= k <= i)%nat -> lm_M lm k = m) -> (lm_L lm i <= Lmax)%Z.

Definition todo2 (iel n : nat) (is : list nat) :=
  flat_map (fun ilm =>
       [((4, ilm * d_Nel rb + iel)%nat, factor_B_step normal cf seed_low rb lm thresh iel n ilm);
        ((5, ilm * d_Nel rb + iel)%nat, factor_sigma_step)]) is.

Definition inv2 (t : nat) (todo : list (cell * (eloc -> res (dmat * eloc)))) (s : eloc) : Prop :=
  (t < Nel)%nat /\
  ((exists i, (i <= length lm)%nat /\ todo = todo2 t (ord t) (seq i (length lm - i)) /\ linv i s) \/
   (exists i, (i < length lm)%nat /\
      todo = ((5, i * d_Nel rb + t)%nat, factor_sigma_step) :: todo2 t (ord t) (seq (S i) (length lm - S i)) /\
      linv (S i) s /\ el_factor s = factor_of i t)).

Lemma repoint_ok : forall i s, (i < length lm)%nat -> linv i s ->
  exists Lmax, good normal DP DQ (lm_M lm i) Lmax (el_cache (repoint lm i s)) /\
    el_curM (repoint lm i s) = Some (lm_M lm i) /\ el_factor (repoint lm i s) = el_factor s /\
    forall j, (i <= j < length lm)%nat -> (forall k, (i <= k <= j)%nat -> lm_M lm k = lm_M lm i) -> (lm_L lm j <= Lmax)%Z.
Proof.
  intros i s Hi H. unfold repoint. fold (lm_M lm i). cbv zeta.
  assert (Hnew : forall x, (if match el_curM s with Some m => (m =? lm_M lm i)%Z | None => false end then True else x) = x -> True) by auto.
  clear Hnew.
  assert (HR : exists Lmax, good normal DP DQ (lm_M lm i) Lmax
      (mc_reset (el_cache s) (lm_M lm i) (largest_L lm (seq i (run_end (length lm) lm (lm_M lm i) i - i)))) /\
    forall j, (i <= j < length lm)%nat -> (forall k, (i <= k <= j)%nat -> lm_M lm k = lm_M lm i) -> (lm_L lm j <= Lmax)%Z).
  { eexists. split; [apply good_reset|]. intros j Hj Hk.
    destruct (run_end_ok (length lm) lm (lm_M lm i) i ltac:(lia) ltac:(lia)) as (A & B & C).
    apply (largest_L_ok lm). apply in_seq.
    destruct (Nat.lt_ge_cases j (run_end (length lm) lm (lm_M lm i) i)) as [|Hge]; [lia|].
    exfalso. apply C; [lia|]. apply Hk. lia. }
  destruct H as [E|(m & Lmax & E & Hm & G & HB)].
  - rewrite E. destruct HR as (Lx & G & HB). exists Lx. cbn [el_cache el_curM el_factor]. auto.
  - rewrite E. destruct (Z.eqb_spec m (lm_M lm i)) as [->|Hne].
    + exists Lmax. auto.
    + destruct HR as (Lx & G' & HB'). exists Lx. cbn [el_cache el_curM el_factor]. auto.
Qed.

Lemma step2 : forall t c act todo loc, inv2 t ((c, act) :: todo) loc ->
  exists loc', act loc = Ok (value (fst c) (snd c), loc') /\ inv2 t todo loc' /\ (snd c < size)%nat.
Proof.
  intros t c act todo loc (Ht & [(i & Hi & E & HI)|(i & Hi & E & HI & EF)]).
  - destruct (Nat.eq_dec i (length lm)) as [->|Hne]; [rewrite Nat.sub_diag in E; discriminate|].
    replace (length lm - i)%nat with (S (length lm - S i)) in E by lia. cbn [seq] in E. unfold todo2 in E. cbn [flat_map app] in E.
    injection E as -> -> ->. fold Nel. cbn [fst snd].
    destruct (repoint_ok i loc ltac:(lia) HI) as (Lmax & G & EM & _ & HB).
    destruct (lm_pos i ltac:(lia)) as (HL & HM).
    destruct (run_ok normal cf seed_low DP DQ LEG _ (kernel_prog rb t (ord t) (lm_L lm i)) (lm_M lm i) Lmax (lm_L lm i) (el_cache (repoint lm i loc)) HM) as (c' & ER & G').
    { split; [exact HL|]. apply HB; [lia|]. intros k Hk. replace k with i by lia. reflexivity. }
    { exact G. } { apply kernel_asks. }
    destruct (cell_div i t Ht) as (D1 & D2).
    eexists. split; [|split].
    + unfold factor_B_step. cbv zeta. fold (lm_L lm i). rewrite ER. cbn [bind fst snd]. rewrite kernel_prog_ok.
      apply f_equal. apply f_equal2; [|reflexivity]. unfold value. rewrite D1, D2. reflexivity.
    + split; [exact Ht|]. right. exists i. split; [lia|]. split; [reflexivity|]. split.
      * right. exists (lm_M lm i), Lmax. cbn [el_curM el_cache]. split; [exact EM|]. split; [exact HM|]. split; [exact G'|].
        intros j Hj Hk. apply HB; [lia|]. intros k Hk'. destruct (Nat.eq_dec k i) as [->|]; [reflexivity|]. apply Hk. lia.
      * cbn [el_factor]. reflexivity.
    + apply cell_size; lia.
  - injection E as -> -> ->. fold Nel. cbn [fst snd]. destruct (cell_div i t Ht) as (D1 & D2).
    exists loc. split; [|split].
    + unfold factor_sigma_step, value. rewrite D1, D2, EF. reflexivity.
    + split; [exact Ht|]. left. exists (S i). split; [lia|]. split; [reflexivity|exact HI].
    + apply cell_size; lia.
Qed.

Definition threads1 (runs : list (nat * nat)) := map (disjoint_thread normal cf seed_low rb lm runs) (tasks runs Nel).
Definition threads2 := map (fun iel => factor_thread normal cf seed_low rb lm thresh iel (nth iel (map ord (seq 0 Nel)) 0%nat)) (seq 0 Nel).

Lemma nth_ord : forall iel, (iel < Nel)%nat -> nth iel (map ord (seq 0 Nel)) 0%nat = ord iel.
Proof.
  intros iel H. rewrite (nth_indep _ 0%nat (ord 0)) by (rewrite map_length, seq_length; exact H).
  rewrite map_nth, seq_nth by exact H. reflexivity.
Qed.

Lemma inv2_start : forall t th, nth_error threads2 t = Some th -> inv2 t (th_todo th) (th_loc th).
Proof.
  intros t th H. unfold threads2 in H.
  assert (Ht : (t < Nel)%nat).
  { assert (t < length (map (fun iel => factor_thread normal cf seed_low rb lm thresh iel (nth iel (map ord (seq 0 Nel)) 0%nat)) (seq 0 Nel)))%nat by (apply nth_error_Some; congruence).
    rewrite map_length, seq_length in *. assumption. }
  rewrite nth_error_map in H. rewrite (nth_error_nth' _ 0%nat) in H by (rewrite seq_length; exact Ht).
  rewrite seq_nth in H by exact Ht. cbn [option_map] in H. rewrite Nat.add_0_l in H. rewrite nth_ord in H by exact Ht.
  injection H as <-. split; [exact Ht|]. left. exists 0%nat. split; [lia|].
  unfold factor_thread. cbn [th_todo th_loc]. rewrite Nat.sub_0_r. split; [reflexivity|]. left. reflexivity.
Qed.

Lemma start1 : forall runs, mruns lm = Ok runs -> forall t th, nth_error (threads1 runs) t = Some th -> inv1 (th_todo th) (th_loc th).
Proof.
  intros runs ER t th H. apply nth_error_In in H. unfold threads1 in H. apply in_map_iff in H.
  destruct H as (tk & <- & Hin). apply inv1_start; assumption.
Qed.

Lemma cells2 : forall iel n, cells (factor_thread normal cf seed_low rb lm thresh iel n) =
  flat_map (fun ilm => map (fun a => (a, (ilm * Nel + iel)%nat)) (seq 4 2)) (seq 0 (length lm)).
Proof.
  intros iel n. unfold cells, factor_thread. cbn [th_todo]. generalize (seq 0 (length lm)) as is.
  induction is as [|i is IH]; [reflexivity|]. cbn [flat_map]. rewrite map_app. apply f_equal2; [reflexivity|exact IH].
Qed.

Lemma flat_map_swap : forall A B C (f : A -> B -> list C) xs ys,
  Permutation (flat_map (fun x => flat_map (fun y => f x y) ys) xs) (flat_map (fun y => flat_map (fun x => f x y) xs) ys).
Proof.
  induction xs as [|x xs IH]; intros ys; cbn [flat_map].
  - induction ys as [|y ys IHy]; cbn [flat_map]; [constructor|exact IHy].
  - rewrite (IH ys). clear IH. induction ys as [|y ys IHy]; cbn [flat_map]; [constructor|].
    rewrite <- IHy. rewrite <- !app_assoc. apply Permutation_app_head.
    rewrite !app_assoc. apply Permutation_app_tail. apply Permutation_app_comm.
Qed.
Lemma flat_map_flat : forall A B C (f : B -> list C) (g : A -> list B) xs,
  flat_map (fun x => flat_map f (g x)) xs = flat_map f (flat_map g xs).
Proof. induction xs as [|x xs IH]; cbn [flat_map]; [reflexivity|]. rewrite IH, flat_map_app. reflexivity. Qed.
Lemma flat_map_perm : forall A B (f g : A -> list B) xs, (forall x, Permutation (f x) (g x)) -> Permutation (flat_map f xs) (flat_map g xs).
Proof. induction xs as [|x xs IH]; intros H; cbn [flat_map]; [constructor|]. apply Permutation_app; [apply H|apply IH; exact H]. Qed.
Lemma flat_map_eq : forall A B (f g : A -> list B) xs, (forall x, In x xs -> f x = g x) -> flat_map f xs = flat_map g xs.
Proof. induction xs as [|x xs IH]; intros H; cbn [flat_map]; [reflexivity|]. rewrite H by (left; reflexivity). rewrite IH; [reflexivity|]. intros y Hy. apply H. right. exact Hy. Qed.
Lemma list_prod_flat : forall A B (xs : list A) (ys : list B), list_prod xs ys = flat_map (fun x => map (fun y => (x, y)) ys) xs.
Proof. induction xs as [|x xs IH]; intros ys; [reflexivity|]. cbn [list_prod flat_map]. rewrite IH. reflexivity. Qed.
Lemma map_flat : forall A B (f : A -> B) xs, map f xs = flat_map (fun x => [f x]) xs.
Proof. induction xs as [|x xs IH]; [reflexivity|]. cbn [map flat_map app]. rewrite IH. reflexivity. Qed.
Lemma grid_seq : forall n N, flat_map (fun ilm => map (fun iel => (ilm * N + iel)%nat) (seq 0 N)) (seq 0 n) = seq 0 (n * N).
Proof.
  intros n N. assert (H : forall n i, flat_map (fun ilm => map (fun iel => (ilm * N + iel)%nat) (seq 0 N)) (seq i n) = seq (i * N) (n * N)).
  { clear n. induction n as [|n IH]; intros i; [reflexivity|]. cbn [seq flat_map]. rewrite IH.
    assert (Hm : forall k j, map (fun iel => (i * N + iel)%nat) (seq j k) = seq (i * N + j) k).
    { induction k as [|k IHk]; intros j; [reflexivity|]. cbn [seq map]. rewrite IHk. do 2 f_equal. lia. }
    rewrite Hm, Nat.add_0_r. cbn [Nat.mul]. rewrite seq_app. do 2 f_equal. lia. }
  apply H.
Qed.

Lemma grid_cells : forall as_ : list nat,
  Permutation (flat_map (fun ilm => flat_map (fun iel => map (fun a => (a, (ilm * Nel + iel)%nat)) as_) (seq 0 Nel)) (seq 0 (length lm)))
    (list_prod as_ (seq 0 size)).
Proof.
  intro as_. rewrite list_prod_flat. unfold size. rewrite Nat.mul_comm, <- grid_seq.
  transitivity (flat_map (fun i => flat_map (fun a => [(a, i)]) as_) (flat_map (fun ilm => map (fun iel => (ilm * Nel + iel)%nat) (seq 0 Nel)) (seq 0 (length lm)))).
  - rewrite <- flat_map_flat. apply flat_map_perm. intro ilm.
    rewrite (map_flat _ _ (fun iel => (ilm * Nel + iel)%nat)), <- flat_map_flat. apply flat_map_perm. intro iel.
    cbn [flat_map]. rewrite app_nil_r, map_flat. reflexivity.
  - rewrite flat_map_swap. apply flat_map_perm. intro a. rewrite <- map_flat. reflexivity.
Qed.

Lemma cover1 : forall runs, mruns lm = Ok runs ->
  Permutation (flat_map cells (threads1 runs)) (list_prod (seq 0 4) (seq 0 size)).
Proof.
  intros runs ER. destruct (mruns_ok lm) as (runs' & E' & Hc & _). rewrite ER in E'. injection E' as <-.
  rewrite <- grid_cells. unfold threads1, tasks.
  rewrite flat_map_concat_map, map_map, <- flat_map_concat_map, <- flat_map_flat.
  set (F := fun ilm iel => map (fun a => (a, (ilm * Nel + iel)%nat)) (seq 0 4)).
  transitivity (flat_map (fun r => flat_map (fun ilm => flat_map (fun iel => F ilm iel) (seq 0 Nel)) (seq (fst r) (snd r - fst r))) runs).
  - rewrite (flat_map_concat_map (fun r => flat_map (fun ilm => flat_map (fun iel => F ilm iel) (seq 0 Nel)) (seq (fst r) (snd r - fst r))) runs).
    rewrite <- (map_nth_seq _ _ (fun r => flat_map (fun ilm => flat_map (fun iel => F ilm iel) (seq 0 Nel)) (seq (fst r) (snd r - fst r))) (0, 0)%nat runs).
    rewrite <- flat_map_concat_map. apply flat_map_perm. intro g.
    rewrite (flat_map_swap _ _ _ F). rewrite map_flat, <- flat_map_flat. apply flat_map_perm. intro iel.
    cbn [flat_map]. rewrite app_nil_r. destruct (nth g runs (0, 0)%nat) as [lo hi] eqn:En.
    rewrite (cells1 runs g iel lo hi En). reflexivity.
  - rewrite (flat_map_flat _ _ _ (fun ilm => flat_map (fun iel => F ilm iel) (seq 0 Nel)) (fun r => seq (fst r) (snd r - fst r))).
    rewrite (consecutive_flat _ _ _ Hc), Nat.sub_0_r. reflexivity.
Qed.

Lemma cover2 : Permutation (flat_map cells threads2) (list_prod (seq 4 2) (seq 0 size)).
Proof.
  rewrite <- grid_cells. unfold threads2. rewrite flat_map_concat_map, map_map, <- flat_map_concat_map.
  rewrite flat_map_swap. apply flat_map_perm. intro iel. rewrite cells2. reflexivity.
Qed.

Definition wipe (m : memory) : memory := fun a i => if (Nat.eqb a 4 || Nat.eqb a 5)%bool then dempty else m a i.
Lemma tei_ok : forall sched1 sched2 mem, exists ths1 ths2 m,
  compute_tei_di normal cf seed_low rb lm thresh sched1 sched2 mem = Ok (ths1, ths2, m) /\
  (finished (ths1, m) -> finished (ths2, m) -> forall a i, (a < 6)%nat -> (i < size)%nat -> m a i = value a i) /\
  (forall a i, (6 <= a \/ size <= i /\ a < 4)%nat -> m a i = mem a i) /\
  exists more1 more2 ths1' ths2' m',
    compute_tei_di normal cf seed_low rb lm thresh (sched1 ++ more1) (sched2 ++ more2) mem = Ok (ths1', ths2', m') /\
    finished (ths1', m') /\ finished (ths2', m').
Proof.
  intros sched1 sched2 mem. destruct (mruns_ok lm) as (runs & ER & _).
  assert (EQ : forall sc1 sc2, compute_tei_di normal cf seed_low rb lm thresh sc1 sc2 mem =
    bind (par_run size sc1 (threads1 runs, mem)) (fun s1 => bind (par_run size sc2 (threads2, wipe (snd s1))) (fun s2 => Ok (fst s1, fst s2, snd s2)))).
  { intros. unfold compute_tei_di. rewrite ER. cbn [bind]. rewrite orders_ok. reflexivity. }
  pose proof (fun sched => par_ok mcache size (threads1 runs) mem value (fun _ => inv1) (start1 runs ER) step1 sched) as P1.
  destruct (P1 sched1) as (s1 & E1 & _ & D1 & F1 & (more1 & s1' & E1' & X1')).
  pose proof (fun m sched => par_ok eloc size threads2 (wipe m) value inv2 inv2_start step2 sched) as P2.
  destruct (P2 (snd s1) sched2) as (s2 & E2 & _ & D2 & F2 & _).
  assert (Hc1 : forall a i, (exists th, In th (threads1 runs) /\ In (a, i) (cells th)) <-> (a < 4 /\ i < size)%nat).
  { intros a i. rewrite <- in_flat_map.
    split; intro H.
    - apply (Permutation_in _ (cover1 runs ER)) in H. apply in_prod_iff in H. rewrite !in_seq in H. lia.
    - apply (Permutation_in _ (Permutation_sym (cover1 runs ER))). apply in_prod_iff. rewrite !in_seq. lia. }
  assert (Hc2 : forall a i, (exists th, In th threads2 /\ In (a, i) (cells th)) <-> ((a = 4 \/ a = 5) /\ i < size)%nat).
  { intros a i. rewrite <- in_flat_map.
    split; intro H.
    - apply (Permutation_in _ cover2) in H. apply in_prod_iff in H. rewrite !in_seq in H. lia.
    - apply (Permutation_in _ (Permutation_sym cover2)). apply in_prod_iff. rewrite !in_seq. lia. }
  exists (fst s1), (fst s2), (snd s2).
  split; [rewrite EQ, E1; cbn [bind]; rewrite E2; reflexivity|]. split; [|split].
  - intros H1 H2 a i Ha Hi.
    destruct (Nat.lt_ge_cases a 4) as [Hl|Hg].
    + rewrite F2.
      * unfold wipe. destruct (Nat.eqb_spec a 4); [lia|]. destruct (Nat.eqb_spec a 5); [lia|]. cbn [orb].
        destruct (proj2 (Hc1 a i) (conj Hl Hi)) as (th & Hth & Hin). exact (D1 H1 th (a, i) Hth Hin).
      * intros th Hth Hin. assert (Hx := proj1 (Hc2 a i) (ex_intro _ th (conj Hth Hin))). lia.
    + destruct (proj2 (Hc2 a i) ltac:(lia)) as (th & Hth & Hin). exact (D2 H2 th (a, i) Hth Hin).
  - intros a i Hai. rewrite F2.
    + unfold wipe. destruct (Nat.eqb_spec a 4); [lia|]. destruct (Nat.eqb_spec a 5); [lia|]. cbn [orb].
      apply F1. intros th Hth Hin. assert (Hx := proj1 (Hc1 a i) (ex_intro _ th (conj Hth Hin))). lia.
    + intros th Hth Hin. assert (Hx := proj1 (Hc2 a i) (ex_intro _ th (conj Hth Hin))). lia.
  - destruct (P2 (snd s1') sched2) as (_ & _ & _ & _ & _ & (more2 & s2' & E2' & X2')).
    exists more1, more2, (fst s1'), (fst s2'), (snd s2'). rewrite EQ, E1'. cbn [bind]. rewrite E2'. cbn [bind].
    split; [reflexivity|]. split; [exact X1'|exact X2'].
Qed.

Lemma value_integrals : forall m, (forall a i, (a < 6)%nat -> (i < size)%nat -> m a i = value a i) ->
  integrals_in normal DP DQ rb lm thresh m.
Proof.
  intros m H ilm iel L M En Hel. cbv zeta.
  assert (Hl : (ilm < length lm)%nat) by (apply nth_error_Some; congruence).
  rewrite nth_error_lm in En by exact Hl. injection En as <- <-. fold Nel. fold leg.
  destruct (cell_div ilm iel Hel) as (D1 & D2).
  pose proof (cell_size ilm iel Hel Hl) as Hs.
  rewrite !H by (lia || exact Hs). unfold value. rewrite D1, D2.
  split; [|split; [|split; [|split]]].
  1-4: eexists; apply the_refined_ok; exact NUM.
  exists (ord iel). split; [apply ord_ok|]. split; reflexivity.
Qed.

Lemma in_element_ok : forall iel L M, (0 <= L)%Z -> exists n, element_order normal DP DQ rb lm iel n /\
  in_element_kernel normal cf seed_low rb lm iel L M = Ok (kernel_matrix rb iel n (leg (Z.abs M) true L) (leg (Z.abs M) false L)).
Proof.
  intros iel L M HL. exists (ord iel). destruct (ord_ok iel) as (E & HO). split; [exact HO|].
  unfold in_element_kernel. rewrite E. cbn [bind].
  destruct (run_ok normal cf seed_low DP DQ LEG _ (kernel_prog rb iel (ord iel) L) (Z.abs M) L L (mc_new (Z.abs M) L) ltac:(lia) ltac:(lia) (good_new _ _ _ _ _) (kernel_asks rb iel (ord iel) L))
    as (c' & -> & _). cbn [bind fst]. rewrite kernel_prog_ok. reflexivity.
Qed.
End Loops.

Lemma element_order_unique : forall normal DP DQ rb lm iel n n',
  element_order normal DP DQ rb lm iel n -> element_order normal DP DQ rb lm iel n' -> n = n'.
Proof.
  intros normal DP DQ rb lm iel n n' H H'. unfold element_order in *. cbv zeta in *.
  destruct H as [(E & En)|(L & M & X & Hin & Hmax & (tr & E))]; destruct H' as [(E' & En')|(L' & M' & X' & Hin' & Hmax' & (tr' & E'))].
  - congruence.
  - subst lm. destruct Hin'.
  - subst lm. destruct Hin.
  - assert (L = L' /\ M = M') as (<- & <-).
    { pose proof (Hmax _ _ Hin'). pose proof (Hmax' _ _ Hin). lia. }
    rewrite E in E'. injection E' as _ _ ->. reflexivity.
Qed.
