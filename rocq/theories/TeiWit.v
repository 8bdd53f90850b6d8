(** More about the runs, and a concrete case. *)
Require Import Reals ZArith List Bool Arith Lia Lra Permutation Sorted.
Require Import Verif.Prelude Verif.AngModel Verif.AngSpec Verif.CholModel Verif.JKModel Verif.LegModel Verif.LegSpec Verif.LegWit Verif.LegPos
  Verif.QuadModel Verif.QuadSpec Verif.TeiModel Verif.TeiSpec Verif.TeiProofs Verif.TeiPar.
Import ListNotations.
Local Open Scope R_scope.

Lemma served_good : forall normal cf seed_low DP DQ M Lmax c, legendre_ok cf seed_low DP DQ -> (0 <= M)%Z ->
  served normal cf seed_low M Lmax c -> good normal DP DQ M Lmax c.
Proof.
  intros normal cf seed_low DP DQ M Lmax c LEG HM H. induction H as [|c|A p L c a c' H IH HL Ha E].
  - apply good_new.
  - apply good_reset.
  - destruct (run_ok normal cf seed_low DP DQ LEG _ p M Lmax L c HM HL IH Ha) as (c2 & E2 & G2).
    rewrite E in E2. injection E2 as _ ->. exact G2.
Qed.

Lemma transparent : forall normal cf seed_low DP DQ, legendre_ok cf seed_low DP DQ ->
  forall M Lmax c, (0 <= M)%Z -> served normal cf seed_low M Lmax c ->
  forall A (p : prog A) L, (0 <= L <= Lmax)%Z -> asks L p ->
  exists c', run_cached normal cf seed_low p c = Ok (answered (exact_legendre normal DP DQ M) p, c').
Proof.
  intros normal cf seed_low DP DQ LEG M Lmax c HM H A p L HL Ha.
  destruct (run_ok normal cf seed_low DP DQ LEG _ p M Lmax L c HM HL (served_good _ _ _ _ _ _ _ _ LEG HM H) Ha) as (c' & E & _).
  exists c'. exact E.
Qed.

Lemma outside : forall normal cf seed_low DP DQ, legendre_ok cf seed_low DP DQ ->
  forall M Lmax c, (0 <= M)%Z -> (0 <= Lmax)%Z -> served normal cf seed_low M Lmax c ->
  forall L x, (Lmax < L)%Z -> 1 < x ->
  ask_cache normal cf seed_low c true L x = UB /\ ask_cache normal cf seed_low c false L x = UB.
Proof.
  intros normal cf seed_low DP DQ LEG M Lmax c HM HLm H L x HL Hx.
  pose proof (served_good _ _ _ _ _ _ _ _ LEG HM H) as G.
  assert (HU : forall w, ask_cache normal cf seed_low c w L x = UB).
  { intro w. unfold ask_cache. destruct (Reqb_spec x 1); [lra|]. rewrite andb_false_r.
    destruct (fetch_ok normal cf seed_low DP DQ LEG M Lmax c w x HM HLm G ltac:(lra) ltac:(intros; lra)) as (col & c' & -> & _ & _).
    cbn [bind]. destruct G as (_ & -> & _). destruct (Z.leb_spec L Lmax); [lia|]. rewrite andb_false_r. reflexivity. }
  split; apply HU.
Qed.

Lemma runs_ok : forall lm, exists runs, mruns lm = Ok runs /\ TeiSpec.consecutive 0 (length lm) runs /\
  (forall lo hi, In (lo, hi) runs -> forall k, (lo <= k < hi)%nat -> M_at lm k = M_at lm lo) /\
  (forall lo hi, In (lo, hi) runs -> (hi < length lm)%nat -> M_at lm hi <> M_at lm lo).
Proof. exact mruns_ok. Qed.

Lemma ascending_M : forall lm i j, ascending lm_less lm -> (i <= j < length lm)%nat -> (M_at lm i <= M_at lm j)%Z.
Proof.
  unfold M_at. induction lm as [|a lm IH]; intros i j H Hj; cbn [length] in Hj; [lia|].
  inversion H as [|? ? H1 H2]; subst. destruct i as [|i], j as [|j]; cbn [nth]; try lia.
  - rewrite Forall_forall in H2. assert (Hj2 : (j < length lm)%nat) by lia. specialize (H2 _ (nth_In lm (0, 0)%Z Hj2)).
    unfold lm_less in H2. destruct (Z.eqb_spec (snd a) (snd (nth j lm (0, 0)%Z))) as [E|E]; cbn [negb] in H2; [lia|].
    apply Z.ltb_lt in H2. lia.
  - apply IH; [exact H1|lia].
Qed.

Lemma consecutive_order : forall runs i n lo hi lo' hi', TeiSpec.consecutive i n runs ->
  In (lo, hi) runs -> In (lo', hi') runs -> (lo = lo' /\ hi = hi') \/ (hi <= lo')%nat \/ (hi' <= lo)%nat.
Proof.
  induction runs as [|[a b] runs IH]; intros i n lo hi lo' hi' H H1 H2; [destruct H1|].
  cbn [TeiSpec.consecutive] in H. destruct H as (-> & Hlt & H).
  pose proof (proj2 (consecutive_bounds _ _ _ H)) as B.
  destruct H1 as [[= <- <-]|H1], H2 as [[= <- <-]|H2].
  - auto.
  - specialize (B _ _ H2). lia.
  - specialize (B _ _ H1). lia.
  - eapply IH; eauto.
Qed.

Lemma one_run : forall lm runs, ascending lm_less lm -> mruns lm = Ok runs ->
  forall lo hi lo' hi', In (lo, hi) runs -> In (lo', hi') runs -> M_at lm lo = M_at lm lo' -> lo = lo' /\ hi = hi'.
Proof.
  intros lm runs HA ER lo hi lo' hi' H1 H2 EM.
  destruct (mruns_ok lm) as (runs' & E' & Hc & Hr & Hn). rewrite ER in E'. injection E' as <-.
  pose proof (proj2 (consecutive_bounds _ _ _ Hc)) as B.
  pose proof (B _ _ H1) as B1. pose proof (B _ _ H2) as B2.
  destruct (consecutive_order _ _ _ _ _ _ _ Hc H1 H2) as [H|[H|H]]; [exact H|exfalso|exfalso].
  - apply (Hn lo hi H1); [lia|]. pose proof (ascending_M lm lo hi HA ltac:(lia)). pose proof (ascending_M lm hi lo' HA ltac:(lia)).
    unfold lm_M, M_at in *. lia.
  - apply (Hn lo' hi' H2); [lia|]. pose proof (ascending_M lm lo' hi' HA ltac:(lia)). pose proof (ascending_M lm hi' lo HA ltac:(lia)).
    unfold lm_M, M_at in *. lia.
Qed.

Lemma own_run : forall normal cf seed_low rb lm runs g iel lo hi, mruns lm = Ok runs -> nth_error runs g = Some (lo, hi) ->
  forall a i, In (a, i) (cells (disjoint_thread normal cf seed_low rb lm runs (g, iel))) <->
    exists ilm, (a < 4)%nat /\ i = (ilm * d_Nel rb + iel)%nat /\ (lo <= ilm < hi)%nat /\ M_at lm ilm = M_at lm lo.
Proof.
  intros normal cf seed_low rb lm runs g iel lo hi ER Hg a i.
  destruct (mruns_ok lm) as (runs' & E' & Hc & Hr & Hn). rewrite ER in E'. injection E' as <-.
  rewrite (cells1 normal cf seed_low rb lm runs g iel lo hi) by (apply nth_error_nth; exact Hg).
  rewrite in_flat_map. split.
  - intros (ilm & Hi & Hin). apply in_map_iff in Hin. destruct Hin as (a' & [= -> <-] & Ha).
    apply in_seq in Ha. apply in_seq in Hi. exists ilm. repeat split; try lia.
    apply (Hr lo hi (nth_error_In _ _ Hg)). lia.
  - intros (ilm & Ha & -> & Hi & _). exists ilm. split; [apply in_seq; lia|]. apply in_map_iff. exists a. split; [reflexivity|].
    apply in_seq. lia.
Qed.

Lemma cover_disjoint : forall normal cf seed_low rb lm runs, mruns lm = Ok runs ->
  Permutation (flat_map cells (map (disjoint_thread normal cf seed_low rb lm runs) (tasks runs (d_Nel rb))))
    (list_prod (seq 0 4) (seq 0 (d_Nel rb * length lm))).
Proof. exact cover1. Qed.
Lemma cover_factor : forall normal cf seed_low rb lm thresh (ns : list nat),
  Permutation (flat_map cells (map (fun iel => factor_thread normal cf seed_low rb lm thresh iel (nth iel ns 0%nat)) (seq 0 (d_Nel rb))))
    (list_prod (seq 4 2) (seq 0 (d_Nel rb * length lm))).
Proof.
  intros. rewrite <- grid_cells. rewrite flat_map_concat_map, map_map, <- flat_map_concat_map.
  rewrite flat_map_swap. apply flat_map_perm. intro iel. rewrite cells2. reflexivity.
Qed.

Lemma schedule_ok : forall normal cf seed_low DP DQ rb lm thresh,
  legendre_ok cf seed_low DP DQ -> multipoles_ok lm -> elements_ok rb -> numerics_ok rb ->
  forall sched1 sched2 mem, exists ths1 ths2 m,
  compute_tei_di normal cf seed_low rb lm thresh sched1 sched2 mem = Ok (ths1, ths2, m) /\
  (finished (ths1, m) -> finished (ths2, m) -> integrals_in normal DP DQ rb lm thresh m).
Proof.
  intros normal cf seed_low DP DQ rb lm thresh H1 H2 H3 H4 sched1 sched2 mem.
  destruct (tei_ok normal cf seed_low DP DQ H1 rb lm thresh H2 H3 H4 sched1 sched2 mem) as (t1 & t2 & m & E & HV & _).
  exists t1, t2, m. split; [exact E|]. intros F1 F2. eapply value_integrals; eauto.
Qed.
Lemma schedule_finishes : forall normal cf seed_low DP DQ rb lm thresh,
  legendre_ok cf seed_low DP DQ -> multipoles_ok lm -> elements_ok rb -> numerics_ok rb ->
  forall sched1 sched2 mem, exists more1 more2 ths1 ths2 m,
  compute_tei_di normal cf seed_low rb lm thresh (sched1 ++ more1) (sched2 ++ more2) mem = Ok (ths1, ths2, m) /\
  finished (ths1, m) /\ finished (ths2, m).
Proof.
  intros normal cf seed_low DP DQ rb lm thresh H1 H2 H3 H4 sched1 sched2 mem.
  destruct (tei_ok normal cf seed_low DP DQ H1 rb lm thresh H2 H3 H4 sched1 sched2 mem) as (t1 & t2 & m & E & _ & _ & HF).
  exact HF.
Qed.
Lemma independent : forall normal cf seed_low DP DQ rb lm thresh,
  legendre_ok cf seed_low DP DQ -> multipoles_ok lm -> elements_ok rb -> numerics_ok rb ->
  forall sched1 sched2 mem ths1 ths2 m sched1' sched2' mem' ths1' ths2' m',
  compute_tei_di normal cf seed_low rb lm thresh sched1 sched2 mem = Ok (ths1, ths2, m) -> finished (ths1, m) -> finished (ths2, m) ->
  compute_tei_di normal cf seed_low rb lm thresh sched1' sched2' mem' = Ok (ths1', ths2', m') -> finished (ths1', m') -> finished (ths2', m') ->
  forall a i, (a < 6)%nat -> (i < d_Nel rb * length lm)%nat -> m a i = m' a i.
Proof.
  intros normal cf seed_low DP DQ rb lm thresh H1 H2 H3 H4 sched1 sched2 mem ths1 ths2 m sched1' sched2' mem' ths1' ths2' m' E F1 F2 E' F1' F2' a i Ha Hi.
  destruct (tei_ok normal cf seed_low DP DQ H1 rb lm thresh H2 H3 H4 sched1 sched2 mem) as (t1 & t2 & q & Eq & HV & _).
  destruct (tei_ok normal cf seed_low DP DQ H1 rb lm thresh H2 H3 H4 sched1' sched2' mem') as (t1' & t2' & q' & Eq' & HV' & _).
  rewrite E in Eq. injection Eq as <- <- <-. rewrite E' in Eq'. injection Eq' as <- <- <-.
  rewrite HV, HV' by assumption. reflexivity.
Qed.
Lemma leaves_rest : forall normal cf seed_low DP DQ rb lm thresh,
  legendre_ok cf seed_low DP DQ -> multipoles_ok lm -> elements_ok rb -> numerics_ok rb ->
  forall sched1 sched2 mem ths1 ths2 m,
  compute_tei_di normal cf seed_low rb lm thresh sched1 sched2 mem = Ok (ths1, ths2, m) ->
  forall a i, (6 <= a \/ d_Nel rb * length lm <= i /\ a < 4)%nat -> m a i = mem a i.
Proof.
  intros normal cf seed_low DP DQ rb lm thresh H1 H2 H3 H4 sched1 sched2 mem ths1 ths2 m E.
  destruct (tei_ok normal cf seed_low DP DQ H1 rb lm thresh H2 H3 H4 sched1 sched2 mem) as (t1 & t2 & q & Eq & _ & HF & _).
  rewrite E in Eq. injection Eq as <- <- <-. exact HF.
Qed.

(** A case: two elements, one multipole with M = 1 and two with M = 0. *)
Definition wlm : list (Z * Z) := [(0, 0); (2, 0); (1, 1)]%Z.
Definition wrb : dradial := mkDR 2 (fun i => INR i) (fun i => INR i + 1) (fun _ => 1%nat) (fun _ x _ => 1 - x)
  (fun n => ((fun _ => / 2), (fun _ => 2 / INR n))) 5
  (fun a b => Fin (Rabs (dent a 0%nat 0%nat - dent b 0%nat 0%nat))) (fun a => Fin (Rabs (dent a 0%nat 0%nat))) (1 / 1000) (1 / 10) (1 / 100).
Definition wnormal (v : R) : bool := Rltb (1 / 1000000) (Rabs v).

Lemma case_ok : legendre_ok ratio 1 Pfam Qfam /\ multipoles_ok wlm /\ elements_ok wrb /\ numerics_ok wrb /\ ascending lm_less wlm.
Proof.
  split; [|split; [|split; [|split]]].
  - split; [exact first_exists|]. split; [exact second_exists|]. split; [lra|].
    intros x l m Hx _ Hm. apply ratio_exact; [rewrite Rabs_right; lra|exact Hm].
  - intros L M H. cbn in H. destruct H as [[= <- <-]|[[= <- <-]|[[= <- <-]|[]]]]; lia.
  - intros iel _. cbn [wrb d_lo d_hi]. lra.
  - assert (HR : forall r, magnitude (Fin (Rabs r))).
    { intro r. right. unfold fle, fleb. cbn. destruct (Rleb_spec 0 (Rabs r)) as [|H]; [reflexivity|]. pose proof (Rabs_pos r). lra. }
    split; [intros; apply HR|]. split; [intros; apply HR|]. cbn [wrb d_tol d_sqrteps]. lra.
  - repeat constructor.
Qed.
Lemma case_runs : mruns wlm = Ok [(0, 2); (2, 3)]%nat /\ tasks [(0, 2); (2, 3)]%nat 2 = [(0, 0); (0, 1); (1, 0); (1, 1)]%nat.
Proof. split; reflexivity. Qed.
Lemma case_served : served wnormal ratio 1 1 2 (mc_new 1 2) /\ asks 2 (Ask true 2 3 (fun v => Ask false 2 3 (fun w => Ret (v * w)))).
Proof. split; [constructor|]. cbn [asks]. repeat split; lra. Qed.
Lemma case_range : (0 <= 1 /\ 0 <= 2 <= 2 /\ 2 < 3)%Z /\ 1 < 3.
Proof. split; [lia|lra]. Qed.
