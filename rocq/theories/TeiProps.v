(** Properties of the precomputed two-electron integrals of a diatomic basis (C20, C87). *)
Require Import Reals ZArith List Bool Arith Permutation.
Require Import Verif.Prelude Verif.AngModel Verif.AngSpec Verif.LegSpec Verif.LegWit Verif.LegPos
  Verif.QuadModel Verif.QuadSpec Verif.TeiModel Verif.TeiSpec Verif.TeiProofs Verif.TeiPar Verif.TeiWit.
Import ListNotations.
Local Open Scope R_scope.

(** The multipoles are cut into consecutive runs of equal |M|; neighbouring runs have different |M|. *)
Theorem C20_runs : forall lm, exists runs, mruns lm = Ok runs /\ TeiSpec.consecutive 0 (length lm) runs /\
  (forall lo hi, In (lo, hi) runs -> forall k, (lo <= k < hi)%nat -> M_at lm k = M_at lm lo) /\
  (forall lo hi, In (lo, hi) runs -> (hi < length lm)%nat -> M_at lm hi <> M_at lm lo).
Proof. exact runs_ok. Qed.
Print Assumptions C20_runs.
(** In a table in ascending order every |M| has one run. *)
Theorem C20_one_run : forall lm runs, ascending lm_less lm -> mruns lm = Ok runs ->
  forall lo hi lo' hi', In (lo, hi) runs -> In (lo', hi') runs -> M_at lm lo = M_at lm lo' -> lo = lo' /\ hi = hi'.
Proof. exact one_run. Qed.
Print Assumptions C20_one_run.

(** The tasks store every block of every array exactly once: no two of them share a block. *)
Theorem C20_blocks : forall normal cf seed_low rb lm runs, mruns lm = Ok runs ->
  Permutation (flat_map cells (map (disjoint_thread normal cf seed_low rb lm runs) (tasks runs (d_Nel rb))))
    (list_prod (seq 0 4) (seq 0 (d_Nel rb * length lm))).
Proof. exact cover_disjoint. Qed.
Print Assumptions C20_blocks.
(** The blocks of a task are those of its element and its own run. *)
Theorem C20_own_run : forall normal cf seed_low rb lm runs g iel lo hi, mruns lm = Ok runs -> nth_error runs g = Some (lo, hi) ->
  forall a i, In (a, i) (cells (disjoint_thread normal cf seed_low rb lm runs (g, iel))) <->
    exists ilm, (a < 4)%nat /\ i = (ilm * d_Nel rb + iel)%nat /\ (lo <= ilm < hi)%nat /\ M_at lm ilm = M_at lm lo.
Proof. exact own_run. Qed.
Print Assumptions C20_own_run.
(** So does the loop over elements that stores the factors. *)
Theorem C20_factor_blocks : forall normal cf seed_low rb lm thresh (ns : list nat),
  Permutation (flat_map cells (map (fun iel => factor_thread normal cf seed_low rb lm thresh iel (nth iel ns 0%nat)) (seq 0 (d_Nel rb))))
    (list_prod (seq 4 2) (seq 0 (d_Nel rb * length lm))).
Proof. exact cover_factor. Qed.
Print Assumptions C20_factor_blocks.

(** Under any interleaving nothing fails, and when all iterations are done the arrays hold the integrals of
    every multipole and every element. *)
Theorem C20_schedule : forall normal cf seed_low DP DQ rb lm thresh,
  legendre_ok cf seed_low DP DQ -> multipoles_ok lm -> elements_ok rb -> numerics_ok rb ->
  forall sched1 sched2 mem, exists ths1 ths2 m,
  compute_tei_di normal cf seed_low rb lm thresh sched1 sched2 mem = Ok (ths1, ths2, m) /\
  (finished (ths1, m) -> finished (ths2, m) -> integrals_in normal DP DQ rb lm thresh m).
Proof. exact schedule_ok. Qed.
Print Assumptions C20_schedule.
(** Any interleaving can be continued to the end. *)
Theorem C20_finishes : forall normal cf seed_low DP DQ rb lm thresh,
  legendre_ok cf seed_low DP DQ -> multipoles_ok lm -> elements_ok rb -> numerics_ok rb ->
  forall sched1 sched2 mem, exists more1 more2 ths1 ths2 m,
  compute_tei_di normal cf seed_low rb lm thresh (sched1 ++ more1) (sched2 ++ more2) mem = Ok (ths1, ths2, m) /\
  finished (ths1, m) /\ finished (ths2, m).
Proof. exact schedule_finishes. Qed.
Print Assumptions C20_finishes.
(** The result does not depend on the schedules or on what the arrays held before. *)
Theorem C20_independent : forall normal cf seed_low DP DQ rb lm thresh,
  legendre_ok cf seed_low DP DQ -> multipoles_ok lm -> elements_ok rb -> numerics_ok rb ->
  forall sched1 sched2 mem ths1 ths2 m sched1' sched2' mem' ths1' ths2' m',
  compute_tei_di normal cf seed_low rb lm thresh sched1 sched2 mem = Ok (ths1, ths2, m) -> finished (ths1, m) -> finished (ths2, m) ->
  compute_tei_di normal cf seed_low rb lm thresh sched1' sched2' mem' = Ok (ths1', ths2', m') -> finished (ths1', m') -> finished (ths2', m') ->
  forall a i, (a < 6)%nat -> (i < d_Nel rb * length lm)%nat -> m a i = m' a i.
Proof. exact independent. Qed.
Print Assumptions C20_independent.
(** Nothing else is written. *)
Theorem C20_frame : forall normal cf seed_low DP DQ rb lm thresh,
  legendre_ok cf seed_low DP DQ -> multipoles_ok lm -> elements_ok rb -> numerics_ok rb ->
  forall sched1 sched2 mem ths1 ths2 m,
  compute_tei_di normal cf seed_low rb lm thresh sched1 sched2 mem = Ok (ths1, ths2, m) ->
  forall a i, (6 <= a \/ d_Nel rb * length lm <= i /\ a < 4)%nat -> m a i = mem a i.
Proof. exact leaves_rest. Qed.
Print Assumptions C20_frame.
Example C20_case : legendre_ok ratio 1 Pfam Qfam /\ multipoles_ok wlm /\ elements_ok wrb /\ numerics_ok wrb /\ ascending lm_less wlm.
Proof. exact case_ok. Qed.
Example C20_case_runs : mruns wlm = Ok [(0, 2); (2, 3)]%nat /\ tasks [(0, 2); (2, 3)]%nat 2 = [(0, 0); (0, 1); (1, 0); (1, 1)]%nat.
Proof. exact case_runs. Qed.

(** The order of an element is determined by the radial basis and the multipoles; the diagnostic kernel is
    computed at that order, as the factors are. *)
Theorem C20_order : forall normal DP DQ rb lm iel n n',
  element_order normal DP DQ rb lm iel n -> element_order normal DP DQ rb lm iel n' -> n = n'.
Proof. exact element_order_unique. Qed.
Print Assumptions C20_order.
Theorem C20_kernel : forall normal cf seed_low DP DQ, legendre_ok cf seed_low DP DQ ->
  forall rb lm, multipoles_ok lm -> numerics_ok rb -> forall iel L M, (0 <= L)%Z ->
  exists n, element_order normal DP DQ rb lm iel n /\
  in_element_kernel normal cf seed_low rb lm iel L M =
    Ok (kernel_matrix rb iel n (exact_legendre normal DP DQ (Z.abs M) true L) (exact_legendre normal DP DQ (Z.abs M) false L)).
Proof. exact in_element_ok. Qed.
Print Assumptions C20_kernel.

(** Whatever a cache has served before, a computation that reads Legendre functions of multipole L of its run
    gets the values of the functions themselves. *)
Theorem C87_transparent : forall normal cf seed_low DP DQ, legendre_ok cf seed_low DP DQ ->
  forall M Lmax c, (0 <= M)%Z -> served normal cf seed_low M Lmax c ->
  forall A (p : prog A) L, (0 <= L <= Lmax)%Z -> asks L p ->
  exists c', run_cached normal cf seed_low p c = Ok (answered (exact_legendre normal DP DQ M) p, c').
Proof. exact transparent. Qed.
Print Assumptions C87_transparent.
Example C87_case : served wnormal ratio 1 1 2 (mc_new 1 2) /\ asks 2 (Ask true 2 3 (fun v => Ask false 2 3 (fun w => Ret (v * w)))).
Proof. exact case_served. Qed.
(** A multipole above the largest one of the run is outside of the stored column. *)
Theorem C87_outside : forall normal cf seed_low DP DQ, legendre_ok cf seed_low DP DQ ->
  forall M Lmax c, (0 <= M)%Z -> (0 <= Lmax)%Z -> served normal cf seed_low M Lmax c ->
  forall L x, (Lmax < L)%Z -> 1 < x ->
  ask_cache normal cf seed_low c true L x = UB /\ ask_cache normal cf seed_low c false L x = UB.
Proof. exact outside. Qed.
Print Assumptions C87_outside.
Example C87_case_outside : (0 <= 1 /\ 0 <= 2 <= 2 /\ 2 < 3)%Z /\ 1 < 3.
Proof. exact case_range. Qed.
