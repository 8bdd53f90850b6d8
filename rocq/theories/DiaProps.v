(** Properties of the Coulomb and exchange matrices of a diatomic basis (C88, C89, C90). *)
Require Import Reals ZArith List Bool Arith Permutation.
Require Import Verif.Prelude Verif.AngModel Verif.AngSpec Verif.CholModel Verif.CholSpec Verif.JKModel Verif.JKSpec
  Verif.GauntModel Verif.GauntSpec Verif.TwoDModel Verif.TwoDSpec Verif.LegWit Verif.LegPos Verif.QuadModel Verif.QuadSpec Verif.TeiModel Verif.TeiSpec Verif.TeiWit
  Verif.DiaModel Verif.DiaSpec Verif.DiaProofs Verif.DiaExch Verif.DiaMirror Verif.DiaLink Verif.DiaSym Verif.DiaWit.
Import ListNotations.
Local Open Scope R_scope.

(** coulomb(P) is sum (rt|uv) P(u,v) over the basis functions, with the integrals the arrays stand for and
    every multipole two shells couple to. *)
Theorem C88_coulomb : forall b s lm lM I Lcut P, dbasis_ok b -> build_tables (db_sh b) = Ok (lm, lM) -> stores b s lm I ->
  density (dia_size b) P -> (Lmax_of b <= Lcut)%Z ->
  is_matrix (di_coulomb b s P) (dia_size b) (dia_J b I Lcut (dent P)).
Proof. exact di_coulomb_ok. Qed.
Print Assumptions C88_coulomb.

(** exchange(P) is - sum (ur|tv) P(u,v) with the density from which small blocks are left out, in whatever
    order the pairs of shells are done. *)
Theorem C89_exchange : forall b s lm lM I Lcut order P, dbasis_ok b -> build_tables (db_sh b) = Ok (lm, lM) -> stores b s lm I ->
  density (dia_size b) P -> (Lmax_of b <= Lcut)%Z -> all_pairs b order -> db_absm b = false ->
  is_matrix (di_exchange b s order P) (dia_size b) (dia_K b I Lcut (dia_screened b (dent P))).
Proof. exact di_exchange_ok. Qed.
Print Assumptions C89_exchange.
(** So it is with the +-m shortcut if shells come in pairs and the density is the same for m and -m and
    does not mix m. *)
Theorem C89_shortcut : forall b s lm lM I Lcut order P, dbasis_ok b -> build_tables (db_sh b) = Ok (lm, lM) -> stores b s lm I ->
  density (dia_size b) P -> (Lmax_of b <= Lcut)%Z -> all_pairs b order ->
  db_absm b = true -> paired_shells (db_sh b) -> mirror_symmetric b (dent P) -> m_diagonal b (dent P) ->
  is_matrix (di_exchange b s order P) (dia_size b) (dia_K b I Lcut (dia_screened b (dent P))).
Proof. exact di_exchange_absm. Qed.
Print Assumptions C89_shortcut.
(** That the density is the same for m and -m is not enough. *)
Theorem C89_shortcut_refuted : exists b s lm lM I order P, dbasis_ok b /\ build_tables (db_sh b) = Ok (lm, lM) /\ stores b s lm I /\
  density (dia_size b) P /\ symmetric (dia_size b) (dent P) /\ all_pairs b order /\
  db_absm b = true /\ paired_shells (db_sh b) /\ mirror_symmetric b (dent P) /\
  exists K r t, di_exchange b s order P = Ok K /\ (r < dia_size b)%nat /\ (t < dia_size b)%nat /\
    dent K r t = 0 /\ dia_K b I (Lmax_of b) (dia_screened b (dent P)) r t <> 0.
Proof. exact shortcut_refuted. Qed.
Print Assumptions C89_shortcut_refuted.

(** Before the integrals are computed, and for a density of the wrong size, both throw. *)
Theorem C88_not_computed : forall b s P order, ds_size s = 0%nat ->
  di_coulomb b s P = Throw LogicError /\ di_exchange b s order P = Throw LogicError.
Proof. exact not_computed. Qed.
Print Assumptions C88_not_computed.
Theorem C88_wrong_size : forall b s P order, ds_size s <> 0%nat -> ~ density (dia_size b) P ->
  di_coulomb b s P = Throw LogicError /\ di_exchange b s order P = Throw LogicError.
Proof. exact wrong_size. Qed.
Print Assumptions C88_wrong_size.

(** After compute_tei, under any schedule of its loops, the matrices are those of the computed integrals. *)
Theorem C88_computed : forall normal cf seed_low DP DQ b rb lm lM thresh, legendre_ok cf seed_low DP DQ -> elements_ok rb -> numerics_ok rb ->
  dbasis_ok b -> radial_of b rb -> build_tables (db_sh b) = Ok (lm, lM) ->
  forall sched1 sched2 mem ths1 ths2 m, compute_tei_di normal cf seed_low rb lm thresh sched1 sched2 mem = Ok (ths1, ths2, m) ->
  finished (ths1, m) -> finished (ths2, m) ->
  exists I, computed normal DP DQ rb lm thresh I /\ forall Lcut P, (Lmax_of b <= Lcut)%Z -> density (dia_size b) P ->
    is_matrix (di_coulomb b (mkDS (d_Nel rb * length lm) m) P) (dia_size b) (dia_J b I Lcut (dent P)) /\
    forall order, all_pairs b order ->
      db_absm b = false \/ paired_shells (db_sh b) /\ mirror_symmetric b (dent P) /\ m_diagonal b (dent P) ->
      is_matrix (di_exchange b (mkDS (d_Nel rb * length lm) m) order P) (dia_size b) (dia_K b I Lcut (dia_screened b (dent P))).
Proof. exact computed_matrices. Qed.
Print Assumptions C88_computed.
Example C88_case_computed : legendre_ok ratio 1 Pfam Qfam /\ elements_ok wrb /\ numerics_ok wrb /\ dbasis_ok wb1 /\ radial_of wb1 wrb /\
  exists lm lM, build_tables (db_sh wb1) = Ok (lm, lM) /\ (2 < length lm)%nat.
Proof. exact case_computed. Qed.

(** For a symmetric density both matrices are symmetric. *)
Theorem C90_symmetric : forall b s lm lM I P, dbasis_ok b -> build_tables (db_sh b) = Ok (lm, lM) -> stores b s lm I -> pair_even b lm I ->
  density (dia_size b) P -> symmetric (dia_size b) (dent P) ->
  returns_symmetric (di_coulomb b s P) (dia_size b) /\
  forall order, all_pairs b order ->
    db_absm b = false \/ paired_shells (db_sh b) /\ mirror_symmetric b (dent P) /\ m_diagonal b (dent P) ->
    returns_symmetric (di_exchange b s order P) (dia_size b).
Proof. exact matrices_symmetric. Qed.
Print Assumptions C90_symmetric.
(** The computed kernels have the symmetry this needs. *)
Theorem C90_computed : forall normal DP DQ b rb lm thresh I, radial_of b rb -> computed normal DP DQ rb lm thresh I -> pair_even b lm I.
Proof. exact computed_even. Qed.
Print Assumptions C90_computed.
(** The repulsion of two symmetric densities does not depend on which of them is contracted. *)
Theorem C90_repulsion : forall b s lm lM I P P', dbasis_ok b -> build_tables (db_sh b) = Ok (lm, lM) -> stores b s lm I -> pair_even b lm I ->
  density (dia_size b) P -> symmetric (dia_size b) (dent P) -> density (dia_size b) P' -> symmetric (dia_size b) (dent P') ->
  exists J J', di_coulomb b s P = Ok J /\ di_coulomb b s P' = Ok J' /\
    pairing (dia_size b) (dent P') (dent J) = pairing (dia_size b) (dent P) (dent J').
Proof. exact repulsion. Qed.
Print Assumptions C90_repulsion.

Example C88_case : forall absm, let b := wb absm 2 in
  dbasis_ok b /\ build_tables (db_sh b) = Ok (wlm0, wlM0) /\ stores b (wstate 2) wlm0 wI /\ pair_even b wlm0 wI /\ dia_size b = 7%nat /\
  density (dia_size b) (wunit (dia_size b)) /\ symmetric (dia_size b) (dent (wunit (dia_size b))) /\ all_pairs b worder /\
  paired_shells (db_sh b) /\ mirror_symmetric b (dent (wunit (dia_size b))) /\ m_diagonal b (dent (wunit (dia_size b))).
Proof. exact case_matrices. Qed.
