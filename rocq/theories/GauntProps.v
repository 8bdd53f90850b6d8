(** C17, C18, C54: Gaunt coefficient tables and the couplings built from them. *)
Require Import Reals ZArith List Bool.
Require Import Verif.Prelude Verif.GauntModel Verif.GauntSpec Verif.GauntProofs.
Import ListNotations.
Local Open Scope Z_scope.

(** The hypotheses on the generator can be met. *)
Example generator_exists : generator_ok sample_eval /\
  sample_eval 4 2 4 (-2) 4 0 <> sample_eval 4 0 4 0 8 0 /\ sample_eval 4 2 4 (-2) 4 0 <> 0%R.
Proof. exact sample_nontrivial. Qed.

(* ---------------------------- C17 ---------------------------------- *)

(** Inside the constructed range the stored coefficient is the generator's. *)
Theorem gaunt_table_exact : forall eval Lmax lmax lpmax mcap,
  generator_ok eval -> 0 <= Lmax -> 0 <= lmax -> 0 <= lpmax ->
  exists g, gaunt_table eval Lmax lmax lpmax mcap = Ok g /\
  forall L M l m lp, in_range Lmax lmax lpmax L l lp -> Z.abs M <= L -> Z.abs m <= l ->
    within_cap Lmax lmax lpmax mcap M m -> Z.abs (M - m) <= lp ->
    coeff g L M l m lp = Ok (gaunt_coefficient eval L M l m lp (M - m)).
Proof. exact gaunt_exact_ok. Qed.
Print Assumptions gaunt_table_exact.

(** No query ever reads outside the table, and queries that no spherical
    harmonics meet give zero. *)
Theorem gaunt_table_total : forall eval Lmax lmax lpmax mcap g L M l m lp,
  generator_ok eval -> 0 <= Lmax -> 0 <= lmax -> 0 <= lpmax ->
  gaunt_table eval Lmax lmax lpmax mcap = Ok g ->
  ((exists x, coeff g L M l m lp = Ok x) \/ coeff g L M l m lp = Throw LogicError) /\
  (L < Z.abs M \/ l < Z.abs m -> coeff g L M l m lp = Ok 0%R) /\
  (within_cap Lmax lmax lpmax mcap M m -> lp < Z.abs (M - m) -> coeff g L M l m lp = Ok 0%R) /\
  (~ in_range Lmax lmax lpmax L l lp -> coeff g L M l m lp = Ok 0%R).
Proof. exact gaunt_total_ok. Qed.
Print Assumptions gaunt_table_total.

(* ---------------------------- C18 ---------------------------------- *)

(** A query in range but outside the cap throws, whatever the third m. *)
Theorem gaunt_cap_throws : forall eval Lmax lmax lpmax mcap g L M l m lp,
  generator_ok eval -> 0 <= Lmax -> 0 <= lmax -> 0 <= lpmax ->
  gaunt_table eval Lmax lmax lpmax mcap = Ok g ->
  in_range Lmax lmax lpmax L l lp -> Z.abs M <= L -> Z.abs m <= l ->
  (coeff g L M l m lp = Throw LogicError <-> 0 <= mcap /\ (mcap < Z.abs M \/ mcap < Z.abs m)).
Proof. exact gaunt_cap_ok. Qed.
Print Assumptions gaunt_cap_throws.

(** The third m may reach twice the cap. *)
Example gaunt_cap_third_m : exists g, gaunt_table sample_eval 4 4 4 1 = Ok g /\
  coeff g 2 1 2 (-1) 4 = Ok (gaunt_coefficient sample_eval 2 1 2 (-1) 4 2) /\
  gaunt_coefficient sample_eval 2 1 2 (-1) 4 2 <> 0%R /\
  coeff g 2 2 2 0 4 = Throw LogicError /\ coeff g 2 3 2 0 4 = Ok 0%R.
Proof. exact gaunt_cap_example. Qed.

(* ---------------------------- C54 ---------------------------------- *)

(** The constants of the couplings expand the angular functions they are named
    after in spherical harmonics Y_L^0. *)
Theorem coupling_expansions : forall x,
  expansion cos1_terms x = x /\ expansion cos2_terms x = (x ^ 2)%R /\ expansion cos3_terms x = (x ^ 3)%R /\
  expansion cos4_terms x = (x ^ 4)%R /\ expansion cos5_terms x = (x ^ 5)%R /\
  expansion sin2_terms x = (1 - x ^ 2)%R /\ expansion cos2_sin2_terms x = (x ^ 2 * (1 - x ^ 2))%R /\
  (mod_const0 * Yl0 0 x + mod_const2 * Yl0 2 x = x ^ 2)%R.
Proof. exact expansions. Qed.
Print Assumptions coupling_expansions.

(** The table a diatomic basis builds answers every coupling its one-electron
    operators, coulomb and exchange ask for, and answers it exactly. *)
Theorem diatomic_couplings_exact : forall eval sh legendre, generator_ok eval -> shells_ok sh ->
  let '(lrval, midval, mcap) := diatomic_gaunt sh legendre in
  exists g, gaunt_table eval lrval midval lrval mcap = Ok g /\
  (forall terms li mi lj mj, one_electron terms -> In (li, mi) sh -> In (lj, mj) sh ->
     coupling terms g lj mj li mi = Ok (if mi =? mj then exact_coupling eval terms lj mj li mi else 0%R)) /\
  (legendre = true -> forall li mi lj mj L, In (li, mi) sh -> In (lj, mj) sh ->
     let M := mj - mi in Z.max (Z.abs (lj - li) - 2) (Z.abs M) <= L <= lj + li + 2 ->
     mod_coeff g lj mj L M li mi = Ok (modified_gaunt_coefficient eval lj mj L M li mi) /\
     coeff g lj mj L M li = Ok (gaunt_coefficient eval lj mj L M li mi)).
Proof. exact diatomic_couplings_ok. Qed.
Print Assumptions diatomic_couplings_exact.

(** The tables GauntT(gmax, n, gmax) of an atomic basis: n = 2 gmax for the
    two-electron part, 1, 2 and 4 for multipoles and fields. *)
Theorem atomic_couplings_exact : forall eval sh n, generator_ok eval -> shells_ok sh -> 0 <= n ->
  let gmax := atomic_gmax sh in
  exists g, gaunt_table eval gmax n gmax (-1) = Ok g /\
  (forall li mi lj mj L, In (li, mi) sh -> In (lj, mj) sh -> 0 <= L <= n -> Z.abs (mj - mi) <= L ->
     coeff g lj mj L (mj - mi) li = Ok (gaunt_coefficient eval lj mj L (mj - mi) li mi)) /\
  (forall terms li mi lj mj, one_electron terms -> (forall t, In t terms -> snd t <= n) ->
     In (li, mi) sh -> In (lj, mj) sh ->
     coupling terms g lj mj li mi = Ok (if mi =? mj then exact_coupling eval terms lj mj li mi else 0%R)).
Proof. exact atomic_couplings_ok. Qed.
Print Assumptions atomic_couplings_exact.

Example couplings_shells : shells_ok [(0, 0); (1, 0); (2, 0); (1, 1); (2, -2)] /\
  diatomic_gaunt [(0, 0); (1, 0); (2, 0); (1, 1); (2, -2)] true = (8, 6, 4).
Proof. exact shells_example. Qed.
