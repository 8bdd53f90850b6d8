(** Properties C104 and C105: the two-electron matrices of spherically averaged atoms. *)
Require Import Reals ZArith List Bool Arith Lia Lra.
Require Import Verif.Prelude Verif.AngModel Verif.JKModel Verif.JKSpec Verif.GauntModel Verif.GauntSpec
  Verif.TwoDModel Verif.TwoDSpec Verif.SxModel Verif.SxSpec Verif.SxMore Verif.SxAtom Verif.SxWit.
From Verif Require JKProofs.
Import ListNotations.
Local Open Scope R_scope.

(** C104: whatever calls were made, Coulomb and averaged exchange matrices are those of the last cached integrals *)
Theorem C104_histories b lmax lam yuk calls : sad_basis_ok b lmax calls ->
  exists s, history b calls (fresh lam yuk) = Ok s /\
  let N := lnbf (b_lay b) in let Kx := averaged_exchange (b_eval b) lmax N in
  (forall P, density N P -> In CallTei calls ->
     is_matrix (sad_coulomb b s P) N (fun a c =>
       4 * PI * coulomb_of N (stored_tensor (b_lay b) (b_bare b) (b_tol b) 0) (dent P) a c)) /\
  (forall order P, visits lmax order -> radial_densities lmax N P ->
     (In CallTei calls -> is_cube (sad_exchange b s order P) (lmax + 1) N
        (Kx (fun L => 4 * PI / IZR (2 * L + 1)) (stored_tensor (b_lay b) (b_bare b) (b_tol b)) (pick P))) /\
     match last_screened calls with
     | Some (CallYukawa l) => is_cube (sad_rs_exchange b s order P) (lmax + 1) N
         (Kx (fun _ => 4 * PI * l) (stored_tensor (b_lay b) (b_yukawa b l) (b_tol b)) (pick P))
     | Some (CallErfc m) => is_cube (sad_rs_exchange b s order P) (lmax + 1) N
         (Kx (fun L => 4 * PI * m / IZR (2 * L + 1)) (erfc_tensor (b_lay b) (b_erfc b m)) (pick P))
     | _ => sad_rs_exchange b s order P = Throw LogicError
     end) /\
  (~ In CallTei calls -> (forall P, sad_coulomb b s P = Throw LogicError) /\
     forall order P, sad_exchange b s order P = Throw LogicError).
Proof. exact (sad_two_electron_ok b lmax lam yuk calls). Qed.
Print Assumptions C104_histories.

(** C104: the wrong number of densities, or a first one of the wrong size, is rejected *)
Theorem C104_rejects b lmax calls s order P : sad_basis_ok b lmax calls ->
  length P <> (lmax + 1)%nat \/ ~ density (lnbf (b_lay b)) (nth 0 P dempty) ->
  sad_exchange b s order P = Throw LogicError /\ sad_rs_exchange b s order P = Throw LogicError.
Proof. exact (sad_rejects_ok b lmax calls s order P). Qed.
Print Assumptions C104_rejects.

(** C104: Slater integrals of one orbital *)
Theorem C104_slater b k n c : fits (b_lay b) -> kernel_ok (b_lay b) (b_bare b) k ->
  (n = lnbf (b_lay b) -> slater_F b k n c = Ok (sum n (fun p => sum n (fun q => sum n (fun r => sum n (fun t =>
     kernel_tensor (b_lay b) (b_bare b) k p q r t * (c p * c q) * (c r * c t))))))) /\
  (n <> lnbf (b_lay b) -> slater_F b k n c = Throw LogicError).
Proof. exact (slater_ok b k n c). Qed.
Print Assumptions C104_slater.

(** C104: the sizes of the other densities are not checked *)
Theorem C104_size_refuted : exists s, history sp_sad [CallTei] (fresh 0 false) = Ok s /\
  length sp_short = 2%nat /\ density 3 (nth 0 sp_short dempty) /\ ~ density 3 (nth 1 sp_short dempty) /\
  sad_exchange sp_sad s [0; 1]%nat sp_short = UB.
Proof. exact sp_short_case. Qed.
Print Assumptions C104_size_refuted.

(** s and p shells, two elements of two functions each *)
Example C104_example : forall calls, sad_basis_ok sp_sad 1 calls /\ visits 1 [1; 0]%nat /\ radial_densities 1 3 sp_P /\ averaged_weight (b_eval sp_sad) 0 1 1 = 3 / (4 * PI).
Proof. exact sp_history_case. Qed.
Example C104_slater_example : fits (b_lay sp_sad) /\ forall k, kernel_ok (b_lay sp_sad) (b_bare sp_sad) k.
Proof. exact (conj JKProofs.lay2_fits JKProofs.kernel2_ok). Qed.

(** C105: the maps from densities to matrices are symmetric with weights 2l+1 *)
Theorem C105_symmetric b lmax lam yuk calls s : sad_basis_ok b lmax calls -> history b calls (fresh lam yuk) = Ok s ->
  let N := lnbf (b_lay b) in
  (In CallTei calls -> forall P Q, density N P -> density N Q -> exists J J', sad_coulomb b s P = Ok J /\ sad_coulomb b s Q = Ok J' /\
     mdot N (dent J) (dent Q) = mdot N (dent P) (dent J')) /\
  forall order P Q, visits lmax order -> radial_densities lmax N P -> radial_densities lmax N Q ->
  (In CallTei calls -> exists K K', sad_exchange b s order P = Ok K /\ sad_exchange b s order Q = Ok K' /\
     shell_dot lmax N (pick K) (pick Q) = shell_dot lmax N (pick P) (pick K')) /\
  (forall l, last_screened calls = Some (CallYukawa l) ->
     exists K K', sad_rs_exchange b s order P = Ok K /\ sad_rs_exchange b s order Q = Ok K' /\
     shell_dot lmax N (pick K) (pick Q) = shell_dot lmax N (pick P) (pick K')) /\
  (forall m, last_screened calls = Some (CallErfc m) ->
     (forall L, (L < 2 * lmax + 1)%nat -> fully_symmetric N (erfc_tensor (b_lay b) (b_erfc b m) L)) ->
     exists K K', sad_rs_exchange b s order P = Ok K /\ sad_rs_exchange b s order Q = Ok K' /\
     shell_dot lmax N (pick K) (pick Q) = shell_dot lmax N (pick P) (pick K')).
Proof. exact (sad_symmetric_ok b lmax lam yuk calls s). Qed.
Print Assumptions C105_symmetric.

(** C105: on spherical densities the atomic program computes the same matrices, averaged over m *)
Theorem C105_atomic b b' lmax lam yuk lam' yuk' calls :
  sad_basis_ok b lmax calls -> same_radial b b' -> all_shells lmax (b_sh b') ->
  exists s s', history b calls (fresh lam yuk) = Ok s /\ history b' calls (fresh lam' yuk') = Ok s' /\
  let N := lnbf (b_lay b) in let sh := b_sh b' in
  forall order P Pf, visits lmax order -> radial_densities lmax N P -> density (length sh * N) Pf ->
    spherical sh N (pick P) (dent Pf) -> not_screened lmax N (b_thr b') (pick P) ->
  (In CallTei calls -> averages lmax N sh (sad_exchange b s order P) (exchange b' s' Pf)) /\
  (last_screened calls <> None -> averages lmax N sh (sad_rs_exchange b s order P) (rs_exchange b' s' Pf)) /\
  (In CallTei calls -> unsold (b_eval b) lmax -> forall Pt, density N Pt -> total_density lmax N (pick P) (dent Pt) ->
     exists J Jf, sad_coulomb b s Pt = Ok J /\ coulomb b' s' Pf = Ok Jf /\
     forall i j a c, (i < length sh)%nat -> (j < length sh)%nat -> (a < N)%nat -> (c < N)%nat ->
       dent Jf (fn N i a) (fn N j c) = if Nat.eqb i j then dent J a c else 0).
Proof. exact (sad_matches_ok b b' lmax lam yuk lam' yuk' calls). Qed.
Print Assumptions C105_atomic.

Example C105_symmetric_example : (exists s, history sp_sad [CallTei; CallErfc 1] (fresh 0 false) = Ok s) /\
  sad_basis_ok sp_sad 1 [CallTei; CallErfc 1] /\ (forall L, fully_symmetric 3 (erfc_tensor (b_lay sp_sad) (b_erfc sp_sad 1) L)).
Proof. exact sp_symmetric_case. Qed.
Example C105_atomic_example : same_radial sp_sad sp_atom /\ all_shells 1 (b_sh sp_atom) /\ unsold (b_eval sp_sad) 1 /\
  radial_densities 1 3 sp_P /\ density (4 * 3) sp_Pf /\ spherical (b_sh sp_atom) 3 (pick sp_P) (dent sp_Pf) /\
  not_screened 1 3 (b_thr sp_atom) (pick sp_P) /\ density 3 sp_Pt /\ total_density 1 3 (pick sp_P) (dent sp_Pt).
Proof. exact (conj sp_same (conj sp_all (conj sp_unsold sp_densities))). Qed.
