(** C26, C53, C55: the two-electron matrices of an atomic basis after any history
    of calls, and its density fitting factors. *)
Require Import Reals ZArith List Bool Arith.
Require Import Verif.Prelude Verif.AngModel Verif.CholSpec Verif.JKModel Verif.JKSpec Verif.JKProofs Verif.GauntModel
  Verif.GauntSpec Verif.TwoDModel Verif.TwoDSpec Verif.TwoDProofs.
Import ListNotations.
Local Open Scope R_scope.

(* ---------------------------- C26, C55 ------------------------------ *)

(** No history of calls fails.  Afterwards coulomb and exchange are the full
    contractions with the bare integrals if compute_tei was ever called, and
    throw otherwise; rs_exchange is the full contraction with the kernel and the
    parameter of the last compute_yukawa or compute_erfc, and throws if there was
    none.  Exchange leaves out density blocks of norm below its threshold. *)
Theorem two_electron_after_history : forall b lam yuk calls, basis_ok b calls ->
  exists s, history b calls (fresh lam yuk) = Ok s /\
  let nsh := length (b_sh b) in let N := lnbf (b_lay b) in
  let V := multipole_tensor (b_eval b) (b_sh b) (2 * lmax_of (b_sh b)) in
  forall P, density (nsh * N) P ->
  (In CallTei calls ->
     is_shell_matrix (coulomb b s P) nsh N
       (full_coulomb nsh N (V (fun L => 4 * PI / IZR (2 * L + 1)) (stored_tensor (b_lay b) (b_bare b) (b_tol b))) (dent P)) /\
     is_shell_matrix (exchange b s P) nsh N
       (full_exchange nsh N (V (fun L => 4 * PI / IZR (2 * L + 1)) (stored_tensor (b_lay b) (b_bare b) (b_tol b)))
          (screened N (b_thr b) (dent P)))) /\
  (~ In CallTei calls -> coulomb b s P = Throw LogicError /\ exchange b s P = Throw LogicError) /\
  match last_screened calls with
  | Some (CallYukawa l) =>
     is_shell_matrix (rs_exchange b s P) nsh N
       (full_exchange nsh N (V (fun _ => 4 * PI * l) (stored_tensor (b_lay b) (b_yukawa b l) (b_tol b)))
          (screened N (b_thr b) (dent P)))
  | Some (CallErfc m) =>
     is_shell_matrix (rs_exchange b s P) nsh N
       (full_exchange nsh N (V (fun L => 4 * PI * m / IZR (2 * L + 1)) (erfc_tensor (b_lay b) (b_erfc b m)))
          (screened N (b_thr b) (dent P)))
  | _ => rs_exchange b s P = Throw LogicError
  end.
Proof. exact two_electron_ok. Qed.
Print Assumptions two_electron_after_history.

(** The multipole expansion is complete: higher multipoles add nothing to the
    Coulomb matrix. *)
Theorem coulomb_any_cutoff : forall b calls s P Rad Lcut, basis_ok b calls -> csize (t_chol s) <> 0%nat ->
  density (length (b_sh b) * lnbf (b_lay b)) P -> (2 * lmax_of (b_sh b) <= Lcut)%Z ->
  (forall L X, (L < N_L_of (b_sh b))%nat -> density (lnbf (b_lay b)) X ->
     is_matrix (J_cached b s L X) (lnbf (b_lay b)) (coulomb_of (lnbf (b_lay b)) (Rad L) (dent X))) ->
  is_shell_matrix (coulomb b s P) (length (b_sh b)) (lnbf (b_lay b))
    (full_coulomb (length (b_sh b)) (lnbf (b_lay b))
       (multipole_tensor (b_eval b) (b_sh b) Lcut (fun L => 4 * PI / IZR (2 * L + 1)) Rad) (dent P)).
Proof. exact coulomb_ok. Qed.
Print Assumptions coulomb_any_cutoff.

(** The screening changes nothing if the blocks below the threshold are zero. *)
Theorem exchange_screening_exact : forall nsh N V thr (P : mat),
  (forall i l, (i < nsh)%nat -> (l < nsh)%nat -> block_norm N P i l < thr ->
     forall c d, (c < N)%nat -> (d < N)%nat -> P (fn N i c) (fn N l d) = 0) ->
  forall j a k b, full_exchange nsh N V (screened N thr P) j a k b = full_exchange nsh N V P j a k b.
Proof. exact unscreened_ok. Qed.
Print Assumptions exchange_screening_exact.

(** What the factors stand for: the radial integrals, each within one tolerance
    per element. *)
Theorem stored_integrals_close : forall b k L, 0 <= b_tol b -> good_kernel b k -> (L < N_L_of (b_sh b))%nat ->
  forall x y z w, Rabs (stored_tensor (b_lay b) k (b_tol b) L x y z w - kernel_tensor (b_lay b) k L x y z w)
    <= INR (lnel (b_lay b)) * b_tol b.
Proof. exact stored_close. Qed.
Print Assumptions stored_integrals_close.

(** Three shells, two elements sharing a function, all kinds of calls. *)
Example history_case : basis_ok basis2 [CallYukawa 2; CallTei; CallErfc 3; CallTei].
Proof. exact (basis2_ok _). Qed.
Example history_values : stored_tensor lay2 kernel2 0 0 1 1 1 1 = 4 /\ stored_tensor lay2 kernel2 0 0 0 2 1 1 = 0.
Proof. exact basis2_values. Qed.

(* ---------------------------- C53 ----------------------------------- *)

(** If the radial tensor is positive semidefinite as a matrix over pairs, the
    factorisation ends for every multipole with at most one symmetric matrix per
    pair and reproduces every integral to within the tolerance; without
    compute_tei it throws. *)
Theorem radial_df_factors_exact : forall b lam yuk calls tol fuel, basis_ok b calls -> 0 < tol ->
  (0 < lnbf (b_lay b))%nat -> (lnbf (b_lay b) * lnbf (b_lay b) < fuel)%nat ->
  (forall L, (L < N_L_of (b_sh b))%nat ->
     psd (lnbf (b_lay b) * lnbf (b_lay b)) (pair_matrix (lnbf (b_lay b)) (stored_tensor (b_lay b) (b_bare b) (b_tol b) L))) ->
  exists s, history b calls (fresh lam yuk) = Ok s /\
  (In CallTei calls -> exists out, radial_df_factors fuel b s tol = Ok out /\ length out = N_L_of (b_sh b) /\
     forall L, (L < N_L_of (b_sh b))%nat ->
       fitted (lnbf (b_lay b)) (stored_tensor (b_lay b) (b_bare b) (b_tol b) L) tol (nth L out [])) /\
  (~ In CallTei calls -> radial_df_factors fuel b s tol = Throw LogicError).
Proof. exact radial_df_ok. Qed.
Print Assumptions radial_df_factors_exact.

Example radial_df_case : forall L, (L < 3)%nat -> psd 9 (pair_matrix 3 (stored_tensor lay2 kernel2 0 L)).
Proof. exact basis2_psd. Qed.
