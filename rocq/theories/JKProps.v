(** C24, C25: Coulomb and exchange assembly for one multipole. *)
Require Import Reals List Bool Arith.
Require Import Verif.Prelude Verif.FEModel Verif.FESpec Verif.AngModel Verif.CholModel Verif.CholSpec
  Verif.JKModel Verif.JKSpec Verif.JKProofs.
Local Open Scope R_scope.

(** The layout of every valid finite element basis is admissible below. *)
Theorem fe_layouts_fit : forall b, valid_fe b -> fits (fe_layout b).
Proof. exact fe_layout_fits. Qed.
Print Assumptions fe_layouts_fit.

(* ---------------------------- C24 ---------------------------------- *)

(** J_ab = sum_cd R(ab,cd) P_cd, dense in-element blocks. *)
Theorem coulomb_dense : forall lay rs rb tw small big tei P,
  fits lay -> supplies_disjoint lay rs rb small big ->
  (forall e, (e < lnel lay)%nat ->
     supplies tw e (count_of lay e * count_of lay e) (count_of lay e * count_of lay e) (tei e)) ->
  density (lnbf lay) P ->
  is_matrix (assemble_J_dense lay rs rb tw P) (lnbf lay)
    (coulomb_of (lnbf lay) (tensor lay (element_pair lay small big tei)) (dent P)).
Proof. exact J_dense_ok. Qed.
Print Assumptions coulomb_dense.

(** The same for in-element blocks given by a factor L with tensor L L^T. *)
Theorem coulomb_cholesky : forall lay rs rb ch small big (F : nat -> dmat) P,
  fits lay -> supplies_disjoint lay rs rb small big ->
  (forall e, (e < lnel lay)%nat -> ch e = Ok (F e) /\ drows (F e) = (count_of lay e * count_of lay e)%nat) ->
  density (lnbf lay) P ->
  is_matrix (assemble_J_chol lay rs rb ch P) (lnbf lay)
    (coulomb_of (lnbf lay) (tensor lay (element_pair lay small big (fun e => factor_tensor (F e)))) (dent P)).
Proof. exact J_chol_ok. Qed.
Print Assumptions coulomb_cholesky.

(** The r_big integral of the innermost element is never used: it may even be
    missing. *)
Theorem innermost_r_big_unused : forall lay rs rb rb' inel ktei chol P,
  (forall e, (0 < e)%nat -> rb e = rb' e) ->
  assemble_J lay rs rb inel P = assemble_J lay rs rb' inel P /\
  assemble_K_dense lay rs rb ktei P = assemble_K_dense lay rs rb' ktei P /\
  assemble_K_chol lay rs rb chol P = assemble_K_chol lay rs rb' chol P.
Proof. exact innermost_unused. Qed.
Print Assumptions innermost_r_big_unused.

(* ---------------------------- C25 ---------------------------------- *)

(** K_ab = sum_cd R(ac,bd) P_cd, permuted in-element blocks. *)
Theorem exchange_dense : forall lay rs rb kt small big (T : nat -> dmat) P,
  fits lay -> supplies_disjoint lay rs rb small big ->
  (forall e, (e < lnel lay)%nat ->
     kt e = exchange_tei (T e) (count_of lay e) (count_of lay e) (count_of lay e) (count_of lay e) /\
     drows (T e) = (count_of lay e * count_of lay e)%nat /\
     dcols (T e) = (count_of lay e * count_of lay e)%nat /\
     pair_symmetric (count_of lay e) (dent (T e))) ->
  density (lnbf lay) P ->
  is_matrix (assemble_K_dense lay rs rb kt P) (lnbf lay)
    (exchange_of (lnbf lay) (tensor lay (element_pair lay small big (fun e => dent (T e)))) (dent P)).
Proof. exact K_dense_ok. Qed.
Print Assumptions exchange_dense.

(** The same for factored in-element blocks. *)
Theorem exchange_cholesky : forall lay rs rb ch small big (F : nat -> dmat) P,
  fits lay -> supplies_disjoint lay rs rb small big ->
  (forall e, (e < lnel lay)%nat -> ch e = Ok (F e) /\ drows (F e) = (count_of lay e * count_of lay e)%nat) ->
  density (lnbf lay) P ->
  is_matrix (assemble_K_chol lay rs rb ch P) (lnbf lay)
    (exchange_of (lnbf lay) (tensor lay (element_pair lay small big (fun e => factor_tensor (F e)))) (dent P)).
Proof. exact K_chol_ok. Qed.
Print Assumptions exchange_cholesky.

(** The same when every pair of elements has its own tensor. *)
Theorem exchange_pairwise : forall lay kt (T : nat -> nat -> dmat) P,
  fits lay ->
  (forall i j, (i < lnel lay)%nat -> (j < lnel lay)%nat ->
     kt i j = exchange_tei (T i j) (count_of lay i) (count_of lay i) (count_of lay j) (count_of lay j) /\
     drows (T i j) = (count_of lay i * count_of lay i)%nat /\
     dcols (T i j) = (count_of lay j * count_of lay j)%nat /\
     forall a b r, (a < count_of lay i)%nat -> (b < count_of lay i)%nat ->
       (r < count_of lay j * count_of lay j)%nat ->
       dent (T i j) (pair_ix (count_of lay i) a b) r = dent (T i j) (pair_ix (count_of lay i) b a) r) ->
  density (lnbf lay) P ->
  is_matrix (assemble_K_pairwise lay kt P) (lnbf lay)
    (exchange_of (lnbf lay) (tensor lay (fun i j a b c d =>
       dent (T i j) (pair_ix (count_of lay i) a b) (pair_ix (count_of lay j) c d))) (dent P)).
Proof. exact K_pairwise_ok. Qed.
Print Assumptions exchange_pairwise.

(** Factors that reproduce the in-element tensors within tol change no entry of
    J or K by more than tol times the sum of |P| over the elements; with tol = 0
    the factored and the dense variants agree. *)
Theorem factored_against_dense : forall lay rs rb tw kt ch small big (T F : nat -> dmat) P tol,
  fits lay -> supplies_disjoint lay rs rb small big -> 0 <= tol ->
  (forall e, (e < lnel lay)%nat ->
     tw e = Ok (T e) /\
     kt e = exchange_tei (T e) (count_of lay e) (count_of lay e) (count_of lay e) (count_of lay e) /\
     drows (T e) = (count_of lay e * count_of lay e)%nat /\
     dcols (T e) = (count_of lay e * count_of lay e)%nat /\
     pair_symmetric (count_of lay e) (dent (T e)) /\
     ch e = Ok (F e) /\ drows (F e) = (count_of lay e * count_of lay e)%nat /\
     forall r s, (r < count_of lay e * count_of lay e)%nat -> (s < count_of lay e * count_of lay e)%nat ->
       Rabs (dent (T e) r s - factor_tensor (F e) r s) <= tol) ->
  density (lnbf lay) P ->
  exists J J' K K',
    assemble_J_dense lay rs rb tw P = Ok J /\ assemble_J_chol lay rs rb ch P = Ok J' /\
    assemble_K_dense lay rs rb kt P = Ok K /\ assemble_K_chol lay rs rb ch P = Ok K' /\
    forall a b, (a < lnbf lay)%nat -> (b < lnbf lay)%nat ->
      Rabs (dent J a b - dent J' a b) <= tol * element_weight lay P /\
      Rabs (dent K a b - dent K' a b) <= tol * element_weight lay P.
Proof. exact JK_truncation. Qed.
Print Assumptions factored_against_dense.

(* ----------------------- C24 and C25 ------------------------------- *)

(** From the caches, whatever they held before they were filled. *)
Theorem cached_coulomb_exchange : forall lay k N_L oldd oldt oldk,
  fits lay -> (forall L, (L < N_L)%nat -> kernel_ok lay k L) ->
  exists sm bg tei ktei,
    compute_disjoint k N_L (lnel lay) oldd = Ok (sm, bg) /\
    compute_in_element_tei k N_L (lnel lay) oldt = Ok tei /\
    compute_in_element_ktei (count_of lay) N_L (lnel lay) tei oldk = Ok ktei /\
    forall L P, (L < N_L)%nat -> density (lnbf lay) P ->
    let disjoint c iel := cache_at c (L * lnel lay + iel) in
    let in_element c iel := cache_at c (lnel lay * lnel lay * L + iel * lnel lay + iel) in
    is_matrix (assemble_J_dense lay (disjoint sm) (disjoint bg) (in_element tei) P) (lnbf lay)
      (coulomb_of (lnbf lay) (kernel_tensor lay k L) (dent P)) /\
    is_matrix (assemble_K_dense lay (disjoint sm) (disjoint bg) (in_element ktei) P) (lnbf lay)
      (exchange_of (lnbf lay) (kernel_tensor lay k L) (dent P)).
Proof. exact cached_ok. Qed.
Print Assumptions cached_coulomb_exchange.

(** Without caches. *)
Theorem uncached_coulomb_exchange : forall lay k L P,
  fits lay -> density (lnbf lay) P -> kernel_ok lay k L ->
  is_matrix (assemble_J_uncached lay k L P) (lnbf lay) (coulomb_of (lnbf lay) (kernel_tensor lay k L) (dent P)) /\
  is_matrix (assemble_K_uncached lay k L P) (lnbf lay) (exchange_of (lnbf lay) (kernel_tensor lay k L) (dent P)).
Proof. exact uncached_ok. Qed.
Print Assumptions uncached_coulomb_exchange.

(** The complementary error function kernel, cached for every element pair. *)
Theorem cached_erfc_exchange : forall lay erfc N_L old,
  fits lay ->
  (forall L i j, (L < N_L)%nat -> (i < lnel lay)%nat -> (j < lnel lay)%nat ->
     drows (erfc L i j) = (count_of lay i * count_of lay i)%nat /\
     dcols (erfc L i j) = (count_of lay j * count_of lay j)%nat /\
     forall a b r, (a < count_of lay i)%nat -> (b < count_of lay i)%nat ->
       (r < count_of lay j * count_of lay j)%nat ->
       dent (erfc L i j) (pair_ix (count_of lay i) a b) r = dent (erfc L i j) (pair_ix (count_of lay i) b a) r) ->
  exists ktei, compute_erfc_ktei (count_of lay) erfc N_L (lnel lay) old = Ok ktei /\
    forall L P, (L < N_L)%nat -> density (lnbf lay) P ->
    is_matrix (assemble_K_pairwise lay (fun i j => cache_at ktei (lnel lay * lnel lay * L + i * lnel lay + j)) P) (lnbf lay)
      (exchange_of (lnbf lay) (tensor lay (fun i j a b c d =>
         dent (erfc L i j) (pair_ix (count_of lay i) a b) (pair_ix (count_of lay j) c d))) (dent P)).
Proof. exact cached_erfc_ok. Qed.
Print Assumptions cached_erfc_exchange.

(** Two elements that share their middle function, all integrals equal to one:
    the hypotheses hold and the contractions are not trivial. *)
Example jk_case_fits : fits lay2.
Proof. exact lay2_fits. Qed.
Example jk_case_kernel : forall L, kernel_ok lay2 kernel2 L.
Proof. exact kernel2_ok. Qed.
Example jk_case_values : coulomb_of 3 (kernel_tensor lay2 kernel2 0) (fun _ _ => 1) 1 1 = 16 /\
  coulomb_of 3 (kernel_tensor lay2 kernel2 0) (fun _ _ => 1) 0 2 = 0 /\
  exchange_of 3 (kernel_tensor lay2 kernel2 0) (fun _ _ => 1) 1 1 = 16 /\
  exchange_of 3 (kernel_tensor lay2 kernel2 0) (fun _ _ => 1) 0 2 = 4.
Proof. exact lay2_J. Qed.
Example jk_case_factor : forall r s, dent (ones 4) r s = factor_tensor (mkD 4 1 (fun _ _ => 1)) r s.
Proof. exact ones_factor. Qed.
