(** Properties C122 to C128: the self-consistent field of spherically averaged atoms. *)
Require Import Reals ZArith List Bool Arith Lia Lra Permutation.
Require Import Verif.Prelude Verif.FEModel Verif.AngModel Verif.JKModel Verif.ScfModel Verif.ScfSpec Verif.ScfProofs Verif.RsModel Verif.RsSpec Verif.RsMain Verif.RsRest Verif.RsLoad Verif.RsReload.
Import ListNotations.
Local Open Scope R_scope.

(** C122: in a restricted calculation the Fock matrices are the derivative of the energy with
    respect to the orbitals and the occupations *)
Theorem C122_orbitals s blk dC dn : atom_ok s -> sa_restricted s = true -> blocks_filled s blk ->
  (sa_have_xc s = true -> xc_curve1 (sa_nb s) (sa_n s) (sa_xc1 s)) ->
  gradient_along s blk (move blk dC dn) (fun F => predicted s F blk dC dn (seq 0 (nblocks s))).
Proof. intros H1 H2 H3. exact (restricted_orbitals s H1 blk H2 H3 dC dn). Qed.
Print Assumptions C122_orbitals.
(** C122: with fixed orbitals it is enough that the potential is the derivative along lines *)
Theorem C122_occupations s blk dn : atom_ok s -> sa_restricted s = true -> blocks_filled s blk ->
  (sa_have_xc s = true -> xc_line1 (sa_nb s) (sa_n s) (sa_xc1 s)) ->
  gradient_along s blk (move_occ blk dn) (fun F => orbital_energies s F blk dn (seq 0 (nblocks s))).
Proof. intros H1 H2 H3. exact (restricted_occupations s H1 blk H2 H3 dn). Qed.
Print Assumptions C122_occupations.
(* s and p blocks, overlap 4, confinement, exchange and a functional *)
Example C122_case : atom_ok (ex_atom true 1) /\ blocks_filled (ex_atom true 1) (ex_blk 1) /\ xc_curve1 2 1 (sa_xc1 (ex_atom true 1)) /\ xc_line1 2 1 (sa_xc1 (ex_atom true 1)).
Proof. exact (conj (ex_atom_ok true 1) (conj (ex_filled true 1 1) (conj ex_curve1 ex_line1))). Qed.

(** C123: the same of both spins if there are beta electrons *)
Theorem C123_orbitals s blk dC dn : atom_ok s -> sa_restricted s = false -> blocks_filled s blk -> (0 < sa_nelb s)%nat ->
  (sa_have_xc s = true -> xc_curve2 (sa_nb s) (sa_n s) (sa_xc2 s true)) ->
  gradient_along s blk (move blk dC dn) (fun F => predicted s F blk dC dn (seq 0 (nblocks s))).
Proof. intros H1 H2 H3 H4. exact (unrestricted_orbitals s H1 blk H2 H3 H4 dC dn). Qed.
Print Assumptions C123_orbitals.
Theorem C123_occupations s blk dn : atom_ok s -> sa_restricted s = false -> blocks_filled s blk -> (0 < sa_nelb s)%nat ->
  (sa_have_xc s = true -> xc_line2 (sa_nb s) (sa_n s) (sa_xc2 s true)) ->
  gradient_along s blk (move_occ blk dn) (fun F => orbital_energies s F blk dn (seq 0 (nblocks s))).
Proof. intros H1 H2 H3 H4. exact (unrestricted_occupations s H1 blk H2 H3 H4 dn). Qed.
Print Assumptions C123_occupations.
(** C123: without beta electrons, of alpha *)
Theorem C123_alpha s blk dC dn : atom_ok s -> sa_restricted s = false -> blocks_filled s blk -> sa_nelb s = 0%nat ->
  (forall k i, (sa_nb s <= k)%nat -> b_occ (blk k) i = 0 /\ dn k i = 0) ->
  (sa_have_xc s = true -> xc_curve1 (sa_nb s) (sa_n s) (alpha_xc (sa_xc2 s))) ->
  gradient_along s blk (move blk dC dn) (fun F => predicted s F blk dC dn (seq 0 (sa_nb s))).
Proof. intros H1 H2 H3 H4 H5. exact (alpha_orbitals s H1 blk dC dn H2 H3 H4 H5). Qed.
Print Assumptions C123_alpha.
(** C123: not of beta: without beta electrons their Fock matrices do not contain the potential
    of the functional *)
Theorem C123_beta_refuted : exists s blk dn, atom_ok s /\ sa_restricted s = false /\ sa_nelb s = 0%nat /\ blocks_filled s blk /\ xc_line2 (sa_nb s) (sa_n s) (sa_xc2 s true) /\
  (forall Pa Pb, fst (sa_xc2 s false Pa Pb) = fst (sa_xc2 s true Pa Pb)) /\ (forall i, b_occ (blk 1%nat) i = 0) /\
  ~ gradient_along s blk (move_occ blk dn) (fun F => orbital_energies s F blk dn (seq 0 (nblocks s))).
Proof. exact beta_gradient. Qed.
Print Assumptions C123_beta_refuted.
Example C123_case : atom_ok (ex_atom false 1) /\ blocks_filled (ex_atom false 1) (ex_blk 1) /\ xc_curve2 2 1 (sa_xc2 (ex_atom false 1) true) /\
  xc_line2 2 1 (sa_xc2 (ex_atom false 1) true) /\ xc_curve1 2 1 (alpha_xc (sa_xc2 (ex_atom false 0))).
Proof. exact (conj (ex_atom_ok false 1) (conj (ex_filled false 1 1) (conj ex_curve2 (conj ex_line2 ex_alpha)))). Qed.

(** C124: closed shells have the same energy and the same Fock matrices in both calculations *)
Theorem C124_closed_shells s u blk : same_atom s u -> blocks_filled s blk -> (0 < sa_nelb u)%nat ->
  (sa_have_xc s = true -> xc_closed (sa_nb s) (sa_n s) (sa_xc1 s) (sa_xc2 u true)) ->
  exists E F F', build_fock s blk = Ok (E, F) /\ build_fock u (halves (sa_nb s) blk) = Ok (E, F') /\
  forall l, (l < sa_nb s)%nat -> meq (sa_n s) (sa_n s) (F' l) (F l) /\ meq (sa_n s) (sa_n s) (F' (sa_nb s + l)%nat) (F l).
Proof. intros H1 H2 H3 H4. exact (closed_shells s u H1 blk H2 H3 H4). Qed.
Print Assumptions C124_closed_shells.
Example C124_case : same_atom (ex_atom true 1) (ex_atom false 1) /\ blocks_filled (ex_atom true 1) (ex_blk 1) /\
  xc_closed 2 1 (sa_xc1 (ex_atom true 1)) (sa_xc2 (ex_atom false 1) true).
Proof. exact (conj ex_same (conj (ex_filled true 1 1) ex_closed)). Qed.

(** C125: the core guess is the Fock matrix without electrons *)
Theorem C125_core s blk : atom_ok s -> sa_have_xc s = false -> blocks_filled s blk ->
  (forall k i, (k < nblocks s)%nat -> b_occ (blk k) i = 0) ->
  exists F, build_fock s blk = Ok (0, F) /\ forall l, (l < sa_nb s)%nat ->
    meq (sa_n s) (sa_n s) (F l) (coreH s (sa_Vnuc s) l) /\
    (sa_restricted s = false -> meq (sa_n s) (sa_n s) (F (sa_nb s + l)%nat) (coreH s (sa_Vnuc s) l)).
Proof. exact (core_is_fock s blk). Qed.
Print Assumptions C125_core.
(** C125: there are five guesses; other numbers throw *)
Theorem C125_choice s model i : ((0 <= i <= 4)%Z -> exists V, guess_potential s model i = Ok V) /\
  (guess_potential s model 0 = Ok (sa_Vnuc s)) /\ ((i < 0)%Z \/ (4 < i)%Z -> guess_potential s model i = Throw LogicError).
Proof. exact (guess_choice s model i). Qed.
Print Assumptions C125_choice.
(** C125: the batch gives the energies and Fock matrices of its entries, whatever the order of
    evaluation *)
Theorem C125_batch s dms order : (forall dm, In dm dms -> blocks_filled s dm) -> Permutation order (seq 0 (length dms)) ->
  exists l, batched_fock_builder s dms order = Ok l /\ Forall2 (fun dm r => build_fock s dm = Ok r) dms l.
Proof. exact (batch_ok s dms order). Qed.
Print Assumptions C125_batch.
(** C125: a block without orbitals is undefined behaviour *)
Theorem C125_empty s blk : (exists k, (k < nblocks s)%nat /\ b_m (blk k) = 0%nat) -> build_fock s blk = UB.
Proof. exact (empty_block s blk). Qed.
Print Assumptions C125_empty.
Example C125_case : blocks_filled (ex_atom false 1) (ex_blk 1) /\ blocks_filled (ex_atom false 1) (ex_blk 0) /\ Permutation [1%nat; 0%nat] (seq 0 2).
Proof. split; [apply ex_filled|]. split; [apply ex_filled|]. cbn. apply perm_swap. Qed.
(* no functional, no electrons *)
Example C125_bare : atom_ok (one_atom false 0 mid mid false) /\ blocks_filled (one_atom false 0 mid mid false) (one_blk 0 0).
Proof. exact bare_ok. Qed.

(** C126: the given occupations are frozen if they have one entry per l: in a restricted
    calculation, or for both spins *)
Theorem C126_frozen s fa fb : length fa = sa_nb s -> (sa_restricted s = false -> length fb = sa_nb s) ->
  exists o, frozen s fa fb = Some o /\ length o = nblocks s /\
    forall l, (l < sa_nb s)%nat -> nth l o 0 = nth l fa 0 /\ (sa_restricted s = false -> nth (sa_nb s + l) o 0 = nth l fb 0).
Proof. exact (frozen_given s fa fb). Qed.
Print Assumptions C126_frozen.
(** C126: nothing is frozen exactly if no list fits *)
Theorem C126_none s fa fb : frozen s fa fb = None <-> length fa <> sa_nb s /\ (sa_restricted s = false -> length fb <> sa_nb s).
Proof. exact (frozen_none s fa fb). Qed.
Print Assumptions C126_none.
(** C126: occupations of one spin only freeze the other spin at zero electrons *)
Theorem C126_one_spin_refuted : exists s fa o, sa_restricted s = false /\ (0 < sa_nelb s)%nat /\ length fa = sa_nb s /\ frozen s fa [] = Some o /\
  length o = nblocks s /\ forall l, (l < sa_nb s)%nat -> nth (sa_nb s + l) o 0 = 0.
Proof. exact frozen_zero. Qed.
Print Assumptions C126_one_spin_refuted.
Example C126_case : frozen (ex_atom false 1) [1; 0] [0; 1] = Some [1; 0; 0; 1] /\ frozen (ex_atom true 1) [1; 0] [0; 1] = Some [1; 0] /\ frozen (ex_atom true 1) [1] [0; 1] = None.
Proof. repeat split. Qed.

(** C127: the total density of the results contains the electrons of the blocks *)
Theorem C127_electrons s blk : half_inverse (sa_n s) (sa_X s) (sa_S s) -> all_orthonormal s blk ->
  tr (sa_n s) (total_density s blk) (sa_S s) = electrons s blk.
Proof. exact (density_counts s blk). Qed.
Print Assumptions C127_electrons.
(** C127: the orbitals written give the density of the block; none of them is empty *)
Theorem C127_orbitals s blk t l : let '(m, C, o) := saved_orbitals (extract_channel s blk t) l in let b := blk (t * sa_nb s + l)%nat in
  density_of m C o = block_P s b /\ sum m o = occupation b /\ (forall i, (i < m)%nat -> o i <> 0) /\ (m <= b_m b)%nat.
Proof. exact (saved_orbitals_ok s blk t l). Qed.
Print Assumptions C127_orbitals.
(** C127: the electron numbers written are rounded to the nearest integer, integers exactly *)
Theorem C127_rounded s blk t l : nearest (ch_occs (extract_channel s blk t) l) (occupation (blk (t * sa_nb s + l)%nat)) /\
  forall z, occupation (blk (t * sa_nb s + l)%nat) = IZR z -> ch_occs (extract_channel s blk t) l = z.
Proof. exact (rounded_channel s blk t l). Qed.
Print Assumptions C127_rounded.
Example C127_case : half_inverse 1 (sa_X (ex_atom false 1)) (sa_S (ex_atom false 1)) /\ all_orthonormal (ex_atom false 1) (ex_blk 1) /\ electrons (ex_atom false 1) (ex_blk 1) = 4.
Proof. exact ex_counts. Qed.

(** C128: loaded blocks have orthonormal orbitals and occupations in descending order between
    zero and the largest of the shell *)
Theorem C128_blocks sv s k no S12 bs : solvers_ok sv -> file_symmetric k no -> load_state sv s k no S12 = Ok bs ->
  length bs = nblocks s /\
  forall t l, (t < nparttype s)%nat -> (l < sa_nb s)%nat -> let b := nth (t * sa_nb s + l) bs no_block in
    b_m b = sa_n s /\ orthonormal (sa_n s) b /\
    (forall i, (i < sa_n s)%nat -> 0 <= b_occ b i <= INR (maximum_occupation s l)) /\
    (forall i j, (i <= j)%nat -> (j < sa_n s)%nat -> b_occ b j <= b_occ b i).
Proof. exact (loaded_blocks sv s k no S12 bs). Qed.
Print Assumptions C128_blocks.
(** C128: what was saved in an orthonormal basis is loaded again, if every shell has an integer
    number of electrons; missing: every other basis and occupation, see below *)
Theorem C128_reload_partial s poly bval blk sv bs : solvers_ok sv -> half_inverse (sa_n s) (sa_X s) (sa_S s) ->
  meq (sa_n s) (sa_n s) (mmul (sa_n s) (sa_X s) (mT (sa_X s))) mid -> all_orthonormal s blk ->
  (forall j, (j < nblocks s)%nat -> exists z, occupation (blk j) = IZR z /\ (0 <= z)%Z) ->
  (forall t l, (t < nparttype s)%nat -> (l < sa_nb s)%nat ->
    spectrum_in (sa_n s) (mmul (sa_n s) (mmul (sa_n s) (mT (sa_X s)) (block_P s (blk (t * sa_nb s + l)%nat))) (sa_X s)) 0 (INR (maximum_occupation s l))) ->
  load_state sv s (save_state s poly bval blk) (sa_n s) (sa_S s) = Ok bs ->
  forall t l, (t < nparttype s)%nat -> (l < sa_nb s)%nat ->
    meq (sa_n s) (sa_n s) (block_P s (nth (t * sa_nb s + l) bs no_block)) (block_P s (blk (t * sa_nb s + l)%nat)).
Proof. exact (reload_exact s poly bval blk sv bs). Qed.
Print Assumptions C128_reload_partial.
(** C128: in any basis the half-inverse of the overlap is applied once too often: X X^T P X X^T *)
Theorem C128_distorted s poly bval blk sv bs : solvers_ok sv -> half_inverse (sa_n s) (sa_X s) (sa_S s) -> all_orthonormal s blk ->
  (forall j, (j < nblocks s)%nat -> exists z, occupation (blk j) = IZR z /\ (0 <= z)%Z) ->
  (forall t l, (t < nparttype s)%nat -> (l < sa_nb s)%nat ->
    spectrum_in (sa_n s) (mmul (sa_n s) (mmul (sa_n s) (mT (sa_X s)) (block_P s (blk (t * sa_nb s + l)%nat))) (sa_X s)) 0 (INR (maximum_occupation s l))) ->
  load_state sv s (save_state s poly bval blk) (sa_n s) (sa_S s) = Ok bs ->
  forall t l, (t < nparttype s)%nat -> (l < sa_nb s)%nat ->
    let G := mmul (sa_n s) (sa_X s) (mT (sa_X s)) in
    meq (sa_n s) (sa_n s) (block_P s (nth (t * sa_nb s + l) bs no_block)) (mmul (sa_n s) (mmul (sa_n s) G (block_P s (blk (t * sa_nb s + l)%nat))) G).
Proof. exact (reload_same s poly bval blk sv bs). Qed.
Print Assumptions C128_distorted.
(** C128: so that an electron in a basis with overlap 4 comes back as a sixteenth *)
Theorem C128_overlap_refuted : exists s blk sv bs, solvers_ok sv /\ half_inverse (sa_n s) (sa_X s) (sa_S s) /\ all_orthonormal s blk /\ electrons s blk = 1 /\
  load_state sv s (save_state s lip [0; 1] blk) (sa_n s) (sa_S s) = Ok bs /\ loaded bs = / 16.
Proof. exact reload_loses. Qed.
Print Assumptions C128_overlap_refuted.
(** C128: half an electron comes back as one *)
Theorem C128_fractional_refuted : exists s blk sv bs, solvers_ok sv /\ half_inverse (sa_n s) (sa_X s) (sa_S s) /\ meq (sa_n s) (sa_n s) (mmul (sa_n s) (sa_X s) (mT (sa_X s))) mid /\
  all_orthonormal s blk /\ electrons s blk = / 2 /\
  load_state sv s (save_state s lip [0; 1] blk) (sa_n s) (sa_S s) = Ok bs /\ loaded bs = 1.
Proof. exact reload_doubles. Qed.
Print Assumptions C128_fractional_refuted.
(** C128: between restricted and spin-polarised calculations electrons are lost *)
Theorem C128_spin_refuted : forall r, exists s u blk sv bs, sa_restricted s = r /\ sa_restricted u = negb r /\ sa_n u = sa_n s /\ sa_nb u = sa_nb s /\ sa_S u = sa_S s /\ sa_X u = sa_X s /\
  solvers_ok sv /\ half_inverse (sa_n s) (sa_X s) (sa_S s) /\ all_orthonormal s blk /\ electrons s blk = 2 /\
  load_state sv u (save_state s lip [0; 1] blk) (sa_n s) (sa_S s) = Ok bs /\ loaded bs = 1.
Proof. exact reload_spin. Qed.
Print Assumptions C128_spin_refuted.
(** C128: the treatment of the derivative at the end is not in the file: with another choice the
    matrices do not fit *)
Theorem C128_boundary_refuted : exists s b b' poly bval blk N N', get_basis 5 3 = Ok poly /\
  b = mkFE (pb_family poly) 3 bval true false true true /\ get_nbf b = Ok (Z.of_nat N) /\ sa_n s = N /\ (0 < sa_nb s)%nat /\
  rebuild (save_state s poly bval blk) false = Ok b' /\ get_nbf b' = Ok (Z.of_nat N') /\
  forall sv S12, load_state sv s (save_state s poly bval blk) N' S12 = UB.
Proof. exact reload_zeroder. Qed.
Print Assumptions C128_boundary_refuted.
(** C128: bases with Chebyshev nodes are rebuilt with other nodes *)
Theorem C128_nodes_refuted s bval blk n : (2 <= n)%Z -> forall id, id = 100%Z \/ id = 101%Z ->
  exists p p', get_basis id n = Ok p /\ get_basis (sd_primbas (save_state s p bval blk)) (sd_nnodes (save_state s p bval blk)) = Ok p' /\
    pb_family p' = pb_family p /\ pb_nodes p = ChebyshevNodes /\ pb_nodes p' = GaussLobatto.
Proof. exact (reload_nodes s bval blk n). Qed.
Print Assumptions C128_nodes_refuted.
(* one electron, unit overlap: all hypotheses hold and the load succeeds *)
Example C128_case : exists bs, let s := one_atom true 0 mid mid false in let blk := one_blk 1 0 in
  half_inverse 1 mid mid /\ all_orthonormal s blk /\ file_symmetric (save_state s lip [0; 1] blk) 1 /\
  spectrum_in 1 (mmul 1 (mmul 1 (mT mid) (block_P s (blk 0%nat))) mid) 0 (INR (maximum_occupation s 0)) /\
  load_state diagonal_solvers s (save_state s lip [0; 1] blk) 1 mid = Ok bs /\ loaded bs = 1.
Proof. exact ex_reload. Qed.
