(** Orthonormalisation, diagonalisation, densities, Fock matrices: property
    theorems. *)
Require Import Reals List Bool Arith Permutation.
Require Import Verif.Prelude Verif.AngModel Verif.ScfModel Verif.ScfSpec Verif.ScfProofs.
Import ListNotations.
Local Open Scope R_scope.

(* ------------------------------- C34 -------------------------------- *)

(** All n states, orthonormal, solving F C = S C E, in ascending order, every
    state inside one block; or the eigensolver failed and the call throws. *)
Theorem blocked_diagonalisation : forall sv n F S X blocks,
  solvers_ok sv -> symmetric n S -> symmetric n F -> partition n blocks -> block_diagonal blocks F ->
  columns_in_blocks n n blocks X -> half_inverse n X S ->
  (exists E C, eig_gsym_sub sv n n F X blocks = Ok (E, C) /\ solves n F S E C /\ columns_in_blocks n n blocks C) \/
  (eig_gsym_sub sv n n F X blocks = Throw LogicError /\ exists m A, symmetric m A /\ sv_eig sv m A = None).
Proof. exact eig_gsym_sub_ok. Qed.
Print Assumptions blocked_diagonalisation.

(** Never a result if the blocks do not cover every column once. *)
Theorem blocked_diagonalisation_counts_states : forall sv n nc F X blocks,
  length (concat (map (sub_columns nc X) blocks)) <> n -> forall r, eig_gsym_sub sv n nc F X blocks <> Ok r.
Proof. exact eig_gsym_sub_count. Qed.
Print Assumptions blocked_diagonalisation_counts_states.

Example diagonalisation_example : solvers_ok diagonal_solvers /\ partition 2 ex_blocks /\
  (half_inverse 2 ex_X ex_S /\ columns_in_blocks 2 2 ex_blocks ex_X /\ symmetric 2 ex_S /\ symmetric 2 ex_F) /\
  block_diagonal ex_blocks ex_F /\ exists EC, eig_gsym_sub diagonal_solvers 2 2 ex_F ex_X ex_blocks = Ok EC.
Proof. exact (conj diagonal_solvers_ok (conj ex_partition (conj ex_half (conj (ex_block_diag ex_F ex_F_diag) ex_eig)))). Qed.

(* ------------------------------- C45 -------------------------------- *)

Theorem orthonormaliser : forall sv n S chol X,
  solvers_ok sv -> positive_definite n S -> invh sv n S chol = Ok X -> half_inverse n X S.
Proof. exact invh_ok. Qed.
Print Assumptions orthonormaliser.

Theorem orthonormaliser_total : forall sv n S chol,
  (exists X, invh sv n S chol = Ok X) \/ invh sv n S chol = Throw LogicError.
Proof. exact invh_total. Qed.
Print Assumptions orthonormaliser_total.

(** Sinvh of a basis with symmetry blocks: an orthonormaliser of the whole overlap
    with every column inside one block. *)
Theorem blocked_orthonormaliser : forall sv n S chol blocks,
  solvers_ok sv -> positive_definite n S -> partition n blocks -> block_diagonal blocks S ->
  forall X, basis_Sinvh sv S chol blocks = Ok X -> half_inverse n X S /\ columns_in_blocks n n blocks X.
Proof. exact basis_Sinvh_ok. Qed.
Print Assumptions blocked_orthonormaliser.
Theorem blocked_orthonormaliser_total : forall sv S chol blocks,
  (exists X, basis_Sinvh sv S chol blocks = Ok X) \/ basis_Sinvh sv S chol blocks = Throw LogicError.
Proof. exact basis_Sinvh_total. Qed.
Print Assumptions blocked_orthonormaliser_total.
Example orthonormaliser_example : solvers_ok diagonal_solvers /\ positive_definite 2 ex_S /\
  (exists X, invh diagonal_solvers 2 ex_S true = Ok X) /\
  partition 2 ex_blocks /\ block_diagonal ex_blocks ex_S /\ exists X, basis_Sinvh diagonal_solvers ex_S false ex_blocks = Ok X.
Proof.
  exact (conj diagonal_solvers_ok (conj ex_pd (conj ex_invh (conj ex_partition (conj (ex_block_diag ex_S ex_S_diag) ex_Sinvh))))).
Qed.

(** Expectation values with the assembled density are those of the orbitals in the
    orthonormal Fock blocks handed to the solver, also with mirrored blocks. *)
Theorem density_expectation_values : forall N bs F,
  blocks_ok N (map fst bs) -> mirror_symmetric (map fst bs) F ->
  exists P, density bs mzero = Ok P /\
    tr N P F = lsum bs (fun yb => orbital_trace (length (y_idx (fst yb))) (fock_block F (y_idx (fst yb)) (y_X (fst yb))) (snd yb)).
Proof. exact density_trace. Qed.
Print Assumptions density_expectation_values.

Theorem density_electron_count : forall N bs S,
  blocks_ok N (map fst bs) -> mirror_symmetric (map fst bs) S -> orthonormalisers (map fst bs) S ->
  (forall y b, In (y, b) bs -> orthonormal (length (y_idx y)) b) ->
  exists P, density bs mzero = Ok P /\ tr N P S = lsum bs (fun yb => occupation (snd yb)).
Proof. exact density_electrons. Qed.
Print Assumptions density_electron_count.

Theorem density_symmetric_and_blocked : forall N bs P, blocks_ok N (map fst bs) -> density bs mzero = Ok P ->
  (forall p q, P p q = P q p) /\ (forall p q, ~ same_block (map fst bs) p q -> P p q = 0).
Proof. exact density_structure. Qed.
Print Assumptions density_symmetric_and_blocked.

(** The restricted half/half split and the two spin densities of a run without
    mirrored blocks. *)
Theorem final_density_halves : forall bs P, (forall yb, In yb bs -> y_mirror (fst yb) = []) -> density bs mzero = Ok P ->
  let '(Pa, Pb) := final_restricted bs mzero mzero in forall p q, Pa p q = / 2 * P p q /\ Pb p q = / 2 * P p q.
Proof. exact saved_density. Qed.
Print Assumptions final_density_halves.
Theorem final_density_spins : forall bs P Q, (forall yb, In yb bs -> y_mirror (fst yb) = []) ->
  density (map (fun yb => (fst yb, fst (snd yb))) bs) mzero = Ok P ->
  density (map (fun yb => (fst yb, snd (snd yb))) bs) mzero = Ok Q ->
  let '(Pa, Pb) := final_unrestricted bs mzero mzero in forall p q, Pa p q = P p q /\ Pb p q = Q p q.
Proof. exact saved_density_unrestricted. Qed.
Print Assumptions final_density_spins.
Example density_example : blocks_ok 2 [ex_y] /\ mirror_symmetric [ex_y] mid /\ orthonormalisers [ex_y] mid /\ orthonormal 1 ex_b.
Proof. exact (conj ex_blocks_ok ex_mirror). Qed.

(* ------------------------------- C56 -------------------------------- *)

(** With mirrored blocks the saved densities are not those of the calculation. *)
Theorem saved_density_with_mirrors_refuted : exists N bs P, blocks_ok N (map fst bs) /\ density bs mzero = Ok P /\
  let '(Pa, Pb) := final_restricted bs mzero mzero in exists p, (p < N)%nat /\ Pa p p + Pb p p <> P p p.
Proof. exact mirrored_not_saved. Qed.
Print Assumptions saved_density_with_mirrors_refuted.

(** A density of one electron is loaded as a sixteenth of an electron. *)
Theorem loaded_density_refuted : exists sv (S X P : mat) b, solvers_ok sv /\ half_inverse 1 X S /\ tr 1 P S = 1 /\
  fill_block_from_density sv P [0%nat] X 1 = Ok b /\ occupation b = / 16.
Proof. exact load_loses. Qed.
Print Assumptions loaded_density_refuted.

(** What loading does: orthonormal orbitals, occupations between zero and the
    maximum in descending order, and the density (X X^T) P (X X^T); missing: this
    is P only if X X^T is the unit matrix. *)
Theorem loaded_density_partial : forall sv P idx X max_occ b, solvers_ok sv -> 0 <= max_occ ->
  (forall p q, In p idx -> In q idx -> P p q = P q p) ->
  fill_block_from_density sv P idx X max_occ = Ok b ->
  let n := length idx in
  b_m b = n /\ orthonormal n b /\
  (forall i, (i < n)%nat -> 0 <= b_occ b i <= max_occ) /\
  (forall i j, (i <= j)%nat -> (j < n)%nat -> b_occ b j <= b_occ b i) /\
  (spectrum_in n (mmul n (mmul n (mT X) (gather P idx idx)) X) 0 max_occ ->
   meq n n (block_density n X (b_m b) (b_orb b) (b_occ b))
     (mmul n (mmul n (mmul n X (mT X)) (gather P idx idx)) (mmul n X (mT X)))).
Proof. exact fill_block_ok. Qed.
Print Assumptions loaded_density_partial.
Example loaded_density_example : exists b, fill_block_from_density diagonal_solvers (fun _ _ => / 4) [0%nat] mid 1 = Ok b /\
  spectrum_in 1 (mmul 1 (mmul 1 (mT mid) (gather (fun _ _ => / 4) [0%nat] [0%nat])) mid) 0 1.
Proof. exact ex_load. Qed.

(** The projection to the basis of the run keeps the number of electrons, and is
    the identity between equal bases. *)
Theorem projected_electrons : forall n no X S12 S P nel, 0 < nel ->
  let Q := mmul n (mmul n X (mT X)) S12 in
  0 < tr n (mmul no (mmul no Q P) (mT Q)) S -> tr n (project n no X S12 S P nel) S = nel.
Proof. exact project_electrons. Qed.
Print Assumptions projected_electrons.
Theorem projection_same_basis : forall n X S P nel, half_inverse n X S -> 0 < nel -> tr n P S = nel ->
  meq n n (project n n X S S P nel) P.
Proof. exact project_same. Qed.
Print Assumptions projection_same_basis.
Example projection_example : half_inverse 2 ex_X ex_S /\ 0 < tr 2 ex_S ex_S.
Proof. exact ex_project. Qed.

(* ------------------------------- C57 -------------------------------- *)

(** The Fock matrix is the derivative of the energy along every symmetric change
    of the density. *)
Theorem restricted_fock_is_gradient : forall d coul exch xc P D,
  meq (d_N d) (d_N d) (d_Bfield d 0) mzero ->
  linear_symmetric (d_N d) coul -> if_some (linear_symmetric (d_N d)) exch -> if_some (xc_gradient1 (d_N d)) xc ->
  symmetric (d_N d) P -> symmetric (d_N d) D ->
  derivable_pt_lim (fun t => fst (build_restricted d coul exch xc (madd P (mscal t D)))) 0
    (tr (d_N d) D (snd (build_restricted d coul exch xc P))).
Proof. exact restricted_gradient. Qed.
Print Assumptions restricted_fock_is_gradient.

(** Spin-polarised; in a magnetic field along changes that keep the number of
    electrons of each spin. *)
Theorem unrestricted_fock_is_gradient : forall d coul exch xc Pa Pb Da Db,
  meq (d_N d) (d_N d) (d_Bfield d 0) mzero ->
  linear_symmetric (d_N d) coul -> if_some (linear_symmetric (d_N d)) exch -> if_some (xc_gradient2 (d_N d)) xc ->
  symmetric (d_N d) Pa -> symmetric (d_N d) Pb -> symmetric (d_N d) Da -> symmetric (d_N d) Db ->
  d_Bz d = 0 \/ (tr (d_N d) Da (d_S d) = 0 /\ tr (d_N d) Db (d_S d) = 0) ->
  derivable_pt_lim (fun t => fst (build_unrestricted d coul exch xc (madd Pa (mscal t Da)) (madd Pb (mscal t Db)))) 0
    (tr (d_N d) Da (fst (snd (build_unrestricted d coul exch xc Pa Pb))) + tr (d_N d) Db (snd (snd (build_unrestricted d coul exch xc Pa Pb)))).
Proof. exact unrestricted_gradient. Qed.
Print Assumptions unrestricted_fock_is_gradient.

(** The core guess is the Fock matrix without electrons. *)
Theorem core_guess_is_fock_without_electrons : forall d coul idx X,
  meq (d_N d) (d_N d) (coul mzero) mzero -> (forall r, In r idx -> (r < d_N d)%nat) ->
  meq (d_N d) (d_N d) (coul (madd mzero mzero)) mzero ->
  let n := length idx in
  meq n n (coreH_block (H1 d) (d_S d) idx X 1 0 (have_bfield d) (d_Bz d)) (fock_block (snd (build_restricted d coul None None mzero)) idx X) /\
  meq n n (coreH_block (H1 d) (d_S d) idx X 2 0 (have_bfield d) (d_Bz d)) (fock_block (fst (snd (build_unrestricted d coul None None mzero mzero))) idx X) /\
  meq n n (coreH_block (H1 d) (d_S d) idx X 2 1 (have_bfield d) (d_Bz d)) (fock_block (snd (snd (build_unrestricted d coul None None mzero mzero))) idx X).
Proof. exact core_guess. Qed.
Print Assumptions core_guess_is_fock_without_electrons.

Example gradient_example : linear_symmetric 1 (fun A => A) /\ (xc_gradient1 1 ex_xc /\ xc_gradient2 1 ex_xc2) /\
  meq 1 1 (d_Bfield (ex_driver 1) 0) mzero.
Proof. exact (conj ex_linear (conj ex_xc_ok (ex_bfield 1))). Qed.
