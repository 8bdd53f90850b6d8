# Formal model of HelFEM in Rocq (Coq 8.16.1)

## 1. What is here

* `properties.jsonl` – the English properties, C01...
* `rocq/theories/` – the model, the specifications, the proofs, the property theorems.
* `MANIFEST.json` – which theorem proves which property.
* `seeded/LOG.jsonl` – deliberate bugs tried against the theorems.

Each area `X` of the code has

| file | content |
|------|---------|
| `XModel.v`  | executable Gallina model, each definition citing the file and lines in /repo it models |
| `XSpec.v`   | (where the statement needs vocabulary) the specification, independent of the model |
| `XProofs.v` | lemmas |
| `XProps.v`  | only the property theorems, each closed by `exact`, with `Print Assumptions`, and the `Example`s showing that the hypotheses are satisfiable |

## 2. Conventions of the model

* Indices, lengths and sizes are `nat`; C++ `int` values are `Z`. `size_t` wrap-around is
  written out where a loop or a guard relies on it (find_element, vdw_radius, electron_count_radius, ...).
* Scalars: the code is a template over `T`; the model uses the real numbers `R` of the standard
  library where arithmetic matters (exact arithmetic, no rounding), an abstract type where only data
  movement matters, and `option`-like values where NaN or an uninitialised value matters.
* C++ exceptions, undefined behaviour and non-termination are distinct outcomes in the result type.
* Loops are structural recursions, folds, or recursions on fuel with an explicit `OutOfFuel` outcome
  which the theorems exclude.
* External code (Eigen eigensolvers, libwignernj, libxc, HDF5, OpenOrbitalOptimizer, libm) is a
  universally quantified function with the assumptions stated as hypotheses of the theorem.
* Where the unchanged code violates the English property, the violation is a theorem named `..._refuted`
  with a concrete witness, and the strongest true variant is proved beside it.

## 3. Plan per property

| id | modelled | proof method |
|----|----------|--------------|
| C01 | update_bf_list / get_idx / get_nbf on a list of per-element counts | induction over elements |
| C02 | find_element's bisection with explicit fuel over an ordered type plus an incomparable NaN | loop invariant; divergence for NaN by induction on fuel |
| C03 | add_boundary on a sorted list | induction; histories by fold |
| C04 | eval_coord/eval_prim over R | field / lra |
| C05 | assembly fold over elements on function matrices over R | induction; permutation invariance of the fold |
| C06 | the nested product loops of LIPBasis_eval.h for every order | elementary symmetric functions; polynomial uniqueness by root counting |
| C07 | the tables of HIP/HIP2/HIP3Basis_eval.h, transcribed term by term (ShapeTables.v) on top of the LIP model | table identities by ring; polynomial uniqueness with multiple roots |
| C08 | drop_first/drop_last of every family on index lists | case analysis for all node counts; refutation for HIP drop_last(false,false) |
| C09 | get_basis decision tree with the reported id | case analysis over Z; refutation for ids 100/101 |
| C10 | get_grid formulas over R | monotonicity of pow/exp; |
| C11 | concatenate_grid, finite_nuclear_grid, offcenter_nuclear_grid, form_grid | list lemmas on strictly increasing lists; refutation of the end point for finite nuclei |
| C12 | the enumeration loops | membership characterisation + NoDup by induction |
| C13, C14 | collect_shell_indices and the get_sym_idx filters | partition = permutation of `seq 0 N` |
| C15, C16 | index lists | order-preserving filter lemmas |
| C17, C18 | table construction as the nested loops appending to a flat array, coeff as the canonicalising lookup | offset arithmetic by induction over the loop nest; the coefficient function is an oracle with the Gaunt symmetries and selection rules as hypotheses |
| C19 | lower_bound insertion and lookup | sorted list invariants |
| C20 | run splitting and task list; small-step interleaving semantics of tasks | permutation of the cell set; commutation of disjoint writes |
| C21 | exchange_tei on function matrices | index arithmetic (div/mod) |
| C22, C23 | the pivoted factorisation loops over R with fuel n | invariant: residual = A - L L^T stays PSD, pivot rows vanish; refutation for an indefinite matrix |
| C24, C25 | the assembly loops over elements on function matrices | sums over elements; index shift lemmas |
| C26 | the cache fields as a state machine | induction over histories |
| C27-C30 | HDF5 file as a finite map, Checkpoint object as (file, mode, open flag); each write as its sequence of file operations | refinement, invariants over histories, crash = prefix of the operation list |
| C31 | field-by-field write/read | corollary of C27/C29; refutation through the polynomial id |
| C32, C33 | the decision trees on Z | lia |
| C34 | gather, sort permutation, scatter | Permutation/Sorted |
| C35 | ladders as fuelled loops over an arbitrary oracle | measure on the order |
| C36 | quadrature sums over R | sum algebra |
| C37, C38 | the flat table with checked accesses and all fill loops over R; the functions specified through derivatives and Bonnet's recurrence | differentiated identities (derivative of an identity on an open set), loop invariants over filled cells; positivity of Q_l, -Q_l' outside the cut by monotone quotients |
| C39, C40 | element scan with size_t wrap and bisection over an abstract density | loop invariants; refutations |
| C41 | accumulation loops with size_t wrap | prefix/suffix sums |
| C42, C43 | table search, bounds | invariant; refutation for Z = table size |
| C44 | string comparison | case analysis; table by computation |
| C45, C46 | matrix products over R | sum algebra |
| C47 | cache as state machine | induction over histories |
| C48 | cmdline.h: add, the argument loop with its index, short-name map, set_option, needed options, parse_check, the splitting of a string; conversions are arguments | `reading`: an independent grammar of command lines; every argument list has one reading, and induction over the remaining arguments shows that the loop performs its settings in order |
| C49 | pair enumeration over two grids | order reasoning |
| C50-C52 | formulas | sums / real arithmetic |
| C53 | the pivot loop with fuel, on matrices over R | invariant: the residual pair matrix stays PSD, pivots vanish |
| C54 | the coupling term lists, the table sizes chosen by the basis constructors | real arithmetic; corollary of C17 |
| C55 | the loops over shells with lazily sized auxiliary arrays | sum reordering on top of C24, C25, C17 |
| C56 | block densities, saved halves, load projection on function matrices | refutations (mirrored blocks not saved; X^T P X used for loading); partial characterisations |
| C57 | energy and Fock matrix as functions of the density, Coulomb/exchange/XC as arguments with their linearity or gradient property as hypotheses | derivative of a quadratic polynomial |
| C58 | as C06, C07, plus the Legendre recurrences | derivative of every transcribed block by a reflected derivative procedure |
| C59 | eval_over_r of every family | deflation of the first node; recurrences for (P_n(x) - (-1)^n)/(x+1) |
| C60 | Tmat and the recurrences | Legendre's equation, orthogonality through explicit primitives |
| C61 | panel boundaries as a sorted list, the blocks as an oracle | sorted lists; telescoping |
| C62 | both code paths over arbitrary P, Q, cosh, sinh | induction over the subintervals |
| C63, C64 | quadrature sums over R | sum algebra |
| C65 | get_bf/get_df/get_lf on top of C58, C59 | quotient rule, chain rule through the element map |
| C66, C67 | eval_dnf per element, check_bf_continuity | nodal values of the families (C06, C07, C60) |
| C68 | find_element, element evaluation, the expressions at x = -1 | C02, C65; derivative of r R at 0 |
| C69 | matrix_element as panels + ladder with arbitrary acceptance tests | exactness of the rule as hypothesis; polynomial with zero square integral vanishes; independence of the shape functions |
| C70 | the weights of every confinement kind, the parameter tests | real arithmetic; refutation of the shifted polynomial |
| C71 | the per-element loops filling one array | segments of a flat index |
| C72 | quadratic forms of basis function values | product rule; C02 for the element |
| C73 | the two quadratic forms and the clamp at zero | sum algebra |
| C74 | golden section over the bracket of neighbours | loop invariant, unimodality |
| C75 | Z_GSZ, Z_thomasfermi | monotone denominators; exp(y) >= 1+y+y^2/2, mean value theorem |
| C76 | num_orbs, shell tables | independent n+l filling order; additive fold, computation over Z <= 118 |
| C77 | V of the spherical and Gaussian nucleus, factory radii | densities integrated by the fundamental theorem |
| C78 | GaussianNucleus::V with its cutoff | alternating bounds of exp and erf by monotonicity |
| C79 | phi, V_analytic, V_taylor, V of the regularized nucleus | derivatives of phi; even expansions with an r^8 remainder |
| C80 | find_b over a norm function; phi_normalization as a finite sum | bisection invariant, intermediate value theorem; refutation at the grid ends |
| C81 | radial_STO, radial_GTO, factorials | explicit antiderivatives and their limits |
| C82 | TFAtom, GSZAtom, SAPAtom, SAPFEAtom | C42, C75 divided by the radius |
| C83 | Phi_general, Fn, Hn | three-term recurrence of the integrals from antiderivatives; the same recurrence for the code's sums |
| C84 | primitive_r_extent of STO.h and GTO.h, eval_u | y exp(1-y) decreases beyond 1; bisection invariant |
| C85 | make_nao_sto, make_nao_gto, vector_element; the linear solver as a contract | folds over elements; orthogonality of the residual |
| C86 | primitive_norm | antiderivatives of C81; Gamma at half integers by its recurrence |
| C87 | MLegendreCache: stored columns, fetch, reset; readers as programs that ask for values | invariant: every stored column is exact (from C37, C38); induction on the program |
| C88 | diatomic coulomb() on the arrays of C20's memory; Gaunt table of C17; boundary functions of C14 | specification: four-index integrals with both channels and all multipoles; fold invariants for ket, radial and bra steps; composed with C20 for the end-to-end statement |
| C89 | diatomic exchange(): buckets, angular helpers, element loops, mirror copy | as C88; parallel iterations as any permutation of the pairs; mirror step from the reflection symmetry of the couplings |
| C90 | the same | symmetry of the coupling coefficients and of the kernels |
| C91 | DftModel: grid workers, libxc calls, Fock matrices, two parallel loops with interleaved reads and writes | refinement to sums over points; commuting additions of disjoint index sets |
| C92 | the same | derivative of the energy along a line of density matrices; counterexample for the Laplacian |
| C93 | the same | both results computed from the specification |
| C94 | the same | Cauchy-Schwarz over orbitals |
| C95 | `diatomic/dftgrid.cpp` point by point, prolate spheroidal scale factors and weights, boundary conditions applied before and after; same oracles as C91 | reduction of one radial point to the atomic lemmas with rescaled tables, a fold over points, and contraction over the surviving functions only |
| C96 | the same | the grid-independent lemmas behind C92-C94 |
| C97 | `diatomic/dftgrid_purem.cpp` point by point: blocks of m, cached radial tables, shared and mirrored blocks, boundary conditions; `is_absm_symmetric()` is a boolean argument | the visited blocks with their weights give the full sums because partners have equal tables up to signs that cancel in products; then as C95 |
| C98 | the same | the grid-independent lemmas behind C92-C94 for the m-diagonal part of the density |
| C99 | the models of C95 and C97 with the compound rule | in a rotated point all pair products are rotated by the difference of m; exactness of the trapezoidal rule in phi |
| C100 | sadatom/dftgrid.cpp: the worker (density from radial tables per l, tau with the cut-off angular part), both eval_Fxc drivers with the two parallel loops | values per point, per element, then the interleaving result of C91 for lists of matrices |
| C101 | as C100 | chain rule per point; the cut-off is locally constant or locally the identity under the condition; refuted with an indefinite density otherwise |
| C102 | as C100 | equality of the arguments up to the spin factors; Cauchy-Schwarz per point |
| C103 | the models of C91 and C100 | ladder relation and addition theorem reduce the pair sums over m to radial ones |
| C104 | sadatom/basis.cpp coulomb, exchange, rs_exchange, slater_F on the caches of TwoDModel | history invariant of C26; the sums over m, L and l are regrouped |
| C105 | the models of C104 and C26 | regrouping of the shell sums; tensor symmetry gives self-adjointness |
| C106-C112 | the one-electron matrices of atomic/TwoDBasis.cpp and diatomic/basis.cpp with the Gaunt tables of C17 and the couplings of C54 | integrals as functionals that separate over radial functions and polynomials in cos(theta); block operations on matrices; the example basis uses exact Legendre moments |
| C113-C115 | xc_screening of sadatom/basis.cpp and atomdb.cpp point by point with libxc as arguments; the handle cache as state; extract_naos_per_l on lists | the potential is defined by a derivative of r^2 times the flux; chain rule for vsigma; the difference to the code's formula is computed exactly; induction over calls |
| C116-C117 | chebyshev.h node and weight formulas with the final reversal | nodes are an explicit function of i pi/(n+1) whose derivative is the weight; cosine sums by telescoping; convergence by the mean value theorem and uniform continuity |
| C118-C121 | twodquadrature.cpp: worker state, loops, projections, table of occupations | every loop step adds the contribution of its points to the matrix (induction over elements, radii and m); prolate spheroidal geometry by algebra; Cauchy-Schwarz for the bound; the table by computation over all 118 rows |
| C122-C128 | sadatom/scf.cpp: run_atomic_scf (Fock builder, batches, guess, frozen occupations, saving, loading) | the builder is evaluated to closed forms (energy = linear + quadratic + functional); density along a moved block is a cubic in t, so the derivative follows from bilinearity and symmetry; saving by sums over filtered orbitals; loading through the eigensystem of the projected density; counterexamples in 1 x 1 problems |
| C129-C130 | lobatto.h: guess, recurrence, Newton loop, reversal, weights | the ends, the antisymmetry and the size are invariants of a step (parity of Legendre polynomials); fixed nodes satisfy x P_{n-1} = P_{n-2}; the Christoffel-Darboux formulas at the nodes give the discrete orthogonality through uniqueness of interpolation; products of Legendre polynomials span degree 2n-3 |
| C131-C132 | math.h: Taylor loop of bessel_il, arcosh, arsinh | the loop returns a partial sum of the series whose last term passed the test; successive terms shrink by 24, so the tail is below 1/23 of the last term; series of sinh and cosh from that of exp; algebra for the inverse functions |
| C133-C134 | dftfuncs.cpp: names, kinds, exact exchange and range separation | case analysis on the string tools of the tables area; the record of libxc data is a parameter, so both interfaces are compared on the same record |
| C135-C136 | eigen_io.h read_raw_ascii_imat; --readocc of atomic/main.cpp and diatomic/main.cpp | a grammar of lines as inductive relation, induction on it; induction on rows with the sum over blocks minus the running total as invariant; index sets of distinct labels are distinct by the angular area |
| C137-C138 | diatomic/density_line.cpp; basis.cpp eval_bf(mu,cth,phi); spherical_harmonics.cpp | algebra of the two distances; induction on the mesh; a harmonic is a real amplitude times a phase, so phases cancel between functions of equal m |
| C139-C140 | general/timer.cpp | simulation between timer and stopwatch by induction on the calls; floors of rationals, text by cases on the parts that are zero |
| C141-C142 | diatomic/density_grid.cpp | the functions of an element in dummy order, filtered, are the row of values; sums over the element equal sums over all functions because the others vanish there; positions in nested loops by division |
| C143-C145 | sadatom/aij.cpp | magic numbers by sortedness of the table; derivative of functions glued at the sphere radii; antiderivatives compared by the mean value theorem; grids glued as increasing lists; sums over blocks by induction |
| C146-C147 | sadatom/aij.cpp | reading consumes what writing produced, block by block; written orbitals as a strictly ordered list of pairs from which every line of the table is mapped |

## 4. Trusted base

* Coq's kernel (8.16.1).
* The reading of /repo recorded in the comments of the `*Model.v` files.
* The axioms printed by `Print Assumptions` under each theorem: only those of the standard library's
  real numbers (`ClassicalDedekindReals.sig_forall_dec`, `ClassicalDedekindReals.sig_not_dec`) and
  `FunctionalExtensionality.functional_extensionality_dep` where the reals or functional matrices are
  used; theorems about index logic are closed under the global context. The final list is in section 6.

## 5. Not modelled

Floating-point rounding, the accuracy of quadrature rules, libxc functionals, HDF5 internals, OpenMP
runtime, printing.

## 6. Assumptions of each theorem

What `Print Assumptions` prints under each theorem. A: `ClassicalDedekindReals.sig_forall_dec`; N:
`ClassicalDedekindReals.sig_not_dec`; F: `FunctionalExtensionality.functional_extensionality_dep`; X:
`Classical_Prop.classic`. All are axioms of the standard library.

* none (closed under the global context):
  * `AijProps.v`: C143_lmax, C143_lmax_monotone
  * `AngProps.v`: angular_basis_enumerates, lm_to_l_m_enumerates, atomic_symmetry_blocks, atomic_basis_size, atomic_unknown_symmetry_throws, diatomic_symmetry_blocks, diatomic_absm_blocks, lm_to_l_m_is_mirrored, diatomic_unknown_symmetry_throws, diatomic_basis_size, remove_boundaries_selects, remove_boundaries_wrong_size, dummy_to_real_inverts, dummy_to_real_out_of_range, multipole_tables, multipole_lookup, coulomb_lookups_succeed, exchange_lookups_succeed
  * `AoProps.v`: C146_guess, C147_names
  * `ChkProps.v`: checkpoint_is_key_value_store, checkpoint_constructor, checkpoint_state_restored_partial, checkpoint_open_state_partial, checkpoint_state_restored_refuted, checkpoint_reopen_refuted, checkpoint_roundtrip, checkpoint_other_precision, checkpoint_mismatch_throws_partial, checkpoint_class_check_refuted, checkpoint_embedded_nul_refuted, checkpoint_crash_partial, checkpoint_crash_refuted, atomic_basis_roundtrip, diatomic_basis_roundtrip
  * `CmdProps.v`: C48_reading, C48_bounds, C48_parse, C48_accepts, C48_value, C48_exist, C48_ambiguous, C48_empty, C48_twice, C48_add, C48_add_distinct, C48_check, C48_tokens, C48_string, C48_string_refuted
  * `ElProps.v`: electron_counts_consistent, electron_counts_from_charge, electron_counts_explicit, negative_counts_rejected_refuted, driver_counts, driver_counts_total
  * `FEProps.v`: factory_decision, factory_throws_iff, factory_rebuild_partial, factory_rebuild_refuted, templated_factory_agrees
  * `NaoProps.v`: C46_new, C46_new_throws, C46_new_wraps, C46_owned
  * `OcProps.v`: C135_table, C135_shape, C135_junk_refuted, C136_atomic, C136_diatomic, C136_accept, C136_duplicate_refuted, C136_negative_refuted
  * `PmProps.v`: C97_shells
  * `QuadProps.v`: C35_evaluations, C35_start, C35_start_twoe, C36_flip
  * `RsProps.v`: C125_choice
  * `SadProps.v`: C72_check
  * `TabProps.v`: C43_index_refuted, C44_symbol, C44_letters, C44_throws, C44_number, C44_empty, C44_other, C44_ascii_refuted, C76_counts
  * `TeiProps.v`: C20_runs, C20_one_run
  * `TmProps.v`: C139_stopwatch, C139_paused, C139_nonnegative, C139_stop_refuted, C139_cont_refuted, C140_text, C140_decimal, C140_sixty_refuted, C140_clock_refuted
  * `TqProps.v`: C121_table, C121_occupations, C121_electrons_refuted, C121_heavy, C121_atoms, C121_middle
  * `XfProps.v`: C133_usable, C133_throw, C133_pair, C133_reserved, C133_name, C133_number, C134_kinds
  * `XsProps.v`: C113_functionals, C115_extract, C115_rejects
* A:
  * `AngProps.v`: expand_boundaries_restores, remove_after_expand, expand_boundaries_wrong_size, bf_list_exact, bf_list_spherical_exact, bf_list_diatomic_exact
  * `AoProps.v`: C146_roundtrip, C146_truncated, C146_ragged_refuted
  * `CholProps.v`: exchange_tei_entries, exchange_tei_one_source, exchange_tei_wrong_dimensions
  * `ElProps.v`: block_metadata_mismatch_throws
  * `FEProps.v`: fe_ranges, fe_neighbours_share, fe_shared_same_node_function, fe_far_elements_disjoint, fe_ranges_cover, fe_nbf_is_sum, fe_nbf_formula, boundary_conditions_partial, hip_without_right_condition_refuted
  * `JKProps.v`: fe_layouts_fit, innermost_r_big_unused
  * `OeProps.v`: C106_atomic_pair
  * `RsProps.v`: C126_frozen, C126_none
  * `XfProps.v`: C134_unknown, C134_supported, C134_range_separation, C134_vv10, C134_versions
* A, X:
  * `AngProps.v`: bf_list_dummy_m_exact
* A, F:
  * `AijProps.v`: C143_potential, C143_repulsion_nonneg, C143_repulsion_balls, C145_restricted, C145_trace, C145_electrons, C145_kinetic, C145_unrestricted_partial, C145_unrestricted_refuted
  * `AoProps.v`: C147_orbitals, C147_phase
  * `CholProps.v`: exchange_tei_contraction, two_channel_symmetric
  * `DlProps.v`: C137_orbitals
  * `ElProps.v`: block_metadata, absm_blocks_capacity
  * `ErfcProps.v`: C52_choose_partial, C52_choose_refuted
  * `FEProps.v`: find_element_correct, find_element_infinite, find_element_nan_diverges, add_boundary_correct, add_boundary_twice, add_boundary_any_history, coordinates_ends, coordinates_increasing, coordinates_inside, coordinates_round_trip, element_out_of_range_throws, assembly_is_sum_of_blocks, assembly_zero_without_common_element, assembly_symmetric, assembly_order_independent, element_block_is_quadrature, element_block_symmetric
  * `GauntProps.v`: gaunt_table_exact, gaunt_table_total, gaunt_cap_throws
  * `JKProps.v`: coulomb_dense, coulomb_cholesky, exchange_dense, exchange_cholesky, exchange_pairwise, factored_against_dense, cached_coulomb_exchange, uncached_coulomb_exchange, cached_erfc_exchange
  * `NaoProps.v`: C46_one_electron, C46_matrix_element, C46_eval, C46_two_electron, C46_screened, C46_throws, C85_best, C85_reproduced
  * `OeProps.v`: C107_atomic, C108_stops, C109_finite, C109_charges_ignored, C112_model_potential, C112_confinement
  * `PotProps.v`: C51_hollow, C51_sphere, C51_point, C51_origin, C51_breakpoints, C82_sap, C82_sapfe, C82_sapfe_breaks
  * `QuadProps.v`: C35_rule, C35_rule_stop, C35_block, C35_block_stop, C35_exact, C35_nan, C61_panels, C61_exact, C36_symmetric, C36_inner, C36_coulomb, C36_exact, C36_diatomic_symmetric, C36_diatomic_inner, C36_diatomic_value, C62_cached, C63_potential, C63_exact, C64_separated, C49_cover, C49_inside, C49_entry, C49_block, C49_exact
  * `RadProps.v`: C69_rule
  * `RsProps.v`: C126_one_spin_refuted, C127_electrons, C127_orbitals, C127_rounded, C128_blocks, C128_reload_partial, C128_distorted, C128_boundary_refuted, C128_nodes_refuted
  * `SadProps.v`: C40_beyond, C40_index_refuted, C41_veff, C41_outside, C72_derivatives, C73_kinetic, C73_lower, C73_array
  * `ScfProps.v`: density_expectation_values, density_electron_count, density_symmetric_and_blocked, final_density_halves, final_density_spins, saved_density_with_mirrors_refuted, loaded_density_partial, projected_electrons, projection_same_basis, restricted_fock_is_gradient, unrestricted_fock_is_gradient, core_guess_is_fock_without_electrons
  * `SgProps.v`: C101_orbitals
  * `ShapeProps.v`: lip_constructor, lip_constructor_distinct_partial, lip_constructor_distinct_refuted, coefficient_derivative
  * `SxProps.v`: C104_slater
  * `TabProps.v`: C42_unknown, C42_ends, C42_polynomial, C42_linear, C42_bounds, C42_table, C42_nan_refuted
  * `XfProps.v`: C133_roles_refuted
  * `XsProps.v`: C113_mixed_refuted, C113_unique
* A, N, F:
  * `AoProps.v`: C147_density_restricted, C147_density_alpha_only, C147_density_unrestricted_refuted
  * `BsProps.v`: C131_parity, C131_small, C131_series, C131_vector
  * `CbProps.v`: C116_affine, C116_one_refuted
  * `CholProps.v`: pivoted_cholesky_not_square, signed_factor_partial, signed_factor_full_rank, signed_factor_incomplete_refuted
  * `DdfProps.v`: C95_size
  * `DftProps.v`: C91_restricted, C91_unrestricted, C92_restricted, C92_unrestricted_partial, C92_laplacian_refuted, C91_beta_refuted, C93_closed_shell, C94_restricted, C94_unrestricted
  * `DiaProps.v`: C88_coulomb, C89_exchange, C89_shortcut, C89_shortcut_refuted, C88_not_computed, C88_wrong_size, C90_symmetric, C90_computed, C90_repulsion
  * `ErfcProps.v`: C52_symmetric, C52_outcome, C52_series_partial, C52_series_refuted, C52_series_order0_partial, C52_series_order0_refuted, C52_converged, C52_regions
  * `GauntProps.v`: coupling_expansions, diatomic_couplings_exact, atomic_couplings_exact
  * `LbProps.v`: C129_rejects, C129_shape, C130_residual, C130_stationary
  * `LegProps.v`: C37_plm, C37_above, C37_negative
  * `NaoProps.v`: C84_negative, C84_slater_contracted
  * `OeProps.v`: C106_atomic, C106_diatomic, C106_diatomic_pair, C107_diatomic, C108_atomic, C109_refuted, C110_atomic_dipole, C110_atomic_quadrupole, C110_diatomic_dipole, C110_diatomic_quadrupole, C111_atomic, C111_diatomic
  * `PmProps.v`: C99_rule
  * `PotProps.v`: C79_positive
  * `QuadProps.v`: C50_points, C50_weights, C50_harmonics
  * `RadProps.v`: C47_cached_values, C47_current_basis, C47_filled, C47_fill_returns, C65_radial_functions, C66_joins, C66_check_accepts, C66_check_sound, C67_boundary, C68_orbitals, C68_nuclear_orbital, C68_nuclear_density, C68_nuclear_shape, C69_centrifugal, C69_nuclear, C69_centrifugal_sign, C69_nuclear_sign, C69_off_origin, C70_accepts, C70_exponential, C70_exponential_sign, C70_barrier, C70_junquera, C70_polynomial_partial, C70_polynomial_shift_refuted, C70_inverse, C70_offcenter
  * `RsProps.v`: C122_orbitals, C122_occupations, C123_orbitals, C123_occupations, C123_alpha, C123_beta_refuted, C124_closed_shells, C125_core, C125_batch, C125_empty, C128_overlap_refuted, C128_fractional_refuted, C128_spin_refuted
  * `SadProps.v`: C39_none, C39_level_partial, C39_equal_partial, C39_returns, C39_level_refuted, C40_count, C71_layout, C71_integral, C72_atom, C72_orbitals, C74_guard, C74_peak
  * `ScfProps.v`: blocked_diagonalisation_counts_states, orthonormaliser_total, blocked_orthonormaliser_total, loaded_density_refuted
  * `SgProps.v`: C100_restricted, C100_unrestricted, C100_unknown, C100_empty_refuted, C101_restricted, C101_unrestricted, C101_clamp_refuted, C102_closed_shell, C102_physical_restricted, C102_physical_unrestricted, C103_restricted, C103_unrestricted
  * `ShapeProps.v`: lip_nodes_identity, lip_sum_to_one, lip_interpolates_polynomials, hermite_nodal_values, adjacent_elements_join, hermite_interpolates_polynomials, tables_are_derivatives, high_orders_refused, over_r_times_r, over_r_tables_are_derivatives, over_r_refuses, legendre_end_values, legendre_spans_polynomials, legendre_slopes_orthonormal
  * `SxProps.v`: C104_histories, C104_rejects, C104_size_refuted
  * `TeiProps.v`: C20_order
  * `TwoDProps.v`: coulomb_any_cutoff, exchange_screening_exact
  * `XsProps.v`: C113_lda, C113_gga_partial, C113_gga_refuted, C113_total, C113_rejects, C114_cache, C114_agrees, C114_gga_partial, C114_gga_refuted, C114_ends, C114_charge
* A, N, X, F:
  * `AijProps.v`: C143_shell, C143_charge_check, C143_repulsion, C143_nucleus, C144_friedel, C144_grid, C144_atom, C144_vacancy, C144_vacancy_increasing_refuted
  * `BsProps.v`: C132_arcosh, C132_arcosh_cosh, C132_arsinh, C132_vectors
  * `CbProps.v`: C116_nodes, C116_trapezoid, C116_converges, C117_nodes, C117_trapezoid, C117_exact
  * `CholProps.v`: pivoted_cholesky_accuracy, pivoted_cholesky_symmetry
  * `DdfProps.v`: C95_restricted, C95_unrestricted, C95_laplacian, C96_restricted, C96_unrestricted, C96_closed_shell, C96_physical1, C96_physical2
  * `DgProps.v`: C141_grid, C141_assertion, C141_assertion_refuted, C142_integrals
  * `DiaProps.v`: C88_computed
  * `DlProps.v`: C137_coordinates, C137_table, C137_nonnegative, C137_rotation, C138_values, C138_outside, C138_harmonics
  * `ErfcProps.v`: C83_general, C83_general_dist, C83_phi, C83_phi_dist, C83_origin
  * `GridProps.v`: grid_increasing, grid_throws_iff, grid_negative_exponent_refuted, plain_grid, offcenter_grid, finite_nucleus_grid_partial, finite_nucleus_end_refuted, grid_added_boundary, nuclear_grid_throws
  * `LbProps.v`: C130_integrates_partial, C130_sharp, C130_feeds_radial
  * `LegProps.v`: C38_qlm, C38_agree, C38_negative, C38_singular, C38_quotient, C38_above_refuted
  * `NaoProps.v`: C84_slater, C84_gauss, C84_gauss_contracted, C85_slater, C85_gauss, C85_invalid, C85_nodes, C86_slater, C86_gauss
  * `OeProps.v`: C108_diatomic
  * `PmProps.v`: C97_restricted, C97_unrestricted, C97_empty, C97_size, C98_restricted, C98_unrestricted, C98_closed_shell, C98_physical1, C98_physical2, C99_restricted, C99_unrestricted
  * `PotProps.v`: C51_factory, C77_sphere, C77_gaussian, C78_gaussian, C79_ground_state, C79_taylor, C80_found, C80_bracket, C80_total, C80_ends_refuted, C80_grid, C81_slater, C81_gaussian, C82_thomasfermi, C82_gsz, C82_origin
  * `RadProps.v`: C69_overlap, C69_kinetic
  * `SadProps.v`: C41_potential, C41_atom, C41_bounds
  * `ScfProps.v`: blocked_diagonalisation, orthonormaliser, blocked_orthonormaliser
  * `ShapeProps.v`: integral_is_unique
  * `SxProps.v`: C105_symmetric, C105_atomic
  * `TabProps.v`: C43_throws, C43_table, C43_zero_refuted, C43_neighbour_refuted, C75_gsz, C75_gsz_parameters, C75_thomasfermi, C75_thomasfermi_origin, C75_thomasfermi_far
  * `TeiProps.v`: C20_blocks, C20_own_run, C20_factor_blocks, C20_schedule, C20_finishes, C20_independent, C20_frame, C20_kernel, C87_transparent, C87_outside
  * `TqProps.v`: C118_potential, C118_symmetric, C119_gto, C119_sto, C119_middle_partial, C119_middle_refuted, C120_overlap, C120_overlap_sto, C120_positive, C120_bound, C121_projection, C121_none
  * `TwoDProps.v`: two_electron_after_history, stored_integrals_close, radial_df_factors_exact

## Seeded errors that test nothing

Ten entries of `seeded/LOG.jsonl` name a `...Model.v` file first in `failed`: the edits to `unique_m`,
`decode` (float read), `panel_bounds` (break points), `form` (block of the element), `V_analytic`
(sign of a term), `b_loop` (absolute tolerance), `double_factorial`, `ask_cache` (neighbouring
multipole), `increment_gga_split` and `increment_mgga_lapl_split` (no transpose). There the edited
model file itself did not compile, so these entries are not evidence that a theorem notices
the error.
