{
 "claims": [
  {
   "property": "C01",
   "status": "proved",
   "theorems": [
    "fe_ranges",
    "fe_neighbours_share",
    "fe_shared_same_node_function",
    "fe_far_elements_disjoint",
    "fe_ranges_cover",
    "fe_nbf_is_sum",
    "fe_nbf_formula"
   ],
   "note": ""
  },
  {
   "property": "C02",
   "status": "proved",
   "theorems": [
    "find_element_correct",
    "find_element_infinite",
    "find_element_nan_diverges"
   ],
   "note": "closed element intervals, as in the code; NaN never terminates"
  },
  {
   "property": "C03",
   "status": "proved",
   "theorems": [
    "add_boundary_correct",
    "add_boundary_twice",
    "add_boundary_any_history"
   ],
   "note": ""
  },
  {
   "property": "C04",
   "status": "proved",
   "theorems": [
    "coordinates_ends",
    "coordinates_increasing",
    "coordinates_inside",
    "coordinates_round_trip",
    "element_out_of_range_throws"
   ],
   "note": "exact arithmetic"
  },
  {
   "property": "C05",
   "status": "proved",
   "theorems": [
    "assembly_is_sum_of_blocks",
    "assembly_zero_without_common_element",
    "assembly_symmetric",
    "assembly_order_independent",
    "element_block_is_quadrature",
    "element_block_symmetric"
   ],
   "note": "exact arithmetic"
  },
  {
   "property": "C06",
   "status": "proved",
   "theorems": [
    "lip_nodes_identity",
    "lip_sum_to_one",
    "lip_interpolates_polynomials",
    "tables_are_derivatives",
    "lip_constructor",
    "lip_constructor_distinct_partial",
    "lip_constructor_distinct_refuted"
   ],
   "note": "for distinct nodes; the constructor does not check distinctness (shown separately)"
  },
  {
   "property": "C07",
   "status": "proved",
   "theorems": [
    "hermite_nodal_values",
    "adjacent_elements_join",
    "hermite_interpolates_polynomials",
    "coefficient_derivative"
   ],
   "note": ""
  },
  {
   "property": "C08",
   "status": "partial",
   "theorems": [
    "boundary_conditions_partial",
    "hip_without_right_condition_refuted"
   ],
   "note": "holds for every family and flag combination except HIP drop_last(false,false), which removes the value function of the last node; that case is refuted"
  },
  {
   "property": "C09",
   "status": "partial",
   "theorems": [
    "factory_decision",
    "factory_throws_iff",
    "factory_rebuild_partial",
    "factory_rebuild_refuted",
    "templated_factory_agrees"
   ],
   "note": "ids 100/101 report ids 4/5 and do not rebuild the same basis (refuted); everything else proved"
  },
  {
   "property": "C10",
   "status": "proved",
   "theorems": [
    "grid_increasing",
    "grid_throws_iff",
    "grid_negative_exponent_refuted"
   ],
   "note": "exact arithmetic; a non-positive exponent is outside the admissible parameters and is accepted by the code (refuted separately)"
  },
  {
   "property": "C11",
   "status": "partial",
   "theorems": [
    "plain_grid",
    "offcenter_grid",
    "finite_nucleus_grid_partial",
    "finite_nucleus_end_refuted",
    "grid_added_boundary",
    "nuclear_grid_throws"
   ],
   "note": "proved for off-centre nuclei; for finite nuclei the grid ends at Rmax plus the nuclear radius, so the end point part is refuted"
  },
  {
   "property": "C12",
   "status": "proved",
   "theorems": [
    "angular_basis_enumerates",
    "lm_to_l_m_enumerates"
   ],
   "note": "mmax<0 with lmax>=0 allocates a wrapped size and is outside the statement"
  },
  {
   "property": "C13",
   "status": "proved",
   "theorems": [
    "atomic_symmetry_blocks",
    "atomic_basis_size",
    "atomic_unknown_symmetry_throws"
   ],
   "note": "distinct (l,m) shells, as angular_basis produces; labels are structured values, their text rendering is not modelled"
  },
  {
   "property": "C14",
   "status": "proved",
   "theorems": [
    "diatomic_symmetry_blocks",
    "diatomic_absm_blocks",
    "lm_to_l_m_is_mirrored",
    "diatomic_unknown_symmetry_throws"
   ],
   "note": "non-empty shell list for symm 3 (maxCoeff of an empty vector is undefined)"
  },
  {
   "property": "C15",
   "status": "proved",
   "theorems": [
    "diatomic_basis_size",
    "remove_boundaries_selects",
    "expand_boundaries_restores",
    "remove_after_expand",
    "remove_boundaries_wrong_size",
    "expand_boundaries_wrong_size",
    "dummy_to_real_inverts",
    "dummy_to_real_out_of_range"
   ],
   "note": ""
  },
  {
   "property": "C16",
   "status": "proved",
   "theorems": [
    "bf_list_exact",
    "bf_list_spherical_exact",
    "bf_list_dummy_m_exact",
    "bf_list_diatomic_exact"
   ],
   "note": ""
  },
  {
   "property": "C17",
   "status": "proved",
   "theorems": [
    "gaunt_table_exact",
    "gaunt_table_total"
   ],
   "note": "the generator (wigxjpf) is an argument assumed to have the symmetries and selection rules of a Gaunt integral"
  },
  {
   "property": "C18",
   "status": "proved",
   "theorems": [
    "gaunt_cap_throws",
    "gaunt_table_exact"
   ],
   "note": ""
  },
  {
   "property": "C19",
   "status": "proved",
   "theorems": [
    "multipole_tables",
    "multipole_lookup",
    "coulomb_lookups_succeed",
    "exchange_lookups_succeed"
   ],
   "note": "std::lower_bound by its contract"
  },
  {
   "property": "C20",
   "status": "proved",
   "theorems": [
    "C20_runs",
    "C20_one_run",
    "C20_blocks",
    "C20_own_run",
    "C20_factor_blocks",
    "C20_schedule",
    "C20_finishes",
    "C20_independent",
    "C20_frame",
    "C20_order",
    "C20_kernel"
   ],
   "note": "iterations interleave at the granularity of one assignment of a shared matrix; std::isnormal and the continued fraction of the second kind enter as arguments, the latter with the contract that it returns the quotient of neighbours; exact arithmetic; printing and the one-shot warning flag are not modelled"
  },
  {
   "property": "C21",
   "status": "proved",
   "theorems": [
    "exchange_tei_entries",
    "exchange_tei_one_source",
    "exchange_tei_contraction",
    "exchange_tei_wrong_dimensions"
   ],
   "note": ""
  },
  {
   "property": "C22",
   "status": "proved",
   "theorems": [
    "pivoted_cholesky_accuracy",
    "pivoted_cholesky_symmetry",
    "pivoted_cholesky_not_square"
   ],
   "note": "exact arithmetic, tolerance at least zero; radial_df_factors is covered by C53"
  },
  {
   "property": "C23",
   "status": "partial",
   "theorems": [
    "signed_factor_partial",
    "signed_factor_full_rank",
    "signed_factor_incomplete_refuted",
    "two_channel_symmetric"
   ],
   "note": "exact on pivot rows and diagonal bounded for all symmetric matrices; off-diagonal remainder is bounded for positive semidefinite matrices only, and the unrestricted claim is refuted"
  },
  {
   "property": "C24",
   "status": "proved",
   "theorems": [
    "fe_layouts_fit",
    "coulomb_dense",
    "coulomb_cholesky",
    "innermost_r_big_unused",
    "cached_coulomb_exchange",
    "uncached_coulomb_exchange"
   ],
   "note": "exact arithmetic"
  },
  {
   "property": "C25",
   "status": "proved",
   "theorems": [
    "exchange_dense",
    "exchange_cholesky",
    "exchange_pairwise",
    "factored_against_dense",
    "cached_erfc_exchange"
   ],
   "note": "exact arithmetic; the memoisation inside the uncached entry points is modelled as direct evaluation"
  },
  {
   "property": "C26",
   "status": "proved",
   "theorems": [
    "two_electron_after_history"
   ],
   "note": "the kernels have the shapes and symmetries of their integrals and positive semidefinite in-element tensors"
  },
  {
   "property": "C27",
   "status": "proved",
   "theorems": [
    "checkpoint_is_key_value_store",
    "checkpoint_constructor"
   ],
   "note": "names that are not paths; HDF5 calls are atomic durable steps; strings without NUL"
  },
  {
   "property": "C28",
   "status": "partial",
   "theorems": [
    "checkpoint_state_restored_partial",
    "checkpoint_open_state_partial",
    "checkpoint_state_restored_refuted",
    "checkpoint_reopen_refuted"
   ],
   "note": "holds for all calls that succeed, and for writes, removes and existence tests on an HDF5 file however they end; a read that fails on a closed file leaves it open (refuted)"
  },
  {
   "property": "C29",
   "status": "partial",
   "theorems": [
    "checkpoint_roundtrip",
    "checkpoint_other_precision",
    "checkpoint_mismatch_throws_partial",
    "checkpoint_class_check_refuted",
    "checkpoint_embedded_nul_refuted"
   ],
   "note": "round trip proved for all values without embedded NUL; mismatched reads throw except integer matrices and booleans, which check no class (refuted)"
  },
  {
   "property": "C30",
   "status": "partial",
   "theorems": [
    "checkpoint_crash_partial",
    "checkpoint_crash_refuted"
   ],
   "note": "other entries are always intact; the entry being replaced can be gone or hold zeros (refuted)"
  },
  {
   "property": "C31",
   "status": "proved",
   "theorems": [
    "atomic_basis_roundtrip",
    "diatomic_basis_roundtrip"
   ],
   "note": ""
  },
  {
   "property": "C32",
   "status": "proved",
   "theorems": [
    "electron_counts_consistent",
    "electron_counts_from_charge",
    "electron_counts_explicit",
    "negative_counts_rejected_refuted",
    "driver_counts",
    "driver_counts_total"
   ],
   "note": "explicit negative counts are accepted (shown separately)"
  },
  {
   "property": "C33",
   "status": "proved",
   "theorems": [
    "block_metadata",
    "block_metadata_mismatch_throws",
    "absm_blocks_capacity"
   ],
   "note": "one or two particle types, as the drivers pass"
  },
  {
   "property": "C34",
   "status": "proved",
   "theorems": [
    "blocked_diagonalisation",
    "blocked_diagonalisation_counts_states"
   ],
   "note": "the decompositions of Eigen and std::sort enter with their contracts"
  },
  {
   "property": "C35",
   "status": "proved",
   "theorems": [
    "C35_rule",
    "C35_rule_stop",
    "C35_evaluations",
    "C35_block",
    "C35_block_stop",
    "C35_exact",
    "C35_nan",
    "C35_start",
    "C35_start_twoe"
   ],
   "note": ""
  },
  {
   "property": "C36",
   "status": "proved",
   "theorems": [
    "C36_symmetric",
    "C36_flip",
    "C36_inner",
    "C36_coulomb",
    "C36_exact",
    "C36_diatomic_symmetric",
    "C36_diatomic_inner",
    "C36_diatomic_value"
   ],
   "note": "exact arithmetic; the accuracy of the rule itself is a hypothesis of C36_exact only"
  },
  {
   "property": "C37",
   "status": "proved",
   "theorems": [
    "C37_plm",
    "C37_above",
    "C37_negative"
   ],
   "note": "against derivatives of the Legendre polynomials, all x"
  },
  {
   "property": "C38",
   "status": "partial",
   "theorems": [
    "C38_qlm",
    "C38_agree",
    "C38_quotient",
    "C38_negative",
    "C38_singular",
    "C38_above_refuted"
   ],
   "note": "the continued fraction of the Miller regime is an argument assumed to return the quotient, which C38_quotient shows to exist; the documented zeros for m > l are refuted by C38_above_refuted"
  },
  {
   "property": "C39",
   "status": "partial",
   "theorems": [
    "C39_none",
    "C39_level_partial",
    "C39_equal_partial",
    "C39_returns",
    "C39_level_refuted"
   ],
   "note": "the code solves for density = tolerance instead of threshold (refuted); what it returns is characterised, including the case where both are equal"
  },
  {
   "property": "C40",
   "status": "partial",
   "theorems": [
    "C40_count",
    "C40_beyond",
    "C40_index_refuted"
   ],
   "note": "proved for counts up to the number of electrons; a larger count reads an element that does not exist (refuted)"
  },
  {
   "property": "C41",
   "status": "proved",
   "theorems": [
    "C41_veff",
    "C41_potential",
    "C41_atom",
    "C41_outside",
    "C41_bounds"
   ],
   "note": "the quadrature error of the tabulated atoms' rule is a hypothesis"
  },
  {
   "property": "C42",
   "status": "proved",
   "theorems": [
    "C42_unknown",
    "C42_ends",
    "C42_polynomial",
    "C42_linear",
    "C42_bounds",
    "C42_table",
    "C42_nan_refuted"
   ],
   "note": "the property ranges over comparable radii; for a NaN the search does not end (refuted). The columns of the table other than the radii are arguments"
  },
  {
   "property": "C43",
   "status": "partial",
   "theorems": [
    "C43_throws",
    "C43_table",
    "C43_index_refuted",
    "C43_zero_refuted",
    "C43_neighbour_refuted"
   ],
   "note": "the statement is false at Z=103 (read outside of the table) and Z=0 (NaN); proved for all other Z, with the entry the code selects"
  },
  {
   "property": "C44",
   "status": "proved",
   "theorems": [
    "C44_symbol",
    "C44_letters",
    "C44_throws",
    "C44_number",
    "C44_empty",
    "C44_other",
    "C44_ascii_refuted"
   ],
   "note": "strings whose first character is ASCII; otherwise the call of isalpha is undefined (refuted); C locale"
  },
  {
   "property": "C45",
   "status": "proved",
   "theorems": [
    "orthonormaliser",
    "orthonormaliser_total",
    "blocked_orthonormaliser",
    "blocked_orthonormaliser_total",
    "density_expectation_values",
    "density_electron_count",
    "density_symmetric_and_blocked",
    "final_density_halves",
    "final_density_spins"
   ],
   "note": "the decompositions of Eigen enter with their contracts"
  },
  {
   "property": "C46",
   "status": "proved",
   "theorems": [
    "C46_new",
    "C46_new_throws",
    "C46_new_wraps",
    "C46_owned",
    "C46_one_electron",
    "C46_matrix_element",
    "C46_eval",
    "C46_two_electron",
    "C46_screened",
    "C46_throws"
   ],
   "note": "exact arithmetic; the underlying basis's matrices and integrals are arguments with the shapes and symmetries of C24/C25"
  },
  {
   "property": "C47",
   "status": "proved",
   "theorems": [
    "C47_cached_values",
    "C47_current_basis",
    "C47_filled",
    "C47_fill_returns"
   ],
   "note": ""
  },
  {
   "property": "C48",
   "status": "proved",
   "theorems": [
    "C48_reading",
    "C48_bounds",
    "C48_parse",
    "C48_accepts",
    "C48_value",
    "C48_exist",
    "C48_ambiguous",
    "C48_empty",
    "C48_twice",
    "C48_add",
    "C48_add_distinct",
    "C48_check",
    "C48_tokens",
    "C48_string",
    "C48_string_refuted"
   ],
   "note": "Option names distinct (kept by add, C48_add_distinct). The conversions from text to values are arguments. Usage text not modelled. Parsing the empty string takes the first element of an empty vector (refuted)."
  },
  {
   "property": "C49",
   "status": "proved",
   "theorems": [
    "C49_cover",
    "C49_inside",
    "C49_entry",
    "C49_block",
    "C49_exact"
   ],
   "note": ""
  },
  {
   "property": "C50",
   "status": "proved",
   "theorems": [
    "C50_points",
    "C50_weights",
    "C50_harmonics"
   ],
   "note": ""
  },
  {
   "property": "C51",
   "status": "proved",
   "theorems": [
    "C51_hollow",
    "C51_sphere",
    "C51_point",
    "C51_origin",
    "C51_breakpoints",
    "C51_factory"
   ],
   "note": "exact arithmetic, positive nuclear radius"
  },
  {
   "property": "C52",
   "status": "partial",
   "theorems": [
    "C52_symmetric",
    "C52_outcome",
    "C52_choose_partial",
    "C52_choose_refuted",
    "C52_series_partial",
    "C52_series_refuted",
    "C52_series_order0_partial",
    "C52_series_order0_refuted",
    "C52_converged",
    "C52_regions"
   ],
   "note": "symmetry is proved; the binomial helper is wrong for every upper index below -1 with lower index above 1 (refuted), so the coefficients of the small-argument series are right up to k=3 and wrong at k=4"
  },
  {
   "property": "C53",
   "status": "proved",
   "theorems": [
    "radial_df_factors_exact"
   ],
   "note": "the radial tensor is assumed positive semidefinite as a matrix over pairs"
  },
  {
   "property": "C54",
   "status": "proved",
   "theorems": [
    "coupling_expansions",
    "diatomic_couplings_exact",
    "atomic_couplings_exact"
   ],
   "note": "shells with |m| <= l"
  },
  {
   "property": "C55",
   "status": "proved",
   "theorems": [
    "two_electron_after_history",
    "coulomb_any_cutoff",
    "exchange_screening_exact",
    "stored_integrals_close"
   ],
   "note": "radial integrals are those of the stored factors, within one tolerance per element; exchange leaves out density blocks of norm below its threshold"
  },
  {
   "property": "C56",
   "status": "partial",
   "theorems": [
    "saved_density_with_mirrors_refuted",
    "loaded_density_refuted",
    "loaded_density_partial",
    "projected_electrons",
    "projection_same_basis",
    "final_density_halves",
    "final_density_spins"
   ],
   "note": "saved densities are right without mirrored blocks and wrong with them; loading uses X^T P X instead of X^T S P S X"
  },
  {
   "property": "C57",
   "status": "proved",
   "theorems": [
    "restricted_fock_is_gradient",
    "unrestricted_fock_is_gradient",
    "core_guess_is_fock_without_electrons"
   ],
   "note": "Coulomb and exchange enter as linear maps symmetric under the trace, functionals with the gradient property"
  },
  {
   "property": "C58",
   "status": "proved",
   "theorems": [
    "tables_are_derivatives",
    "high_orders_refused"
   ],
   "note": ""
  },
  {
   "property": "C59",
   "status": "proved",
   "theorems": [
    "over_r_times_r",
    "over_r_tables_are_derivatives",
    "over_r_refuses"
   ],
   "note": ""
  },
  {
   "property": "C60",
   "status": "proved",
   "theorems": [
    "legendre_end_values",
    "legendre_spans_polynomials",
    "legendre_slopes_orthonormal",
    "integral_is_unique"
   ],
   "note": ""
  },
  {
   "property": "C61",
   "status": "proved",
   "theorems": [
    "C61_panels",
    "C61_exact"
   ],
   "note": ""
  },
  {
   "property": "C62",
   "status": "proved",
   "theorems": [
    "C62_cached"
   ],
   "note": ""
  },
  {
   "property": "C63",
   "status": "proved",
   "theorems": [
    "C63_potential",
    "C63_exact"
   ],
   "note": "radii of the points must not vanish"
  },
  {
   "property": "C64",
   "status": "proved",
   "theorems": [
    "C64_separated"
   ],
   "note": "the symmetry of the kernel is C52"
  },
  {
   "property": "C65",
   "status": "proved",
   "theorems": [
    "C65_radial_functions"
   ],
   "note": ""
  },
  {
   "property": "C66",
   "status": "proved",
   "theorems": [
    "C66_joins",
    "C66_check_accepts",
    "C66_check_sound"
   ],
   "note": ""
  },
  {
   "property": "C67",
   "status": "proved",
   "theorems": [
    "C67_boundary"
   ],
   "note": ""
  },
  {
   "property": "C68",
   "status": "proved",
   "theorems": [
    "C68_orbitals",
    "C68_nuclear_orbital",
    "C68_nuclear_density",
    "C68_nuclear_shape"
   ],
   "note": "finite radii; the gradient for a symmetric density"
  },
  {
   "property": "C69",
   "status": "proved",
   "theorems": [
    "C69_overlap",
    "C69_kinetic",
    "C69_rule",
    "C69_centrifugal",
    "C69_nuclear",
    "C69_centrifugal_sign",
    "C69_nuclear_sign",
    "C69_off_origin"
   ],
   "note": "the exactness (or the nonnegative weights) of the Gauss-Lobatto rule is a hypothesis; overlap and kinetic use exactness only for the degrees of the basis"
  },
  {
   "property": "C70",
   "status": "partial",
   "theorems": [
    "C70_accepts",
    "C70_exponential",
    "C70_exponential_sign",
    "C70_barrier",
    "C70_junquera",
    "C70_polynomial_partial",
    "C70_polynomial_shift_refuted",
    "C70_inverse",
    "C70_offcenter"
   ],
   "note": "the shifted polynomial carries an extra factor ((r-s)/r)^2, shown by C70_polynomial_partial and refuted for the documented potential by C70_polynomial_shift_refuted; shifted polynomials in the first element and inverse powers there are not characterised"
  },
  {
   "property": "C71",
   "status": "proved",
   "theorems": [
    "C71_layout",
    "C71_integral"
   ],
   "note": ""
  },
  {
   "property": "C72",
   "status": "proved",
   "theorems": [
    "C72_derivatives",
    "C72_atom",
    "C72_orbitals",
    "C72_check"
   ],
   "note": "exact arithmetic; derivatives of the basis functions are hypotheses here and proved under C65"
  },
  {
   "property": "C73",
   "status": "proved",
   "theorems": [
    "C73_kinetic",
    "C73_lower",
    "C73_array"
   ],
   "note": "nonnegative occupations; away from the nucleus"
  },
  {
   "property": "C74",
   "status": "proved",
   "theorems": [
    "C74_guard",
    "C74_peak"
   ],
   "note": "exact arithmetic"
  },
  {
   "property": "C75",
   "status": "proved",
   "theorems": [
    "C75_gsz",
    "C75_gsz_parameters",
    "C75_thomasfermi",
    "C75_thomasfermi_origin",
    "C75_thomasfermi_far"
   ],
   "note": "exact arithmetic"
  },
  {
   "property": "C76",
   "status": "proved",
   "theorems": [
    "C76_counts"
   ],
   "note": ""
  },
  {
   "property": "C77",
   "status": "proved",
   "theorems": [
    "C77_sphere",
    "C77_gaussian"
   ],
   "note": "std::erf enters as any function with the defining properties of erf; before the series cutoff of the Gaussian up to the neglected term"
  },
  {
   "property": "C78",
   "status": "proved",
   "theorems": [
    "C78_gaussian"
   ],
   "note": "std::erf enters as any function with the defining properties of erf"
  },
  {
   "property": "C79",
   "status": "proved",
   "theorems": [
    "C79_ground_state",
    "C79_positive",
    "C79_taylor"
   ],
   "note": "std::erf enters as any function with the defining properties of erf"
  },
  {
   "property": "C80",
   "status": "partial",
   "theorems": [
    "C80_found",
    "C80_bracket",
    "C80_total",
    "C80_grid",
    "C80_ends_refuted"
   ],
   "note": "the last clause is false: when the closest grid point is the first or the last the code reads outside of the grid (refuted)"
  },
  {
   "property": "C81",
   "status": "proved",
   "theorems": [
    "C81_slater",
    "C81_gaussian"
   ],
   "note": "exact arithmetic"
  },
  {
   "property": "C82",
   "status": "proved",
   "theorems": [
    "C82_thomasfermi",
    "C82_gsz",
    "C82_sap",
    "C82_sapfe",
    "C82_sapfe_breaks",
    "C82_origin"
   ],
   "note": "the columns of the SAP table other than the radii and the charge of the tabulated atom are arguments"
  },
  {
   "property": "C83",
   "status": "proved",
   "theorems": [
    "C83_general",
    "C83_general_dist",
    "C83_phi",
    "C83_phi_dist",
    "C83_origin"
   ],
   "note": "std::erfc enters as one minus any function with the defining properties of erf; exact arithmetic"
  },
  {
   "property": "C84",
   "status": "proved",
   "theorems": [
    "C84_slater",
    "C84_gauss",
    "C84_negative",
    "C84_slater_contracted",
    "C84_gauss_contracted"
   ],
   "note": "tolerances of at least exp(-1e40); exact arithmetic; a negative tolerance makes the search run forever (C84_negative)"
  },
  {
   "property": "C85",
   "status": "proved",
   "theorems": [
    "C85_slater",
    "C85_gauss",
    "C85_invalid",
    "C85_nodes",
    "C85_best",
    "C85_reproduced"
   ],
   "note": "the finite element radial basis, the quadrature rule and Eigen's LDLT solution enter as arguments; the last with the contract that it solves the system; at least one element"
  },
  {
   "property": "C86",
   "status": "proved",
   "theorems": [
    "C86_slater",
    "C86_gauss"
   ],
   "note": "std::tgamma enters through Gamma(1/2) = sqrt(pi) and Gamma(x+1) = x Gamma(x)"
  },
  {
   "property": "C87",
   "status": "proved",
   "theorems": [
    "C87_transparent",
    "C87_outside"
   ],
   "note": "exact arithmetic; std::isnormal is an argument; hash map lookup by equality of points"
  },
  {
   "property": "C88",
   "status": "proved",
   "theorems": [
    "C88_coulomb",
    "C88_not_computed",
    "C88_wrong_size",
    "C88_computed"
   ],
   "note": "exact arithmetic; std::isnormal and the continued fraction of the second kind enter as arguments"
  },
  {
   "property": "C89",
   "status": "proved",
   "theorems": [
    "C89_exchange",
    "C89_shortcut",
    "C89_shortcut_refuted"
   ],
   "note": "exact arithmetic; whole iterations of the parallel loop take effect in any order. The header asks only for densities symmetric under m -> -m when the shortcut is set; that is not enough (refuted)"
  },
  {
   "property": "C90",
   "status": "proved",
   "theorems": [
    "C90_symmetric",
    "C90_computed",
    "C90_repulsion"
   ],
   "note": "exact arithmetic"
  },
  {
   "property": "C91",
   "status": "proved",
   "theorems": [
    "C91_restricted",
    "C91_unrestricted",
    "C91_beta_refuted"
   ],
   "note": "exact arithmetic; libxc is an argument. The unrestricted Fock matrices are stated for functionals without the Laplacian, or with it and the kinetic energy density and both matrices; without the second matrix a functional of the Laplacian adds to an empty matrix (refuted)"
  },
  {
   "property": "C92",
   "status": "partial",
   "theorems": [
    "C92_restricted",
    "C92_unrestricted_partial",
    "C92_laplacian_refuted"
   ],
   "note": "false for unrestricted calculations with functionals of the Laplacian that do not use the kinetic energy density: the products of gradients are left out"
  },
  {
   "property": "C93",
   "status": "proved",
   "theorems": [
    "C93_closed_shell"
   ],
   "note": "functionals of the Laplacian only together with the kinetic energy density; the symmetry of libxc is a hypothesis"
  },
  {
   "property": "C94",
   "status": "proved",
   "theorems": [
    "C94_restricted",
    "C94_unrestricted"
   ],
   "note": "exact arithmetic"
  },
  {
   "property": "C95",
   "status": "proved",
   "theorems": [
    "C95_restricted",
    "C95_unrestricted",
    "C95_laplacian",
    "C95_size"
   ],
   "note": "exact arithmetic; libxc, the angular rule and the tables of radial functions are arguments"
  },
  {
   "property": "C96",
   "status": "proved",
   "theorems": [
    "C96_restricted",
    "C96_unrestricted",
    "C96_closed_shell",
    "C96_physical1",
    "C96_physical2"
   ],
   "note": "the properties of libxc's results are hypotheses"
  },
  {
   "property": "C97",
   "status": "proved",
   "theorems": [
    "C97_restricted",
    "C97_unrestricted",
    "C97_shells",
    "C97_empty",
    "C97_size"
   ],
   "note": "exact arithmetic; libxc, the rule in nu, the spherical harmonics (real for phi = 0, Y_l,-m = (-1)^m Y_lm) and the tables of radial functions are arguments"
  },
  {
   "property": "C98",
   "status": "proved",
   "theorems": [
    "C98_restricted",
    "C98_unrestricted",
    "C98_closed_shell",
    "C98_physical1",
    "C98_physical2"
   ],
   "note": "the properties of libxc's results are hypotheses"
  },
  {
   "property": "C99",
   "status": "proved",
   "theorems": [
    "C99_restricted",
    "C99_unrestricted",
    "C99_rule"
   ],
   "note": "exact arithmetic; Y_lm(nu, phi) = exp(i m phi) Y_lm(nu, 0) is a hypothesis about the spherical harmonics"
  },
  {
   "property": "C100",
   "status": "proved",
   "theorems": [
    "C100_restricted",
    "C100_unrestricted",
    "C100_unknown",
    "C100_empty_refuted"
   ],
   "note": "exact arithmetic; libxc and the tables of radial functions are arguments; an empty list of densities is undefined behaviour"
  },
  {
   "property": "C101",
   "status": "proved",
   "theorems": [
    "C101_restricted",
    "C101_unrestricted",
    "C101_orbitals",
    "C101_clamp_refuted"
   ],
   "note": "the properties of libxc's results are hypotheses; without the condition on the angular part of tau the claim is false: the code cuts it off at zero in the energy only"
  },
  {
   "property": "C102",
   "status": "proved",
   "theorems": [
    "C102_closed_shell",
    "C102_physical_restricted",
    "C102_physical_unrestricted"
   ],
   "note": "the properties of libxc's results are hypotheses"
  },
  {
   "property": "C103",
   "status": "proved",
   "theorems": [
    "C103_restricted",
    "C103_unrestricted"
   ],
   "note": "exact arithmetic; the spherical harmonics enter through a ladder relation and the addition theorem"
  },
  {
   "property": "C104",
   "status": "proved",
   "theorems": [
    "C104_histories",
    "C104_rejects",
    "C104_slater",
    "C104_size_refuted"
   ],
   "note": "exact arithmetic; the Gaunt coefficient generator and the element integrals are arguments; the sizes of the densities after the first are not checked by the code"
  },
  {
   "property": "C105",
   "status": "proved",
   "theorems": [
    "C105_symmetric",
    "C105_atomic"
   ],
   "note": "Coulomb agreement uses Unsold's theorem for the Gaunt coefficients as a hypothesis; densities below the atomic screening threshold are excluded unless zero"
  },
  {
   "property": "C106",
   "status": "proved",
   "theorems": [
    "C106_atomic",
    "C106_atomic_pair",
    "C106_diatomic",
    "C106_diatomic_pair"
   ],
   "note": "exact arithmetic; radial element integrals and the Gaunt coefficient generator are arguments whose meaning as integrals is a hypothesis; overlap(rh) of diatomic bases uses the Rhalf of the first basis only"
  },
  {
   "property": "C107",
   "status": "proved",
   "theorems": [
    "C107_atomic",
    "C107_diatomic"
   ],
   "note": "exact arithmetic; radial element integrals and the Gaunt coefficient generator are arguments whose meaning as integrals is a hypothesis"
  },
  {
   "property": "C108",
   "status": "proved",
   "theorems": [
    "C108_atomic",
    "C108_diatomic",
    "C108_stops"
   ],
   "note": "exact arithmetic; radial element integrals and the Gaunt coefficient generator are arguments whose meaning as integrals is a hypothesis"
  },
  {
   "property": "C109",
   "status": "partial",
   "theorems": [
    "C109_finite",
    "C109_charges_ignored",
    "C109_refuted"
   ],
   "note": "refuted for the unchanged code: with a finite nuclear model the off-centre charges are left out"
  },
  {
   "property": "C110",
   "status": "proved",
   "theorems": [
    "C110_atomic_dipole",
    "C110_atomic_quadrupole",
    "C110_diatomic_dipole",
    "C110_diatomic_quadrupole"
   ],
   "note": "exact arithmetic; radial element integrals and the Gaunt coefficient generator are arguments whose meaning as integrals is a hypothesis"
  },
  {
   "property": "C111",
   "status": "proved",
   "theorems": [
    "C111_atomic",
    "C111_diatomic"
   ],
   "note": "exact arithmetic; radial element integrals and the Gaunt coefficient generator are arguments whose meaning as integrals is a hypothesis"
  },
  {
   "property": "C112",
   "status": "proved",
   "theorems": [
    "C112_model_potential",
    "C112_confinement"
   ],
   "note": "exact arithmetic; radial element integrals and the Gaunt coefficient generator are arguments whose meaning as integrals is a hypothesis"
  },
  {
   "property": "C113",
   "status": "partial",
   "theorems": [
    "C113_lda",
    "C113_gga_partial",
    "C113_gga_refuted",
    "C113_mixed_refuted",
    "C113_unique",
    "C113_total",
    "C113_functionals",
    "C113_rejects"
   ],
   "note": "proved for local functionals; refuted for gradient-corrected ones, with the exact error; libxc evaluators are arguments"
  },
  {
   "property": "C114",
   "status": "partial",
   "theorems": [
    "C114_cache",
    "C114_agrees",
    "C114_gga_partial",
    "C114_gga_refuted",
    "C114_ends",
    "C114_charge"
   ],
   "note": "cache, agreement with the grid and end values proved; the GGA value carries the two errors of C113"
  },
  {
   "property": "C115",
   "status": "proved",
   "theorems": [
    "C115_extract",
    "C115_rejects"
   ],
   "note": "columns of orbitals are abstract"
  },
  {
   "property": "C116",
   "status": "proved",
   "theorems": [
    "C116_nodes",
    "C116_trapezoid",
    "C116_affine",
    "C116_one_refuted",
    "C116_converges"
   ],
   "note": "exact real arithmetic; the one-point rule is shown to be off"
  },
  {
   "property": "C117",
   "status": "proved",
   "theorems": [
    "C117_nodes",
    "C117_trapezoid",
    "C117_exact"
   ],
   "note": "exact real arithmetic"
  },
  {
   "property": "C118",
   "status": "proved",
   "theorems": [
    "C118_potential",
    "C118_symmetric"
   ],
   "note": "exact real arithmetic; potentials that throw are not modelled"
  },
  {
   "property": "C119",
   "status": "partial",
   "theorems": [
    "C119_gto",
    "C119_sto",
    "C119_middle_partial",
    "C119_middle_refuted"
   ],
   "note": "the claim for the middle probe is false of the code for l > 0; witness given"
  },
  {
   "property": "C120",
   "status": "proved",
   "theorems": [
    "C120_overlap",
    "C120_overlap_sto",
    "C120_positive",
    "C120_bound"
   ],
   "note": "positivity and bound are stated for Gaussian functions"
  },
  {
   "property": "C121",
   "status": "proved",
   "theorems": [
    "C121_table",
    "C121_occupations",
    "C121_electrons_refuted",
    "C121_heavy",
    "C121_atoms",
    "C121_projection",
    "C121_none",
    "C121_middle"
   ],
   "note": "the atomic calculation itself is a parameter; elements above 118 read outside of the table"
  },
  {
   "property": "C122",
   "status": "proved",
   "theorems": [
    "C122_orbitals",
    "C122_occupations"
   ],
   "note": "properties of the Coulomb, exchange and quadrature matrices are hypotheses, proved in C101-C105 for their models"
  },
  {
   "property": "C123",
   "status": "partial",
   "theorems": [
    "C123_orbitals",
    "C123_occupations",
    "C123_alpha",
    "C123_beta_refuted"
   ],
   "note": "false of the code for beta orbitals if there are no beta electrons; witness given"
  },
  {
   "property": "C124",
   "status": "proved",
   "theorems": [
    "C124_closed_shells"
   ],
   "note": "the functional of two equal densities is the restricted one by hypothesis, see C102"
  },
  {
   "property": "C125",
   "status": "proved",
   "theorems": [
    "C125_core",
    "C125_choice",
    "C125_batch",
    "C125_empty"
   ],
   "note": ""
  },
  {
   "property": "C126",
   "status": "partial",
   "theorems": [
    "C126_frozen",
    "C126_none",
    "C126_one_spin_refuted"
   ],
   "note": "the promise for a single spin is false of the code; witness given"
  },
  {
   "property": "C127",
   "status": "proved",
   "theorems": [
    "C127_electrons",
    "C127_orbitals",
    "C127_rounded"
   ],
   "note": "the file itself is the subject of C27-C31"
  },
  {
   "property": "C128",
   "status": "partial",
   "theorems": [
    "C128_blocks",
    "C128_reload_partial",
    "C128_distorted",
    "C128_overlap_refuted",
    "C128_fractional_refuted",
    "C128_spin_refuted",
    "C128_boundary_refuted",
    "C128_nodes_refuted"
   ],
   "note": "an exact restart holds in orthonormal bases with integer occupations only; counterexamples for the rest"
  },
  {
   "property": "C129",
   "status": "proved",
   "theorems": [
    "C129_rejects",
    "C129_shape"
   ],
   "note": "exact real arithmetic; a vanishing P_{n-1} at an iterate is a separate outcome"
  },
  {
   "property": "C130",
   "status": "partial",
   "theorems": [
    "C130_residual",
    "C130_stationary",
    "C130_integrates_partial",
    "C130_sharp",
    "C130_feeds_radial"
   ],
   "note": "exactness is proved for a last step that moves nothing and distinct nodes; the residual bound holds for the tolerance of the code; that the iteration ends is shown for n = 2 and 3 only"
  },
  {
   "property": "C131",
   "status": "proved",
   "theorems": [
    "C131_parity",
    "C131_small",
    "C131_series",
    "C131_vector"
   ],
   "note": "exact real arithmetic; std::cyl_bessel_i is a parameter, used for |r| >= 1/2 only; L negative is not modelled"
  },
  {
   "property": "C132",
   "status": "proved",
   "theorems": [
    "C132_arcosh",
    "C132_arcosh_cosh",
    "C132_arsinh",
    "C132_vectors"
   ],
   "note": "std::acosh and std::asinh are taken as their logarithms, exact real arithmetic"
  },
  {
   "property": "C133",
   "status": "proved",
   "theorems": [
    "C133_usable",
    "C133_throw",
    "C133_pair",
    "C133_reserved",
    "C133_name",
    "C133_number",
    "C133_roles_refuted"
   ],
   "note": "libxc is a parameter; C133_usable assumes that its numbers are positive or -1; a numeral that does not fit an int is undefined behaviour in the model"
  },
  {
   "property": "C134",
   "status": "proved",
   "theorems": [
    "C134_kinds",
    "C134_unknown",
    "C134_supported",
    "C134_range_separation",
    "C134_vv10",
    "C134_versions"
   ],
   "note": "libxc is a parameter; warnings to stderr are left out"
  },
  {
   "property": "C135",
   "status": "proved",
   "theorems": [
    "C135_table",
    "C135_shape",
    "C135_junk_refuted"
   ],
   "note": "C locale, decimal; the file is its text"
  },
  {
   "property": "C136",
   "status": "proved",
   "theorems": [
    "C136_atomic",
    "C136_diatomic",
    "C136_accept",
    "C136_duplicate_refuted",
    "C136_negative_refuted"
   ],
   "note": "acceptance is stated for the atomic driver; overflow of the sums is undefined behaviour in the model"
  },
  {
   "property": "C137",
   "status": "proved",
   "theorems": [
    "C137_coordinates",
    "C137_table",
    "C137_orbitals",
    "C137_nonnegative",
    "C137_rotation"
   ],
   "note": "exact reals; atan2 is a parameter with its defining property; two or more points"
  },
  {
   "property": "C138",
   "status": "proved",
   "theorems": [
    "C138_values",
    "C138_outside",
    "C138_harmonics"
   ],
   "note": "sph_legendre and the radial functions are parameters"
  },
  {
   "property": "C139",
   "status": "proved",
   "theorems": [
    "C139_stopwatch",
    "C139_paused",
    "C139_nonnegative",
    "C139_stop_refuted",
    "C139_cont_refuted"
   ],
   "note": "times are exact rationals"
  },
  {
   "property": "C140",
   "status": "proved",
   "theorems": [
    "C140_text",
    "C140_decimal",
    "C140_sixty_refuted",
    "C140_clock_refuted"
   ],
   "note": "times are exact rationals; 64-bit size_t"
  },
  {
   "property": "C141",
   "status": "proved",
   "theorems": [
    "C141_grid",
    "C141_assertion",
    "C141_assertion_refuted"
   ],
   "note": "exact reals; Sinv T is one given matrix; a broken Eigen precondition counts as undefined when assertions are on"
  },
  {
   "property": "C142",
   "status": "proved",
   "theorems": [
    "C142_integrals"
   ],
   "note": "exact reals"
  },
  {
   "property": "C143",
   "status": "proved",
   "theorems": [
    "C143_lmax",
    "C143_lmax_monotone",
    "C143_shell",
    "C143_charge_check",
    "C143_potential",
    "C143_repulsion",
    "C143_repulsion_nonneg",
    "C143_repulsion_balls",
    "C143_nucleus"
   ],
   "note": "exact reals; integrals through antiderivatives"
  },
  {
   "property": "C144",
   "status": "proved",
   "theorems": [
    "C144_friedel",
    "C144_grid",
    "C144_atom",
    "C144_vacancy",
    "C144_vacancy_increasing_refuted"
   ],
   "note": "exact reals; the range of int is not modelled; strictness with the vacancy refuted"
  },
  {
   "property": "C145",
   "status": "partial",
   "theorems": [
    "C145_restricted",
    "C145_trace",
    "C145_electrons",
    "C145_kinetic",
    "C145_unrestricted_partial",
    "C145_unrestricted_refuted"
   ],
   "note": "the unrestricted sum holds only if no block has beta electrons alone, refuted otherwise"
  },
  {
   "property": "C146",
   "status": "proved",
   "theorems": [
    "C146_roundtrip",
    "C146_truncated",
    "C146_ragged_refuted",
    "C146_guess"
   ],
   "note": "numbers written exactly; white space and missing headers not modelled"
  },
  {
   "property": "C147",
   "status": "proved",
   "theorems": [
    "C147_density_restricted",
    "C147_density_alpha_only",
    "C147_density_unrestricted_refuted",
    "C147_orbitals",
    "C147_phase",
    "C147_names"
   ],
   "note": "exact reals; the total density of an unrestricted run refuted"
  }
 ]
}
