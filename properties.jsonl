{"id": "C01", "title": "Finite-element function numbering is a gap-free overlapping layout", "statement": "For a FiniteElementBasis the global indices of the functions of element i, as returned by get_idx / basis_indices, form one contiguous range; two neighbouring elements share exactly the noverlap functions of the primitive family, non-neighbouring elements share none when every element carries at least 2*noverlap functions, the ranges together cover 0..get_nbf()-1, and get_nbf() equals the sum of the per-element counts minus (Nel-1)*noverlap.", "quantifier": "every number of elements, every per-element function count not smaller than the overlap, every overlap", "why_tests_cant": "the layout is indexed by the grid size and the primitive family; a test fixes both", "anchors": ["libhelfem/src/FiniteElementBasis.cpp: update_bf_list, get_idx, basis_indices, get_nbf"]}
{"id": "C02", "title": "Locating the element of a radius", "statement": "find_element(x) terminates and returns an element with bval(i) <= x <= bval(i+1) when x lies inside a strictly increasing grid (unique unless x is itself an interior boundary); it returns the first element for x left of the grid and the last element for x at or right of the end. (A NaN argument is the one input for which the documented search does not terminate.)", "quantifier": "every strictly increasing boundary vector with at least two entries and every comparable x, plus the incomparable value NaN", "why_tests_cant": "binary search off-by-ones only appear at particular positions and grid sizes; non-termination cannot be observed by a finishing test", "anchors": ["libhelfem/src/FiniteElementBasis.cpp: find_element"]}
{"id": "C03", "title": "Adding an element boundary", "statement": "add_boundary(r) leaves the boundary vector strictly increasing, makes r a boundary, keeps every old boundary, adds at most one, and calling it again with the same r changes nothing.", "quantifier": "every strictly increasing boundary vector and every r, every history of add_boundary calls", "why_tests_cant": "property over all insertion points and over all call histories", "anchors": ["libhelfem/src/FiniteElementBasis.cpp: add_boundary"]}
{"id": "C04", "title": "Element coordinates round-trip", "statement": "eval_coord maps -1 and 1 to the element's two boundaries, is strictly increasing, stays inside the element for x in [-1,1], and eval_prim is its exact inverse.", "quantifier": "every element of every strictly increasing grid and every primitive coordinate", "why_tests_cant": "real-valued identity over a continuum of inputs", "anchors": ["libhelfem/src/FiniteElementBasis.cpp: eval_coord, eval_prim, element_midpoint, element_length, scaling_factor"]}
{"id": "C05", "title": "Assembled matrices are the sum of their element blocks", "statement": "matrix_element / assemble_radial_diagonal return the matrix whose (i,j) entry is the sum over the elements that carry both functions i and j of the element's local integral; entries without a common element are zero, symmetric element blocks give a symmetric matrix, and the result does not depend on the order in which elements are visited (nor, in exact arithmetic, on how a parallel loop interleaves them).", "quantifier": "every layout, every family of element blocks, every permutation of the element loop", "why_tests_cant": "quantifies over visiting orders (schedules) and over all layouts", "anchors": ["libhelfem/src/FiniteElementBasis.cpp: matrix_element, vector_element", "src/general/radial_block_helper.h: assemble_radial_diagonal"]}
{"id": "C06", "title": "Lagrange shape functions interpolate", "statement": "The LIP primitives evaluated at the nodes are the identity matrix, sum to one everywhere, and every polynomial of degree below the node count equals its own interpolant; the derivative table returned for n=1 is the derivative of the value table.", "quantifier": "every set of pairwise distinct nodes of every size and every real x", "why_tests_cant": "continuum of evaluation points and unbounded node counts", "anchors": ["libhelfem/src/LIPBasis_eval.h", "libhelfem/include/LIPBasis.h"]}
{"id": "C07", "title": "Hermite shape functions interpolate value and slope", "statement": "The Hermite primitives of order one, two and three interpolate the value and the first one, two or three r-derivatives at the nodes: each takes one for its own derivative at its own node and zero for all the others; hence adjacent elements sharing the node functions join with continuous value and derivatives, whatever their lengths, and every polynomial of degree below the number of primitives is the combination given by its values and derivatives at the nodes.", "quantifier": "every set of pairwise distinct nodes of every size, every element length", "why_tests_cant": "identities for all node sets and all element lengths", "anchors": ["libhelfem/include/HIPBasis_eval.h, HIP2Basis_eval.h, HIP3Basis_eval.h", "libhelfem/include/HIPBasis.h, HIP2Basis.h, HIP3Basis.h"]}
{"id": "C08", "title": "Which functions the boundary conditions remove", "statement": "drop_first(zero_func, zero_deriv) and drop_last remove exactly the value function of the boundary node when zero_func is set and exactly the derivative function when zero_deriv is set, in every primitive family; with both flags off nothing is removed.", "quantifier": "every primitive family, every node count, all four flag combinations at both ends", "why_tests_cant": "the families implement the rule separately; the rule is about all node counts", "anchors": ["libhelfem/include/LIPBasis.h", "libhelfem/include/HIPBasis.h", "libhelfem/include/HIP2Basis.h", "libhelfem/include/HIP3Basis.h", "libhelfem/include/LegendreBasis.h"]}
{"id": "C09", "title": "Primitive-basis factory decision rule", "statement": "get_basis(primbas, nnodes) either throws or returns a basis whose reported id and node count rebuild the same basis; it throws exactly for nnodes < 2 or an id outside the supported list.", "quantifier": "every integer id and node count", "why_tests_cant": "decision rule over all integers and a round-trip through the reported id", "anchors": ["libhelfem/src/PolynomialBasis.cpp: get_basis, get_basis_T"]}
{"id": "C10", "title": "Radial grids are strictly increasing from 0 to rmax", "statement": "get_grid returns num_el+1 strictly increasing values starting at exactly 0 and ending at exactly rmax for every supported grid type, and throws for unsupported types and for an invalid geometric ratio.", "quantifier": "every rmax > 0, every positive element count, every grid type, every admissible zexp", "why_tests_cant": "monotonicity of transcendental grids over continuous parameters", "anchors": ["libhelfem/include/grid.h: get_grid"]}
{"id": "C11", "title": "Composite nuclear grids", "statement": "The grid returned by form_grid for a finite or off-centre nucleus is strictly increasing, starts at 0, ends at the requested rmax and has the nuclear radius / off-centre position among its boundaries.", "quantifier": "every admissible rmax, nuclear radius, element counts, grid types and charges", "why_tests_cant": "composition of several grids over continuous parameters", "anchors": ["src/atomic/basis.cpp: concatenate_grid, finite_nuclear_grid, offcenter_nuclear_grid, form_grid"]}
{"id": "C12", "title": "Angular basis enumeration", "statement": "angular_basis(lmax, mmax) lists every pair (l,m) with 0<=l<=lmax and |m|<=min(l,mmax) exactly once, and nothing else, ordered by |m| first; lm_to_l_m lists for every |m| in its argument every l from |m| to the requested maximum with both signs of m exactly once.", "quantifier": "every lmax, mmax and every per-|m| limit vector", "why_tests_cant": "exactness of an enumeration for all sizes", "anchors": ["src/atomic/basis.cpp: angular_basis", "src/diatomic/basis.cpp: lm_to_l_m"]}
{"id": "C13", "title": "Atomic symmetry blocks partition the basis", "statement": "get_sym_idx(symm) returns index lists that are pairwise disjoint, ascending and together contain every basis function exactly once; functions in one block share the quantum numbers named by symm and functions of different blocks do not; get_sym_labels returns one label per block; unsupported symm throws.", "quantifier": "every list of (l,m) shells, every radial size, every symm", "why_tests_cant": "a partition property over all shell lists", "anchors": ["src/atomic/TwoDBasis.cpp: m_indices, lm_indices, get_sym_idx, get_sym_labels", "src/general/angular_index_helpers.h: collect_shell_indices"]}
{"id": "C14", "title": "Diatomic symmetry blocks partition the basis", "statement": "For symm 0,1,2 get_sym_idx partitions the pure basis functions by nothing, by m, by (m, parity); for symm 3 the blocks together with get_sym_mirror_idx partition it by |m| and sign with block and mirror of equal length; labels have the same length as the blocks.", "quantifier": "every list of (l,m) shells and radial sizes, with the |m|>0 shells present in both signs for symm 3", "why_tests_cant": "a partition property over all shell lists, including those where m=0 shells have one more radial function", "anchors": ["src/diatomic/basis.cpp: get_sym_idx, get_sym_mirror_idx, m_indices, get_sym_labels, pure_indices"]}
{"id": "C15", "title": "Dropping and restoring boundary functions", "statement": "remove_boundaries picks the rows and columns of the functions that survive the m/=0 boundary condition; remove_boundaries(expand_boundaries(M)) = M, expand_boundaries leaves every dropped row and column zero, wrong sizes throw, Nbf() is the number of surviving functions and dummy_idx_to_real_idx is the order-preserving inverse of that selection.", "quantifier": "every shell list, radial size and matrix", "why_tests_cant": "index bijection over all shell lists", "anchors": ["src/diatomic/basis.cpp: pure_indices, Nbf, Ndummy, remove_boundaries, expand_boundaries, dummy_idx_to_real_idx"]}
{"id": "C16", "title": "Element-to-function lists used by the DFT grids", "statement": "bf_list(iel) returns, for every angular shell and every radial function living in element iel, its global index exactly once and nothing else; the indices are in range.", "quantifier": "every element, layout and shell list", "why_tests_cant": "index map over all layouts", "anchors": ["src/atomic/TwoDBasis.cpp: bf_list", "src/diatomic/basis.cpp: bf_list, bf_list_dummy"]}
{"id": "C17", "title": "Gaunt table returns the Gaunt coefficient", "statement": "For every query inside the constructed range Gaunt::coeff(L,M,l,m,lp) returns exactly the coefficient the generator gives for (L,M,l,m,lp,M-m), although only one representative per symmetry class is stored; queries violating |M|<=L, |m|<=l or |M-m|<=lp return zero, and no query reads outside the table.", "quantifier": "every table size, every m cap, every query", "why_tests_cant": "five-dimensional unbounded query space with in-bounds index arithmetic", "anchors": ["src/general/gaunt.h: GauntT", "src/general/gaunt.cpp: GauntT::GauntT, slot, m2_count, coeff"]}
{"id": "C18", "title": "A capped Gaunt table never answers outside its window silently", "statement": "With an explicit m cap, a query with |M| or |m| above the cap throws instead of returning zero; queries within the cap are answered although the implied third m may be twice the cap.", "quantifier": "every cap and every query", "why_tests_cant": "a safety rule over all queries", "anchors": ["src/general/gaunt.cpp: coeff"]}
{"id": "C19", "title": "Auxiliary (L,M) index of the diatomic two-electron integrals", "statement": "The (L,|M|) and (L,M) tables built by the diatomic basis are sorted, duplicate-free and contain every multipole that any pair of shells can couple to, so that the lookups done in coulomb() and exchange() always succeed and return the position of exactly the requested entry; lookups of absent entries throw when checked.", "quantifier": "every list of (l,m) shells and every multipole arising from a pair of shells", "why_tests_cant": "completeness of a table for all basis sets", "anchors": ["src/diatomic/basis.cpp: TwoDBasis ctor, lmind, LMind, lm_less, operator<"]}
{"id": "C20", "title": "Parallel two-electron build writes each block once", "statement": "The task list of compute_tei covers every (multipole, element) block exactly once, each task touches only blocks of its own |M| run, so the build is race free and its result does not depend on the schedule.", "quantifier": "every multipole list sorted by |M|, every element count, every interleaving of the tasks", "why_tests_cant": "quantifies over thread schedules", "anchors": ["src/diatomic/basis.cpp: compute_tei"]}
{"id": "C21", "title": "Exchange reordering of two-electron integrals", "statement": "exchange_tei sends (ij|kl) to (jk|il): every input element appears at exactly one output position, the contraction of the result with a density gives the exchange contraction of the input, and wrong dimensions throw.", "quantifier": "all dimensions and all tensors", "why_tests_cant": "index permutation over four unbounded dimensions", "anchors": ["libhelfem/src/utils.cpp: exchange_tei"]}
{"id": "C22", "title": "Pivoted Cholesky factorisation accuracy", "statement": "For a symmetric positive semidefinite matrix the pivoted Cholesky factor returned for tolerance tol satisfies |A - L L^T| <= tol in every entry, has at most n columns, and is exact on the rows and columns of the pivots.", "quantifier": "every dimension, every positive semidefinite matrix, every tolerance", "why_tests_cant": "a numerical-analysis statement over all matrices", "anchors": ["libhelfem/src/RadialBasis.cpp: pivoted_cholesky_", "src/atomic/TwoDBasis.cpp: radial_df_factors"]}
{"id": "C23", "title": "Signed pivoted factorisation accuracy", "statement": "The sign-aware factorisation used for diatomic integrals returns factors with W = sum_p s_p b_p b_p^T exactly on pivot rows, and reproduces W when it stops for lack of a pivot.", "quantifier": "every dimension and every symmetric matrix", "why_tests_cant": "a numerical-analysis statement over all matrices including indefinite ones", "anchors": ["src/diatomic/basis.cpp: compute_tei signed Cholesky"]}
{"id": "C24", "title": "Coulomb assembly equals the full contraction", "statement": "assemble_J_FE_one_multipole (dense, cached and Cholesky variants) returns J_ab = sum_cd R(ab,cd) P_cd where R is the two-electron tensor assembled from in-element blocks and the disjoint r_small/r_big products for ordered element pairs; the r_big integral of the innermost element is never used.", "quantifier": "every layout, every family of blocks, every density matrix", "why_tests_cant": "algebraic identity over all layouts and densities", "anchors": ["libhelfemqc/include/CoulombExchangeFE.h: assemble_J_FE_one_multipole*, compute_disjoint_radial_integrals"]}
{"id": "C25", "title": "Exchange assembly equals the full contraction", "statement": "assemble_K_FE_one_multipole (cached, Cholesky and pairwise variants) returns K_ab = sum_cd R(ac,bd) P_cd for the same tensor; the Cholesky (RI) variant agrees with the permuted-tensor variant for every factor of a pair-symmetric tensor.", "quantifier": "every layout, every family of blocks, every density matrix", "why_tests_cant": "algebraic identity over all layouts and densities", "anchors": ["libhelfemqc/include/CoulombExchangeFE.h: assemble_K_FE_one_multipole*"]}
{"id": "C26", "title": "Range-separated integral mode follows the last request", "statement": "After any history of compute_tei / compute_yukawa / compute_erfc calls, coulomb and exchange use the bare integrals iff compute_tei was called (else throw), and rs_exchange uses the kernel and parameter of the most recent compute_yukawa/compute_erfc call, throwing if there was none.", "quantifier": "every history of calls", "why_tests_cant": "quantifies over call histories", "anchors": ["src/atomic/TwoDBasis.cpp: compute_tei, compute_yukawa, compute_erfc, coulomb, exchange, rs_exchange", "src/sadatom/basis.cpp"]}
{"id": "C27", "title": "Checkpoint behaves as a key-value store", "statement": "Any sequence of open/close/write/read/remove operations on a Checkpoint behaves like a finite map from names to values persisted in the file: a read returns the last value written under that name, other names are unaffected, reading a missing name throws, writing in read-only mode throws and changes nothing, and the map survives closing and reopening without truncation.", "quantifier": "every operation history", "why_tests_cant": "refinement over unbounded operation histories", "anchors": ["src/general/checkpoint.cpp", "src/general/checkpoint.h"]}
{"id": "C28", "title": "Checkpoint calls restore the open/closed state", "statement": "As documented in the header, a read or write leaves an open file open and a closed file closed.", "quantifier": "every operation and every starting state, including operations that fail", "why_tests_cant": "must hold on every exit path", "anchors": ["src/general/checkpoint.h", "src/general/checkpoint.cpp"]}
{"id": "C29", "title": "Checkpoint values round-trip", "statement": "Matrices, vectors, integer vectors, booleans, integers, doubles and strings written to a checkpoint are read back unchanged (dimension, order and content); a value of the wrong class or shape makes the typed read throw rather than return garbage.", "quantifier": "all dimensions and all contents", "why_tests_cant": "round-trip over all values including empty matrices and embedded NULs", "anchors": ["src/general/checkpoint.cpp: read, write overloads"]}
{"id": "C30", "title": "Checkpoint writes under crashes", "statement": "If the process stops between two file operations of a write, every entry other than the one being written is intact, and the entry being written holds either its old or its new value.", "quantifier": "every operation history and every crash point", "why_tests_cant": "crash points cannot be enumerated by tests", "anchors": ["src/general/checkpoint.cpp: write, remove"]}
{"id": "C31", "title": "Basis sets round-trip through the checkpoint", "statement": "Writing an atomic or diatomic basis and reading it back yields a basis constructed from identical parameters; reading a file with the other program's identifier throws.", "quantifier": "every basis parameter set", "why_tests_cant": "round-trip over all parameter sets", "anchors": ["src/general/checkpoint.cpp: write/read of TwoDBasis"]}
{"id": "C32", "title": "Electron count bookkeeping", "statement": "parse_nela_nelb and derive_nela_nelb_restricted return counts with nela + nelb = Z - Q, nela - nelb = M - 1, nela >= nelb >= 0 whenever they return normally from (Q,M) input, throw on inconsistent input, and for explicit nela/nelb return the charge and multiplicity that match; the restricted flag is derived as documented.", "quantifier": "all integers nela, nelb, Q, M, Z, restr", "why_tests_cant": "integer decision table with parity cases over all integers", "anchors": ["src/general/scf_helpers.cpp: parse_nela_nelb", "src/general/scf_driver_common.h: derive_nela_nelb_restricted"]}
{"id": "C33", "title": "SCF block bookkeeping", "statement": "build_ooo_block_metadata gives one occupation cap, one description and one block per (spin channel, symmetry block), caps add up to the spin capacity of the basis, particle numbers add up to nela+nelb, and mismatched label or degeneracy lists throw.", "quantifier": "every number of blocks, spins and degeneracies", "why_tests_cant": "size/sum identity over all block lists", "anchors": ["src/general/scf_driver_common.h: build_ooo_block_metadata"]}
{"id": "C34", "title": "Symmetry-blocked diagonalisation keeps all states, sorted", "statement": "eig_gsym_sub returns all eigenpairs of all blocks, each exactly once, sorted by energy, each eigenvector supported on its own block.", "quantifier": "every block partition and every set of block spectra", "why_tests_cant": "property over all partitions", "anchors": ["src/general/scf_helpers.cpp: eig_gsym_sub"]}
{"id": "C35", "title": "Adaptive quadrature ladders terminate", "statement": "converge_rule, converge_panel and converge_block terminate for every integrand after a bounded number of evaluations, never use more than the capped order (unless started above it), and return a block that the evaluator actually produced at an order they tried.", "quantifier": "every integrand behaviour (including NaN blocks) and every starting order", "why_tests_cant": "termination for arbitrary oracle behaviour", "anchors": ["libhelfem/src/RadialBasis.cpp: converge_rule", "libhelfem/src/FiniteElementBasis.cpp: converge_panel", "src/diatomic/basis.cpp: converge_block"]}
{"id": "C36", "title": "In-element two-electron integrals are symmetric and complete", "statement": "The in-element integral matrix returned by twoe_integral is symmetric under exchanging the two electron pairs and under swapping the functions of a pair, and the running inner integral at quadrature point i equals the sum of the sub-interval integrals up to i.", "quantifier": "every quadrature rule, every basis, every element", "why_tests_cant": "algebraic identity over all rules", "anchors": ["libhelfem/src/quadrature.cpp: twoe_inner_integral, twoe_integral", "src/diatomic/quadrature.cpp: twoe_integral"]}
{"id": "C37", "title": "Associated Legendre functions of the first kind", "statement": "plm fills every (l,m) entry: zero for m > l, the closed form for l=m, and the three-term recurrence for l>m, for every x on and off the cut; negative limits throw.", "quantifier": "every lmax, mmax and real x", "why_tests_cant": "recurrence over unbounded degrees and real arguments", "anchors": ["src/legendre/Legendre.h: compute_plm, seed_plm, recur_plm_in_l, plm"]}
{"id": "C38", "title": "Associated Legendre functions of the second kind", "statement": "qlm returns the same values in exact arithmetic whichever of its algorithms (upward, Christoffel, Miller with the exact ratio) is selected for x off the cut, all entries satisfy the l and m recurrences, x=+-1 and negative limits throw, and entries with m > l are written as zero as documented.", "quantifier": "every lmax, mmax and real x", "why_tests_cant": "agreement of three algorithms for all degrees and arguments", "anchors": ["src/legendre/Legendre.h: qlm, compute_qlm_upward, compute_qlm_christoffel, compute_qlm_miller"]}
{"id": "C39", "title": "Van der Waals radius", "statement": "vdw_radius(P, threshold, eps) returns a radius at which the density equals the requested threshold to within the bisection tolerance, or 0 if the density is below it everywhere.", "quantifier": "every decreasing density, threshold and tolerance", "why_tests_cant": "continuum of densities and thresholds", "anchors": ["src/sadatom/basis.cpp: vdw_radius"]}
{"id": "C40", "title": "Electron count radius", "statement": "electron_count_radius(P, eps) returns a radius outside of which the density integrates to eps up to the bisection tolerance, and never indexes a non-existing element.", "quantifier": "every density and every eps, including eps above the total electron count", "why_tests_cant": "index arithmetic over all element charges", "anchors": ["src/sadatom/basis.cpp: electron_count_radius"]}
{"id": "C41", "title": "Screening from prefix and suffix charges", "statement": "coulomb_screening and the tabulated-atom hartree_screening combine, for a point in element i, exactly the charges of all elements below i, the 1/r moments of all elements above i and the in-element part.", "quantifier": "every number of elements (including one) and every set of element moments", "why_tests_cant": "prefix/suffix identity for all sizes, with unsigned loop counters running past zero", "anchors": ["src/sadatom/basis.cpp: coulomb_screening", "src/general/atomdb.cpp: Atom::Atom, enclosed_charge, hartree_screening"]}
{"id": "C42", "title": "Tabulated screening lookup", "statement": "sap_effective_charge terminates, reads only inside the table, returns the tabulated value at every knot and the interpolating polynomial of the selected window otherwise; arguments outside the tabulated range give the edge values and unknown nuclei give zero.", "quantifier": "every strictly increasing radius table and every comparable radius and nucleus", "why_tests_cant": "search and window arithmetic for all positions", "anchors": ["src/general/sap.cpp: sap_effective_charge"]}
{"id": "C43", "title": "GSZ parameter lookup stays inside its table", "statement": "GSZ_parameters(Z) either throws or returns the tabulated parameter of nucleus Z.", "quantifier": "every integer Z", "why_tests_cant": "out-of-range reads are undefined behaviour that tests may not reveal", "anchors": ["src/general/gsz.cpp: GSZ_parameters"]}
{"id": "C44", "title": "Element symbol lookup", "statement": "get_Z returns the nuclear charge of every element symbol irrespective of letter case, the number itself for numeric input, zero for the empty string, and throws for anything else that starts with a letter.", "quantifier": "every string", "why_tests_cant": "rule over all strings", "anchors": ["src/general/elements.cpp: get_Z"]}
{"id": "C45", "title": "Orthonormalisation and density assembly", "statement": "form_Sinvh returns X with X^T S X = 1 for every symmetric positive definite S; the densities assembled from block orbitals and occupations are symmetric, contain the sum of the occupations as electrons (also for mirrored |m| blocks and for the restricted half/half split) and vanish between different blocks.", "quantifier": "every overlap matrix, block partition, orthonormal orbitals and occupations", "why_tests_cant": "linear-algebra identity over all dimensions", "anchors": ["libhelfem/src/utils.cpp: invh", "src/general/scf_driver_common.h: accumulate_density_block, assemble_final_density"]}
{"id": "C46", "title": "NAO basis is an exact congruence transform", "statement": "Every one-electron matrix of a NAORadialBasis equals C^T M C of the underlying basis, coulomb_radial / exchange_radial equal the sums of bare Slater integrals over the NAO functions stated in the header, and wrong shapes or different underlying bases throw.", "quantifier": "every coefficient matrix, density and multipole", "why_tests_cant": "algebraic identity over all dimensions", "anchors": ["libhelfemqc/include/NAORadialBasis.h"]}
{"id": "C47", "title": "Quadrature caches are transparent", "statement": "Whatever caches have been filled, and in whatever order basis evaluations, cache fills and basis replacement happen, every evaluation returns what it would return without caches.", "quantifier": "every history of evaluations and fills", "why_tests_cant": "history property", "anchors": ["libhelfem/src/RadialBasis.cpp: fill_quadrature_cache, get_bf, get_df, get_lf", "libhelfem/include/RadialBasis.h"]}
{"id": "C48", "title": "Command line parsing", "statement": "The command line parser assigns each option its last given value, reports an error for unknown options, missing values, missing required options and unreadable values, keeps non-option arguments in order, and never reads past the argument list.", "quantifier": "every option declaration and every argument vector", "why_tests_cant": "all argument sequences", "anchors": ["src/general/cmdline.h: parser::parse"]}
{"id": "C49", "title": "Cross-basis overlap covers the common range exactly", "statement": "The element pairs integrated for the overlap of two radial bases tile the intersection of the two grids: every point common to both grids belongs to exactly one integration panel up to panel end points, and no panel leaves the intersection.", "quantifier": "every pair of strictly increasing grids", "why_tests_cant": "combinatorics of two arbitrary grids", "anchors": ["libhelfem/src/RadialBasis.cpp: cross-basis matrix_element"]}
{"id": "C50", "title": "Angular product quadrature", "statement": "compound_rule lists every (theta, phi) combination exactly once with product weights, and its weights sum to 4 pi when the theta weights sum to 2.", "quantifier": "every rule size", "why_tests_cant": "identity for all sizes", "anchors": ["src/general/angular.cpp: compound_rule"]}
{"id": "C51", "title": "Model nuclear potentials", "statement": "The hollow and uniformly charged sphere nuclei are continuous at the nuclear radius, coincide with the point nucleus outside, are bounded below by their value at the origin and never deeper than the point nucleus; the factory throws for an unknown model.", "quantifier": "every charge, radius and distance", "why_tests_cant": "continuum of parameters", "anchors": ["libhelfemqc/src/HollowNucleus.cpp", "libhelfemqc/src/SphericalNucleus.cpp", "libhelfemqc/src/PointNucleus.cpp", "src/general/model_potential.cpp"]}
{"id": "C52", "title": "Screened-kernel expansion is symmetric", "statement": "erfc_expn::Phi(n, Xi, xi) does not depend on the order of its two radii, and its binomial helper equals the generalised binomial coefficient.", "quantifier": "every order and every pair of radii", "why_tests_cant": "continuum of arguments", "anchors": ["libhelfem/src/erfc_expn.cpp: Phi, choose"]}
{"id": "C53", "title": "Density fitting factors of the radial kernel", "statement": "With a positive tolerance radial_df_factors terminates for every multipole after at most one vector per pair of radial functions, the vectors are symmetric matrices, and the sum of their outer products reproduces every radial two-electron integral to within the tolerance; without computed integrals it throws.", "quantifier": "every basis, multipole and positive tolerance", "why_tests_cant": "adaptive loop whose length depends on the data", "anchors": ["src/atomic/TwoDBasis.cpp: radial_df_factors"]}
{"id": "C54", "title": "Angular couplings are exact", "statement": "The constants of the cos^n, sin^2 and modified couplings are the spherical harmonic expansions of the functions they are named after, and the Gaunt tables built by the atomic and diatomic bases are large enough that every coupling requested by one-electron operators, coulomb and exchange is answered exactly, never with a silent out-of-range zero and never with an exception.", "quantifier": "every list of shells and every pair of them", "why_tests_cant": "a table that is one too small gives silently wrong matrix elements for some basis only", "anchors": ["src/general/gaunt.cpp: cosine_coupling ... cosine2_sine2_coupling, mod_coeff", "src/diatomic/basis.cpp: TwoDBasis::TwoDBasis", "src/atomic/TwoDBasis.cpp: coulomb, exchange"]}
{"id": "C55", "title": "Atomic Coulomb and exchange matrices are the full contractions", "statement": "For an atomic basis coulomb(P) and exchange(P) equal the contraction of the density with the two-electron integrals expanded in multipoles, sum over L of 4 pi/(2L+1) times the two angular couplings times the radial integral; they throw if the integrals have not been computed.", "quantifier": "every list of shells, radial layout and density", "why_tests_cant": "needs all index combinations and screening branches", "anchors": ["src/atomic/TwoDBasis.cpp: coulomb, exchange, rs_exchange"]}
{"id": "C56", "title": "Saved and loaded densities", "statement": "The density written to the checkpoint is the density of the calculation, and loading a checkpoint in the same basis starts from that density with the same number of electrons.", "quantifier": "every block structure (with and without mirrored blocks), orbitals, occupations, overlap matrix", "why_tests_cant": "identity over all dimensions and occupations; wrong start densities are repaired by the SCF iterations and stay unnoticed", "anchors": ["src/general/scf_driver_common.h: assemble_final_density, fill_block_from_density", "src/atomic/main.cpp, src/diatomic/main.cpp: --load, --save"]}
{"id": "C57", "title": "Fock matrices are gradients of the energy", "statement": "The Fock matrices returned by the drivers' builders are the derivatives of the returned total energy with respect to the density, for restricted and spin-polarised calculations, with electric and magnetic fields, confinement, exact exchange and density functionals; the core guess is the Fock matrix without electrons.", "quantifier": "every density, every direction of change, every combination of fields, confinement, exchange and functional", "why_tests_cant": "derivative identity over a continuum of densities and all switch combinations", "anchors": ["src/atomic/main.cpp, src/diatomic/main.cpp: fock builders", "src/general/scf_driver_common.h: assemble_hf_exchange, assemble_fock_blocks, build_coreH_from_H0"]}
{"id": "C58", "title": "Derivative tables of the shape functions", "statement": "For every family the table eval_dnf returns for order n+1 is the derivative with respect to the radial coordinate of the table it returns for order n, up to order 20 (LIP, HIP), 5 (HIP2, HIP3) or 2 (Legendre); higher orders throw.", "quantifier": "every family, distinct nodes, element length and midpoint, enabled subset, order and point", "why_tests_cant": "the tables are thousands of machine-written terms; a wrong term shows only at some point, order and node count", "anchors": ["libhelfem/include/LIPBasis_eval.h, HIPBasis_eval.h, HIP2Basis_eval.h, HIP3Basis_eval.h, LegendreBasis.h, PolynomialBasisT.h"]}
{"id": "C59", "title": "Division by r near the origin", "statement": "In the element that starts at the origin eval_over_r returns the shape functions divided by r, finite also at r = 0, and its higher tables are the derivatives of the lower ones; it throws when the value function of the first node is still enabled, when nothing is enabled and for orders it does not have.", "quantifier": "every family, distinct nodes starting at -1, scaling factor, enabled subset and point including the origin", "why_tests_cant": "the removable singularity is divided out by hand in every family", "anchors": ["libhelfem/include/LIPBasis.h: eval_over_r", "libhelfem/include/LegendreBasis.h: eval_over_r", "libhelfem/include/HIPBasis_over_r.h, HIP2Basis_over_r.h, HIP3Basis_over_r.h"]}
{"id": "C60", "title": "Legendre shape functions", "statement": "The first and last Legendre shape functions are one at their end of the element and zero at the other, the others vanish at both ends, together they span all polynomials of degree below their number, and the slopes of the interior functions are orthonormal and orthogonal to those of the end functions.", "quantifier": "every number of functions and every point", "why_tests_cant": "integral and span statements for all degrees", "anchors": ["libhelfem/include/LegendreBasis.h", "libhelfem/include/legendre_poly.h"]}
{"id": "C61", "title": "Break points split the quadrature", "statement": "Matrix elements of a potential with break points are integrated over panels that tile the element and never have a break point inside, so a rule that is exact on smooth pieces is exact for the element; break points outside the element and repeated ones are harmless.", "quantifier": "every element, every list of break points, every integrand", "why_tests_cant": "the split depends on the position of every break point relative to every element", "anchors": ["libhelfem/src/FiniteElementBasis.cpp: matrix_element_auto"]}
{"id": "C62", "title": "Precomputed two-centre elements equal direct evaluation", "statement": "The in-element integrals obtained from the precomputed tables of an element (twoe_element) equal those computed directly for the same element, rule, powers and Legendre functions.", "quantifier": "every rule, basis, element, powers and Legendre functions", "why_tests_cant": "identity over all sizes and points", "anchors": ["src/diatomic/quadrature.cpp: twoe_element, twoe_integral"]}
{"id": "C63", "title": "Spherical potential of an element", "statement": "spherical_potential returns at every quadrature point the enclosed part of the pair density divided by the radius plus the 1/r moment of the part outside, within the element.", "quantifier": "every rule, basis, element away from r = 0, point and pair", "why_tests_cant": "identity over all rules and points", "anchors": ["libhelfem/src/quadrature.cpp: spherical_potential"]}
{"id": "C64", "title": "Range-separated integrals of an element pair", "statement": "Exchanging the two elements of a range-separated two-electron integral transposes the matrix, and the order of the functions within a pair does not matter.", "quantifier": "every pair of elements, rules and bases", "why_tests_cant": "identity over all sizes and points", "anchors": ["libhelfem/src/quadrature.cpp: erfc_integral"]}
{"id": "C65", "title": "Radial functions are B over r", "statement": "get_bf, get_df and get_lf return, in every element including the first one down to r = 0, the radial functions B(r)/r and their first and second derivatives, with one column per function of the element.", "quantifier": "every primitive family, element, radius and function", "why_tests_cant": "statement about derivatives at every point and for every node set", "anchors": ["libhelfem/src/RadialBasis.cpp: get_bf, get_df, get_lf", "libhelfem/src/FiniteElementBasis.cpp: eval_dnf, eval_over_r"]}
{"id": "C66", "title": "Functions join smoothly at element boundaries", "statement": "Every function of a finite element basis, and its derivatives up to the order of the family, has one value at a boundary between two elements; the constructor's continuity check accepts every such basis, and bounds the jumps of whatever it accepts.", "quantifier": "every family, node set, boundary list, coefficient vector and boundary", "why_tests_cant": "must hold for all bases and element sizes", "anchors": ["libhelfem/src/FiniteElementBasis.cpp: check_bf_continuity, eval_dnf"]}
{"id": "C67", "title": "Boundary conditions hold", "statement": "With zero_func (zero_deriv) set at an end of the domain every function of the basis has zero value (zero derivatives of every order the family carries) there.", "quantifier": "every family, node set, boundary list, flags and coefficient vector", "why_tests_cant": "must hold for all bases", "anchors": ["libhelfem/src/FiniteElementBasis.cpp: get_basis, eval_dnf", "libhelfem/include/HIPBasis.h: drop_first, drop_last"]}
{"id": "C68", "title": "Orbitals and densities at any radius", "statement": "eval_orbs returns zeros beyond the last boundary, throws for a negative radius and otherwise the expansion of the orbitals, whichever element containing the radius is used; nuclear_orbital, nuclear_density and nuclear_density_gradient are the value of the orbitals, the density and the slope of the density at r = 0, and matrices of the wrong size are rejected.", "quantifier": "every basis, coefficient or density matrix and radius", "why_tests_cant": "statement about all radii, limits at the origin", "anchors": ["libhelfem/src/RadialBasis.cpp: eval_orbs, nuclear_orbital, nuclear_density, nuclear_density_gradient"]}
{"id": "C69", "title": "One-electron radial matrices", "statement": "overlap() and kinetic() are the exact integrals of B_u B_v and 1/2 B_u' B_v' and positive definite; kinetic_l() is 1/2 R_u R_v, symmetric and positive semidefinite, and nuclear() is -r R_u R_v, symmetric and negative semidefinite, whatever orders the adaptive quadrature stops at.", "quantifier": "every basis below the order cap, every outcome of the convergence tests", "why_tests_cant": "quantifies over all bases and all coefficient vectors", "anchors": ["libhelfem/src/RadialBasis.cpp: overlap, kinetic, kinetic_l, nuclear, matrix_element", "libhelfem/src/FiniteElementBasis.cpp: matrix_element"]}
{"id": "C70", "title": "Confinement and off-centre potentials", "statement": "confinement_potential accepts exactly the documented parameters and returns the matrix of the polynomial ((r-s)/r0)^N, exponential, barrier or Junquera potential, integrated separately before and after its start; nuclear_offcenter rejects an element with the nucleus inside and otherwise returns the radial factor r_<^L / r_>^(L+1) of the multipole expansion.", "quantifier": "every basis, element and parameters", "why_tests_cant": "all parameters, all positions of the start of the potential", "anchors": ["libhelfem/src/RadialBasis.cpp: confinement_potential, polynomial_confinement, exponential_confinement, barrier_confinement, junq_confinement, nuclear_offcenter"]}
{"id": "C71", "title": "Arrays over all quadrature points", "statement": "radii, quadrature_weights, orbital, electron_density, its gradient and Laplacian share one layout: the nucleus first, then the points of every element in order; summing weights times r^2 density over the arrays is the quadrature over all elements.", "quantifier": "every number of elements and points, every density matrix", "why_tests_cant": "layouts over all sizes; two arrays must agree entry by entry", "anchors": ["src/sadatom/basis.cpp: radii, quadrature_weights, orbital, electron_density, electron_density_gradient, electron_density_laplacian"]}
{"id": "C72", "title": "Density derivatives", "statement": "The density gradient and Laplacian of a spherically averaged atom, and of a tabulated atom at any radius inside the grid, are the derivatives of the density the same object reports; the tabulated density is the occupation weighted sum of squared orbitals, zero outside of the grid; unknown elements and angular momenta are refused.", "quantifier": "every radius, every symmetric density matrix, every table", "why_tests_cant": "derivatives at a continuum of radii", "anchors": ["src/sadatom/basis.cpp: electron_density_gradient, electron_density_laplacian", "src/general/atomdb.cpp: density, density_gradient, density_laplacian"]}
{"id": "C73", "title": "Kinetic energy density", "statement": "kinetic_energy_density is half the sum over orbitals of occupation times (R'^2 + l(l+1) R^2 / r^2), and never below the radial part.", "quantifier": "every set of orbitals and occupations, every point", "why_tests_cant": "identity over all density matrices", "anchors": ["src/sadatom/basis.cpp: kinetic_energy_density"]}
{"id": "C74", "title": "Radius of the density maximum", "statement": "electron_density_maximum_radius returns a radius whose density no quadrature point exceeds by more than the stated slack, or throws; if the density has one peak next to the highest point, the radius is within half the tolerance of the peak.", "quantifier": "every density, with and without the r^2 weight, every tolerance", "why_tests_cant": "correctness of a golden section search for all unimodal densities", "anchors": ["src/sadatom/basis.cpp: electron_density_maximum_radius"]}
{"id": "C75", "title": "Model charges are screened charges", "statement": "The Green-Sellin-Zachor charge is the nuclear charge at the nucleus, never increases with the distance, stays between one and Z and tends to one; the Thomas-Fermi charge is the nuclear charge at the nucleus, is positive, never exceeds Z and tends to zero.", "quantifier": "every element with parameters (GSZ), every nonnegative Z (Thomas-Fermi) and every nonnegative radius", "why_tests_cant": "bounds and limits over all radii", "anchors": ["src/general/gsz.cpp: Z_GSZ, Z_thomasfermi"]}
{"id": "C76", "title": "Default orbital counts follow the shells", "statement": "num_orbs(Z1,Z2) returns, for each |m| from 0 to 3, the number of shells with l >= |m| that the two atoms occupy in the order of n+l then n.", "quantifier": "every pair of nuclear charges up to 118", "why_tests_cant": "a rule over all pairs against an independent definition of the filling order", "anchors": ["src/general/elements.cpp: num_orbs"]}
{"id": "C77", "title": "Finite nuclei are electrostatic potentials", "statement": "The uniformly charged and the Gaussian nucleus are -Z times the electrostatic potential of a spherical charge distribution of unit charge whose root mean square radius is the radius given to the factory.", "quantifier": "every charge, rms radius and distance", "why_tests_cant": "integral identities over a continuum", "anchors": ["libhelfemqc/src/SphericalNucleus.cpp: V", "libhelfemqc/src/GaussianNucleus.cpp: V"]}
{"id": "C78", "title": "Gaussian nucleus close to the origin", "statement": "The Gaussian nucleus is -Z erf(mu r)/r beyond the series cutoff; before it the series is above that value by at most the first neglected term; it is finite at the origin, never positive, never deeper than its value at the origin or than the point nucleus.", "quantifier": "every charge, width and radius", "why_tests_cant": "an error bound at every radius", "anchors": ["libhelfemqc/src/GaussianNucleus.cpp: V"]}
{"id": "C79", "title": "Regularized nucleus has its analytic ground state", "statement": "For every Z the regularized potential beyond the series cutoff has the nodeless r phi(Z r) as an exact solution of the radial equation with energy -Z^2/2, and the series used before the cutoff agrees with the closed form to eighth order in Z r.", "quantifier": "every charge, both parameters, every radius", "why_tests_cant": "a differential equation at every radius", "anchors": ["libhelfemqc/src/RegularizedNucleus.cpp: phi, V_analytic, V_taylor, V"]}
{"id": "C80", "title": "Regularized nucleus parameter search", "statement": "The constructor returns a parameter within five epsilon of one for which the model wave function is normalised by the quadrature rule, or throws; it never reads outside of its search grid.", "quantifier": "every smoothing parameter and quadrature rule", "why_tests_cant": "termination and soundness of a bracketing search", "anchors": ["libhelfemqc/src/RegularizedNucleus.cpp: find_b, phi_normalization"]}
{"id": "C81", "title": "Radial orbitals are normalised", "statement": "radial_STO and radial_GTO are square integrable with unit norm under r^2 dr.", "quantifier": "every angular momentum and positive exponent", "why_tests_cant": "an improper integral for every l and exponent", "anchors": ["src/general/lcao.cpp: radial_STO, radial_GTO"]}
{"id": "C82", "title": "Model atoms lie between nucleus and ion", "statement": "The Thomas-Fermi, GSZ and SAP potentials are attractive and never deeper than the bare nucleus; the GSZ potential is never weaker than that of a singly charged ion; a dummy centre has no potential; the finite element SAP atom reports every element boundary strictly inside the interval and nothing else.", "quantifier": "every element covered, every positive radius", "why_tests_cant": "bounds at every radius", "anchors": ["src/general/model_potential.cpp: TFAtom, GSZAtom, SAPAtom, SAPFEAtom"]}
{"id": "C83", "title": "Screened-kernel coefficients are exact", "statement": "Away from small radii Phi(n, X, x) is the coefficient of the n-th Legendre polynomial in the expansion of erfc(d)/d, d the distance of points at radii X and x; with one point at the origin it is that coefficient too.", "quantifier": "every order, every pair of radii with the smaller one at least 0.4 and the larger at least 0.5, and every radius against the origin", "why_tests_cant": "an integral identity for every order and all radii", "anchors": ["libhelfem/src/erfc_expn.cpp: Phi, Phi_general, Fn, Hn, Phi_short"]}
{"id": "C84", "title": "Extent of Slater and Gaussian primitives", "statement": "The radius chosen for a primitive lies beyond its maximum, the primitive stays below tol times its maximum from there on, and the radius is the smallest with that property to 1e-12 relative to the position of the maximum; a contracted function is then below tol times the sum of its primitives' maxima.", "quantifier": "every power, exponent and tolerance a floating point number can hold", "why_tests_cant": "a tail bound at every radius and the termination of the search", "anchors": ["libhelfemqc/include/STO.h: primitive_r_extent, eval_u", "libhelfemqc/include/GTO.h: primitive_r_extent, eval_u"]}
{"id": "C85", "title": "Projection of Slater and Gaussian bases", "statement": "make_nao_sto and make_nao_gto accept exactly the valid basis lists and throw otherwise; the element boundaries increase strictly from zero to the largest primitive extent; every column of coefficients solves the overlap equations for its function, which makes it the best approximation in the span of the elements and exact for functions of that span.", "quantifier": "every list of contracted functions, tolerance, number of elements and nodes", "why_tests_cant": "a statement about all inputs and all competing approximations", "anchors": ["libhelfemqc/include/STO.h: make_nao_sto", "libhelfemqc/include/GTO.h: make_nao_gto", "libhelfem/src/FiniteElementBasis.cpp: vector_element"]}
{"id": "C86", "title": "Slater and Gaussian primitives are normalised", "statement": "Every primitive of make_nao_sto and make_nao_gto has unit self overlap on the half line.", "quantifier": "every power and positive exponent", "why_tests_cant": "an improper integral for every power and exponent", "anchors": ["libhelfemqc/include/STO.h: primitive_norm", "libhelfemqc/include/GTO.h: primitive_norm, I"]}
{"id": "C87", "title": "Legendre cache is transparent", "statement": "Whatever computations a Legendre cache has served since it was pointed at an |M| run, and in whatever order, every further computation that reads P_L or Q_L of the run at points from 1 upwards gets the values of the functions themselves (subnormal values as zero, Q at 1 as zero); a multipole above the largest of the run is outside of the stored column.", "quantifier": "every history of computations and resets, every order of requests", "why_tests_cant": "quantifies over histories of a memoising cache", "anchors": ["src/diatomic/quadrature.h: MLegendreCache"]}
{"id": "C88", "title": "Coulomb matrix of a diatomic", "statement": "coulomb(P) of a diatomic basis is sum over u, v of (rt|uv) P(u,v), with (rt|uv) the sum over all multipoles both pairs of shells couple to of the prolate spheroidal expansion of 1/r12 with the computed radial integrals; it throws before the integrals are computed and for a density of the wrong size.", "quantifier": "every basis, density, schedule of the integral computation", "why_tests_cant": "contraction of all index combinations through packed factors and disjoint element products, for all sizes", "anchors": ["src/diatomic/basis.cpp: coulomb, compute_tei, build_LMfac_abs"]}
{"id": "C89", "title": "Exchange matrix of a diatomic", "statement": "exchange(P) of a diatomic basis is minus the sum over u, v of (ur|tv) P(u,v) over the density with its negligible angular blocks left out, in whatever order the pairs of angular shells are processed; with the m -> -m shortcut switched on it is the same for densities that are equal for m and -m and do not mix m.", "quantifier": "every basis, density, order of the parallel loop, setting of the shortcut", "why_tests_cant": "bucketed, parallel and mirrored evaluation must agree with the definition for all bases and orders", "anchors": ["src/diatomic/basis.cpp: exchange, set_absm_symmetric"]}
{"id": "C90", "title": "Two-electron matrices are symmetric", "statement": "For symmetric densities the Coulomb and exchange matrices of a diatomic basis are symmetric, and the Coulomb repulsion tr P' J(P) of two symmetric densities equals tr P J(P').", "quantifier": "every basis and pair of symmetric densities", "why_tests_cant": "identity for all densities and basis sizes", "anchors": ["src/diatomic/basis.cpp: coulomb, exchange"]}
{"id": "C91", "title": "Exchange-correlation quadrature of an atom", "statement": "The energy, electron number, kinetic energy and Fock matrices returned by the exchange-correlation grid of an atom are the weighted sums over the grid points of what libxc returns for the density, its reduced gradients, kinetic energy density and Laplacian there, however the elements are divided over threads and however the threads interleave; every thread ends.", "quantifier": "every basis, angular rule, functional, density matrix, division over threads and interleaving", "why_tests_cant": "no test explores all interleavings of the additions to the shared matrix, nor all bases and functionals", "anchors": ["src/atomic/dftgrid.cpp: DFTGrid::eval_Fxc, DFTGridWorker::compute_bf, update_density, eval_Fxc", "src/general/dftgrid_common.h", "src/general/dftgrid_common.cpp: compute_xc"]}
{"id": "C92", "title": "The Fock matrix is the gradient of the energy", "statement": "The exchange-correlation Fock matrix of an atom is symmetric, and its contraction with any symmetric change of the density matrix is the derivative of the reported exchange-correlation energy, provided libxc returns derivatives of its energy density.", "quantifier": "every basis, functional, density matrix and direction", "why_tests_cant": "finite differences check a few directions and functionals, not all", "anchors": ["src/atomic/dftgrid.cpp: DFTGrid::eval_Fxc", "src/general/dftgrid_common.h: increment_lda, increment_gga, increment_mgga_kin, increment_mgga_lapl_split"]}
{"id": "C93", "title": "Closed shells", "statement": "For a functional with the right spin symmetry, the unrestricted exchange-correlation routine called with half of the density for each spin returns the energy, electron number, kinetic energy and, for each spin, the Fock matrix of the restricted routine.", "quantifier": "every basis, functional and density matrix", "why_tests_cant": "equality of two separately written code paths for all inputs", "anchors": ["src/atomic/dftgrid.cpp: DFTGrid::eval_Fxc (both overloads), update_density"]}
{"id": "C94", "title": "libxc sees physical densities", "statement": "For density matrices of orbitals with non-negative occupations the exchange-correlation results depend only on what libxc returns for arguments with non-negative density, kinetic energy density and sigma, sigma at most 8 n tau, and a mixed sigma bounded by the sigmas of both spins.", "quantifier": "every basis, set of orbitals and occupations", "why_tests_cant": "inequality over all densities", "anchors": ["src/atomic/dftgrid.cpp: update_density", "src/general/dftgrid_common.cpp: compute_xc"]}
{"id": "C95", "title": "Exchange-correlation quadrature of a diatomic", "statement": "The energy, electron number, kinetic energy and Fock matrices returned by the exchange-correlation grid of a diatomic molecule are the weighted sums over the points of the prolate spheroidal grid of what libxc returns there, in the basis without the functions removed at the axis; functionals of the Laplacian and densities of the wrong size are refused.", "quantifier": "every basis, bond length, angular rule, functional and density matrix", "why_tests_cant": "identity for all sizes and inputs", "anchors": ["src/diatomic/dftgrid.cpp: DFTGrid::eval_Fxc, DFTGridWorker::compute_bf, update_density, eval_Fxc", "src/diatomic/basis.cpp: expand_boundaries, remove_boundaries, eval_bf, eval_df"]}
{"id": "C96", "title": "Consistency of the diatomic exchange-correlation matrices", "statement": "The exchange-correlation Fock matrices of a diatomic are symmetric and are the derivatives of the reported energy, restricted and unrestricted routines agree for closed shells, and libxc is only asked for physical arguments, as for atoms.", "quantifier": "every basis, bond length, functional, density matrix and direction", "why_tests_cant": "finite differences check a few directions and functionals, not all", "anchors": ["src/diatomic/dftgrid.cpp: DFTGrid::eval_Fxc (both overloads)"]}
{"id": "C97", "title": "Exchange-correlation quadrature for definite m", "statement": "For a diatomic molecule whose orbitals have a definite m the grid with analytic phi integration returns the energy, electron number, kinetic energy and Fock matrices that follow from the part of the density that does not mix m by summation over the points of a half plane times 2 pi, for every kind of functional including those of the Laplacian; Fock matrix elements between different m are zero; the shortcut that takes the density of -m from that of m does not change the result for densities with that symmetry; empty densities and densities of the wrong size are refused.", "quantifier": "every basis, bond length, rule in nu, functional and density matrix, with and without the shortcut", "why_tests_cant": "identity for all sizes and inputs, of code that visits only half of the blocks", "anchors": ["src/diatomic/dftgrid_purem.cpp: PureMDFTGrid::eval_Fxc, PureMDFTGridWorker::compute_bf, update_density, mirror_block, eval_Fxc"]}
{"id": "C98", "title": "Consistency of the exchange-correlation matrices for definite m", "statement": "The exchange-correlation Fock matrices of the grid with analytic phi integration are symmetric and are the derivatives of the reported energy, also for functionals of the Laplacian, restricted and unrestricted routines agree for closed shells, and libxc is only asked for physical arguments.", "quantifier": "every basis, bond length, functional, density matrix and direction, with and without the shortcut", "why_tests_cant": "finite differences check a few directions and functionals, not all", "anchors": ["src/diatomic/dftgrid_purem.cpp: PureMDFTGrid::eval_Fxc (both overloads)"]}
{"id": "C99", "title": "The two diatomic grids agree", "statement": "For a density that does not mix m, the exchange-correlation grid with analytic phi integration returns the energy, electron number, kinetic energy and Fock matrices of the three-dimensional grid, if both have the same nodes in nu and the latter has more points around the axis than the largest difference of m.", "quantifier": "every basis, bond length, rule in nu, number of points around the axis, functional both accept and m-diagonal density", "why_tests_cant": "equality of two separately written implementations for all inputs", "anchors": ["src/diatomic/dftgrid_purem.cpp: PureMDFTGrid::eval_Fxc", "src/diatomic/dftgrid.cpp: DFTGrid::eval_Fxc", "src/general/angular.cpp: compound_rule"]}
{"id": "C100", "title": "Exchange-correlation quadrature of a spherical atom", "statement": "The energy, electron number and Fock matrices returned by the exchange-correlation grid of a spherically averaged atom are the weighted sums over the radial points of what libxc returns for the density, its radial gradient, Laplacian and kinetic energy density there, for every l, however the elements are divided over threads and however the threads interleave; a functional libxc does not know is refused.", "quantifier": "every basis, functional, set of density matrices, division over threads and interleaving", "why_tests_cant": "no test explores all interleavings of the additions to the shared matrices, nor all bases and densities", "anchors": ["src/sadatom/dftgrid.cpp: DFTGrid::eval_Fxc (both overloads), DFTGridWorker::update_density, eval_Exc, eval_Fxc, compute_bf"]}
{"id": "C101", "title": "The Fock matrices of a spherical atom are the gradient of the energy", "statement": "The exchange-correlation Fock matrices of a spherically averaged atom are symmetric, and their contraction with any symmetric change of the density matrices is the derivative of the reported energy, provided libxc returns derivatives of its energy density and the angular part of the kinetic energy density is positive or does not change.", "quantifier": "every basis, functional, set of density matrices and direction", "why_tests_cant": "finite differences check a few directions and functionals, not all", "anchors": ["src/sadatom/dftgrid.cpp: DFTGrid::eval_Fxc (both overloads), DFTGridWorker::update_density, eval_Fxc"]}
{"id": "C102", "title": "Consistency of the quadrature of spherical atoms", "statement": "For a spherically averaged atom the unrestricted exchange-correlation routine called with half of the densities for each spin returns the result of the restricted routine, and for densities of orbitals libxc is only asked for arguments with non-negative density, kinetic energy density and sigma and sigma at most 8 n tau.", "quantifier": "every basis, functional, set of orbitals and occupations", "why_tests_cant": "equality of two separately written code paths, and an inequality, for all inputs", "anchors": ["src/sadatom/dftgrid.cpp: DFTGrid::eval_Fxc (both overloads), DFTGridWorker::update_density"]}
{"id": "C103", "title": "The two atomic grids agree", "statement": "For an atom whose orbitals are occupied equally for every m, the three-dimensional exchange-correlation grid of atoms returns the energy and electron number of the radial grid of spherically averaged atoms, and its Fock matrix averaged over m is the radial one.", "quantifier": "every basis with full shells, every angular rule of total weight 4 pi with no point on the z axis, every functional and set of density matrices", "why_tests_cant": "equality of two separately written implementations for all inputs", "anchors": ["src/sadatom/dftgrid.cpp: DFTGrid::eval_Fxc", "src/atomic/dftgrid.cpp: DFTGrid::eval_Fxc"]}
{"id": "C104", "title": "Two-electron matrices of a spherical atom", "statement": "Whatever integrals a spherically averaged basis was asked to compute before, and in whatever order its parallel loop runs, coulomb(P) and exchange(P) are the contractions of the Coulomb integrals with the density, the latter with the squared Gaunt couplings averaged over m; rs_exchange(P) is that of the range separation asked for last; each throws before its integrals exist, for the wrong number of densities and for a first density of the wrong size; slater_F returns the Slater integral of an orbital.", "quantifier": "every basis, sequence of integral computations, set of densities and order of the parallel loop", "why_tests_cant": "quantifies over histories and schedules", "anchors": ["src/sadatom/basis.cpp: compute_tei, compute_yukawa, compute_erfc, coulomb, exchange, rs_exchange, slater_F"]}
{"id": "C105", "title": "Spherical atoms agree with general atoms", "statement": "For densities that are equal for every m of an l, the exchange and range-separated exchange matrices of a spherically averaged basis are those of the atomic basis averaged over m, and the Coulomb matrix is every diagonal block of the atomic one; for any densities the maps from densities to these matrices are symmetric, so that they derive from an energy.", "quantifier": "every basis with full shells, sequence of integral computations and set of densities", "why_tests_cant": "equality of two separately written implementations for all inputs", "anchors": ["src/sadatom/basis.cpp: coulomb, exchange, rs_exchange", "src/atomic/TwoDBasis.cpp: coulomb, exchange, rs_exchange"]}
{"id": "C106", "title": "Overlap matrices", "statement": "overlap() of an atomic or diatomic basis is the matrix of the integrals of the products of its functions, in the right volume element, and overlap(rh) is that of the functions of two bases, whatever shells each of them has.", "quantifier": "every basis and every pair of bases", "why_tests_cant": "for all shell lists and radial bases", "anchors": ["src/atomic/TwoDBasis.cpp: overlap", "src/diatomic/basis.cpp: TwoDBasis::overlap", "src/general/radial_block_helper.h: assemble_radial_diagonal"]}
{"id": "C107", "title": "Kinetic energy matrices", "statement": "kinetic() is block diagonal over the shells (l,m), with the radial kinetic energy and the centrifugal terms l(l+1) and, for diatomic bases, m^2 with the right factors.", "quantifier": "every basis with distinct shells", "why_tests_cant": "for all shell lists and radial bases", "anchors": ["src/atomic/TwoDBasis.cpp: kinetic", "src/diatomic/basis.cpp: TwoDBasis::kinetic"]}
{"id": "C108", "title": "Nuclear attraction matrices", "statement": "nuclear() is the matrix of the attraction of the nuclei at their places: for an atomic basis a point nucleus at the origin and point charges at -Rhalf and Rhalf on the axis with every multipole that couples two shells, for a diatomic basis two point nuclei. The result does not depend on the order in which parallel iterations run. If the integrals of the off-centre charges throw, the program is terminated.", "quantifier": "every basis, charges and order of the parallel iterations", "why_tests_cant": "quantifies over schedules and all angular momenta", "anchors": ["src/atomic/TwoDBasis.cpp: nuclear", "src/diatomic/basis.cpp: TwoDBasis::nuclear"]}
{"id": "C109", "title": "Off-centre charges with a finite nucleus", "statement": "With a finite nuclear model, nuclear() is the attraction of the extended nucleus and of the off-centre charges.", "quantifier": "every basis, nuclear model and charges", "why_tests_cant": "a missing term shows only for the combination of both options", "anchors": ["src/atomic/TwoDBasis.cpp: nuclear", "src/atomic/main.cpp: main"]}
{"id": "C110", "title": "Electric moment matrices", "statement": "dipole_z() and quadrupole_zz() are the matrices of z and of (3z^2-r^2)/2 of atomic and diatomic bases.", "quantifier": "every basis", "why_tests_cant": "for all shell lists and radial bases", "anchors": ["src/atomic/TwoDBasis.cpp: dipole_z, quadrupole_zz", "src/diatomic/basis.cpp: TwoDBasis::dipole_z, quadrupole_zz"]}
{"id": "C111", "title": "Magnetic field matrices", "statement": "Bz_field(B) is the matrix of B^2 (x^2+y^2)/8 - B m/2 of atomic and diatomic bases.", "quantifier": "every basis and field", "why_tests_cant": "for all shell lists, radial bases and field strengths", "anchors": ["src/atomic/TwoDBasis.cpp: Bz_field", "src/diatomic/basis.cpp: TwoDBasis::Bz_field"]}
{"id": "C112", "title": "Radial potentials", "statement": "model_potential(pot) and confinement(...) are block diagonal over the shells with the radial integrals of the potential in every block; without confinement the matrix is zero.", "quantifier": "every basis with distinct shells and every potential", "why_tests_cant": "for all shell lists and potentials", "anchors": ["src/atomic/TwoDBasis.cpp: model_potential, confinement"]}
{"id": "C113", "title": "Exchange-correlation screening of spherical atoms", "statement": "sadatom TwoDBasis::xc_screening returns r times the exchange-correlation potential of each spin at every radial point (zero at the nucleus); the potential is the density derivative minus the divergence of the gradient flux. Meta-GGAs are rejected with an exception. (Refuted for GGAs in the unchanged code: the full Laplacian is used where the second derivative is needed, and the derivative of the up-down product counts twice.)", "quantifier": "every basis, density matrix, functional pair and radial point", "why_tests_cant": "for all densities and functionals; a sampled potential curve looks plausible with both errors", "anchors": ["src/sadatom/basis.cpp: TwoDBasis::xc_screening"]}
{"id": "C114", "title": "Screening of tabulated atoms", "statement": "atomdb::Atom::xc_screening does not depend on earlier calls although it stores functional handles, equals the grid routine at the quadrature points, and effective_charge is Z at the nucleus and Z minus the number of electrons outside of the grid. (Refuted for GGAs: the value is not r times the potential.)", "quantifier": "every tabulated atom, every sequence of calls with any functionals and radii", "why_tests_cant": "for all call histories including rejected functionals in between", "anchors": ["src/general/atomdb.cpp: XCFunctionals, Atom::xc_screening, Atom::effective_charge"]}
{"id": "C115", "title": "Extraction of numerical orbitals per l", "statement": "extract_naos_per_l returns, in order of l, one basis for every l whose entry is not zero, holding its first keep orbitals (all for a negative entry), and throws if the list has the wrong length or asks for more orbitals than there are.", "quantifier": "every orbital cube and keep list", "why_tests_cant": "for all sizes and keep lists, also negative ones", "anchors": ["src/sadatom/basis.cpp: extract_naos_per_l"]}
{"id": "C116", "title": "Modified Gauss-Chebyshev rule on [-1,1]", "statement": "chebyshev(n) returns n increasing nodes inside (-1,1), antisymmetric about 0, with positive symmetric weights; it is the trapezoidal rule of one fixed change of variable, integrates affine functions exactly for n >= 2 and converges to the integral of every continuous function. (For n = 1 the weight is 8/3 and constants are not integrated exactly.)", "quantifier": "every number of points, every continuous integrand", "why_tests_cant": "for all n and all integrands; convergence is a limit statement", "anchors": ["libhelfem/include/chebyshev.h: chebyshev"]}
{"id": "C117", "title": "Modified Gauss-Chebyshev rule on the half line", "statement": "radial_chebyshev(n) returns increasing positive radii with positive weights that form the trapezoidal rule of one fixed increasing unbounded map of (0,pi) onto the half line; for n >= 2 it integrates a 2^-r + b 4^-r exactly.", "quantifier": "every number of points", "why_tests_cant": "for all n; a wrong Jacobian is small for few sampled integrands", "anchors": ["libhelfem/include/chebyshev.h: radial_chebyshev"]}
{"id": "C118", "title": "Model-potential matrix of a diatomic molecule", "statement": "TwoDGrid::model_potential returns the symmetric matrix whose (i,j) element is, for functions of equal m, the quadrature sum of [V_left(distance from the left nucleus) + V_right(distance from the right nucleus)] times the product of the two functions with the full volume element, and zero for different m; values that are not finite are skipped.", "quantifier": "every consistent diatomic basis, angular rule size, bond length and pair of potentials", "why_tests_cant": "all bases, sizes and potentials; a swapped nucleus is invisible for homonuclear test molecules", "anchors": ["src/diatomic/twodquadrature.cpp: TwoDGrid::model_potential, TwoDGridWorker::compute_bf, model_potential, eval_pot", "src/diatomic/basis.cpp: eval_bf"]}
{"id": "C119", "title": "Projection of nuclear-centred Gaussian and Slater functions", "statement": "gto_projection and sto_projection return, for every exponent and every basis function of the requested m, the quadrature sum of the radial function at the true distance from the chosen nucleus times the Legendre function of the true polar angle about it times the basis function; zero for other m. With the probe in the middle of the bond this holds only without angular dependence: the code then uses the angle of the elliptic coordinate.", "quantifier": "every basis, rule size, l, m, exponents and probe", "why_tests_cant": "all geometries and angular momenta; the wrong angle in the middle only appears for l > 0 off the bond axis", "anchors": ["src/diatomic/twodquadrature.cpp: gto_projection, sto_projection, ao_projection, multiply_Plm, eval_proj"]}
{"id": "C120", "title": "Overlap of projected functions", "statement": "gto_overlap and sto_overlap return the quadrature overlap of the projected functions; it is symmetric and positive semidefinite, and the square of every projection is bounded by the overlap times the norm of the basis function.", "quantifier": "every basis with non-negative radial weights, every list of exponents", "why_tests_cant": "an inequality over all exponents and coefficient vectors", "anchors": ["src/diatomic/twodquadrature.cpp: gto_overlap, sto_overlap, eval_proj_overlap"]}
{"id": "C121", "title": "Atomic orbitals for diatomic guesses", "statement": "For every element up to 118 compute_atoms freezes non-negative occupations that add up to the nuclear charge; atomic_projection projects exactly as many orbitals of each l as hold the electrons, returns an empty matrix for unoccupied l, throws for the middle probe, and a nucleus of charge zero keeps what was stored before. The alpha and beta electron numbers passed along are one electron short for odd charges.", "quantifier": "every element, angular momentum, probe and stored state", "why_tests_cant": "all 118 elements and all stored states; heavy elements are never run in tests", "anchors": ["src/diatomic/twodquadrature.cpp: pbe_ground_states, compute_atoms, atomic_projection"]}
{"id": "C122", "title": "Atomic Fock matrices are the gradient of the energy (restricted)", "statement": "For every restricted spherically averaged atom, the energy returned by the Fock builder of run_atomic_scf, moved along any change of the orbitals and occupations of all l blocks, has as derivative the sum over orbitals of dn c^T F c + n (dc^T F c + c^T F dc) with the Fock matrices returned at the start, with confinement, exact and range-separated exchange and a functional.", "quantifier": "every basis, number of l blocks, set of orbitals, occupations and direction", "why_tests_cant": "a derivative identity over all orbitals and directions; converged runs only see the stationary point", "anchors": ["src/sadatom/scf.cpp: run_atomic_scf, build_fock, accumulate_density, build_fock_block"]}
{"id": "C123", "title": "Atomic Fock matrices are the gradient of the energy (spin-polarised)", "statement": "In a spin-polarised atom with beta electrons the energy has the gradient predicted by the alpha and beta Fock matrices; without beta electrons the same holds for alpha, but not for beta, whose Fock matrices then lack the exchange-correlation potential.", "quantifier": "every basis, number of l blocks, orbitals, occupations and direction of both spins", "why_tests_cant": "all densities; one-electron systems are only compared by their total energy, which the empty channel does not enter", "anchors": ["src/sadatom/scf.cpp: run_atomic_scf, build_fock"]}
{"id": "C124", "title": "Closed-shell atoms in both drivers", "statement": "A restricted calculation and a spin-polarised one with the same orbitals and half of the occupations give the same energy and the same Fock matrix for every l and both spins.", "quantifier": "every pair of atoms that differ in the treatment of spin only, all orbitals and occupations", "why_tests_cant": "all bases and occupations, including fractional ones", "anchors": ["src/sadatom/scf.cpp: run_atomic_scf, build_fock"]}
{"id": "C125", "title": "Initial guess and batched Fock builds", "statement": "The core guess is the Fock matrix of the atom without electrons; guesses 0 to 4 exist and all other numbers throw std::logic_error; the batched builder returns the results of the single builds in the order of the input, whatever the order of evaluation; a block without orbitals is undefined behaviour.", "quantifier": "every atom, guess number, batch and order of evaluation", "why_tests_cant": "all interleavings of the parallel loop and all integers", "anchors": ["src/sadatom/scf.cpp: run_atomic_scf, batched_fock_builder, guess switch"]}
{"id": "C126", "title": "Frozen occupations per angular momentum", "statement": "If the given lists have one entry per l, for both spins in a spin-polarised run, the solver gets exactly them; it gets none exactly if no list has that length. If only one spin is given the other one is frozen at zero electrons, although the options promise to pin the corresponding channel only.", "quantifier": "every pair of lists and number of blocks", "why_tests_cant": "all lengths of both lists; callers in the tests always pass both", "anchors": ["src/sadatom/scf.cpp: run_atomic_scf, freeze_a, freeze_b", "src/sadatom/scf.h: fixed_per_l_a, fixed_per_l_b"]}
{"id": "C127", "title": "Saved state of an atom", "statement": "The total density of the results contains exactly the electrons of all blocks; the orbitals written for each l reproduce the density of that l and contain no empty orbital; the electron numbers written are the nearest integers, exact for integer occupations.", "quantifier": "every basis with a half-inverse overlap, all orthonormal orbitals and real occupations", "why_tests_cant": "all occupations, including fractional ones", "anchors": ["src/sadatom/scf.cpp: extract_channel, build_cube, write_orbitals, occs_a, occs_b"]}
{"id": "C128", "title": "Restarting an atom from a saved state", "statement": "Loaded blocks have orthonormal orbitals and descending occupations within the shell. A state saved in an orthonormal basis with integer electron numbers per l is loaded unchanged. Otherwise it is not: with overlap S = (X X^T)^-1 the density X X^T P X X^T is loaded; half an electron comes back as one; a change between restricted and spin-polarised loses electrons; a different boundary condition makes the matrices not fit; Chebyshev nodes are rebuilt as Gauss-Lobatto nodes.", "quantifier": "every file, basis, overlap and eigensolver that returns eigensystems", "why_tests_cant": "all files and bases; a distorted starting density converges to the same energy and goes unnoticed", "anchors": ["src/sadatom/scf.cpp: fill_l, load path of run_atomic_scf"]}
{"id": "C129", "title": "Shape of the Gauss-Lobatto rule", "statement": "lobatto_compute throws std::runtime_error exactly for n < 2. When it returns, the n nodes start at exactly -1 and end at exactly 1, the first and last weights are exactly 2/(n(n-1)), the nodes are antisymmetric and the weights symmetric about the middle, and every weight is positive, whatever the tolerance and however many Newton steps were taken.", "quantifier": "every order n, tolerance and number of Newton passes", "why_tests_cant": "all orders; the symmetry is an invariant of every pass of the iteration", "anchors": ["libhelfem/include/lobatto.h: lobatto_compute"]}
{"id": "C130", "title": "Exactness of the Gauss-Lobatto rule", "statement": "The returned nodes are one exact Newton step x = y + (1-y^2) P'_{n-1}(y) / (n (n-1) P_{n-1}(y)) from nodes y that satisfy |(1-y^2) P'_{n-1}(y)| <= tol n (n-1) |P_{n-1}(y)| and lie within tol of them. If the last step moved nothing, the returned nodes are the ends and extrema of P_{n-1}, and if they are distinct the rule integrates every polynomial of degree at most 2n-3 exactly over [-1,1] and fails for P_{n-1}^2; it then is the rule that the exactness theorems of the radial matrices assume.", "quantifier": "every order n and every polynomial", "why_tests_cant": "infinitely many orders and polynomials", "anchors": ["libhelfem/include/lobatto.h: lobatto_compute"]}
{"id": "C131", "title": "Modified spherical Bessel functions of the first kind", "statement": "bessel_il has the parity (-1)^L for every argument. For |r| < 1/2 the value of the truncated Taylor loop is within a relative error of eps/2300 of the exact series sum_k r^(L+2k)/(2^k k! (2L+2k+1)!!), the loop limit of 255 passes never mattering for any eps above 100/24^255; the series is sinh(x)/x for L = 0, (x cosh x - sinh x)/x^2 for L = 1, and satisfies the three-term recurrence of i_L. The vector overload works element by element.", "quantifier": "every L >= 0, every argument, every machine epsilon", "why_tests_cant": "a truncation bound over a continuum of arguments and all orders", "anchors": ["libhelfem/include/math.h: bessel_il"]}
{"id": "C132", "title": "Inverse hyperbolic functions", "statement": "arcosh is non-negative, cosh(arcosh(x)) = max(x, 1) for every x so arguments rounded below one give zero, and arcosh(cosh(mu)) = mu for mu >= 0; arsinh and sinh are inverse to each other; the vector overloads work element by element.", "quantifier": "every real argument and every vector", "why_tests_cant": "all arguments, including those below one", "anchors": ["libhelfem/include/math.h: arcosh, arsinh"]}
{"id": "C133", "title": "Choice of the density functionals", "statement": "parse_xc_func splits at the first dash; a string a-b gives exactly the pair of what a and b give alone, and without a dash there is no second functional. none gives 0 and hf or hyb_x_hf give -1 in any case of letters; a numeral gives its value, whatever follows the digits; any other name gives the number of libxc. Whatever is returned is 0, -1 or a functional that libxc can initialise and that is not a kinetic energy functional; unknown names, unknown numbers and kinetic functionals throw std::runtime_error and nothing else is thrown. That the two places hold an exchange and a correlation functional is not checked (refuted).", "quantifier": "every string, every libxc", "why_tests_cant": "all strings and all tables of functionals", "anchors": ["src/general/dftfuncs.cpp: find_func, parse_xc_func, get_keyword"]}
{"id": "C134", "title": "Classification of density functionals", "statement": "For every functional that libxc knows the four kinds answer consistently: exchange-correlation implies exchange, correlation excludes exchange, kinetic excludes all. range_separation succeeds exactly for the functionals that is_supported accepts and throws std::logic_error for the rest; unless is_range_separated says so omega and beta vanish and alpha is what exact_exchange returns; Hartree-Fock has alpha = 1. The interface of libxc 7 and that of libxc 8 lead to the same answers when the flags agree with the hybrid type. An unknown identifier throws from all nine functions, and needs_VV10 answers yes exactly for flagged functionals, with their coefficients, and otherwise leaves zeros.", "quantifier": "every identifier, every libxc, both interfaces", "why_tests_cant": "all tables of functionals and both versions of the library", "anchors": ["src/general/dftfuncs.cpp: is_exchange, is_exchange_correlation, is_correlation, is_kinetic, exact_exchange, is_supported, is_range_separated, range_separation, needs_VV10"]}
{"id": "C135", "title": "Reading a table of integers", "statement": "read_raw_ascii_imat returns, for a text of any lines, one row per line with at least one integer; a line means its integers up to the first thing that is not an integer or does not fit an int. All rows then have the same length and std::runtime_error is thrown exactly when they do not. That a file read without error consists of integers is refuted: anything after the first non-number of a line is dropped silently.", "quantifier": "every text, with or without a last newline", "why_tests_cant": "all texts, signs, blanks and numbers", "anchors": ["src/general/eigen_io.h: read_raw_ascii_imat"]}
{"id": "C136", "title": "Frozen occupations from occs.dat", "statement": "When --readocc succeeds in the atomic or the diatomic driver, the columns of the table sum to nela and nelb, the number of columns fits the symmetry, restricted runs have equal columns, blocks not named in the file get zero; and if no block is named twice every row is found at the block made of exactly the functions with its labels and the frozen numbers add up to nela and nelb. Non-negative rows that name existing blocks with the right sums are accepted. That the frozen numbers always add up is refuted: a block named twice keeps its last row while both are counted; negative numbers pass as well.", "quantifier": "every basis, symmetry, file and number of electrons, both drivers", "why_tests_cant": "all bases and files", "anchors": ["src/atomic/main.cpp: --readocc", "src/diatomic/main.cpp: --readocc"]}
{"id": "C137", "title": "Electron density along a line", "statement": "density_line turns every point (x,y,z) into prolate spheroidal coordinates with mu >= 0 and -1 <= eta <= 1 that give the point back, with Rhalf(cosh mu + eta) and Rhalf(cosh mu - eta) the distances to the nuclei, so the clamp of eta never acts in exact arithmetic. For a mesh from zero with fitting index ranges the table never throws, has Nz rows at equally spaced z, zero densities beyond the mesh, and total = alpha + beta. The density of orbitals is the sum of their squared moduli, positive semidefinite density matrices give non-negative densities, and density matrices that do not couple different m give the same table at every angle around the axis.", "quantifier": "every point, half bond length, mesh, basis and density matrix", "why_tests_cant": "all points and bases", "anchors": ["src/diatomic/density_line.cpp: main"]}
{"id": "C138", "title": "Basis functions of a diatomic molecule at a point", "statement": "eval_bf(mu, cth, phi) throws std::logic_error exactly when mu is outside the mesh; otherwise mu lies in the element used, the reference coordinate is in [-1,1] and maps back to mu, and entry by entry the result is radial function times spherical harmonic for the functions in the pure order, zero for radial functions outside the element. Spherical harmonics obey Y(l,-m) = (-1)^m conj Y(l,m), are periodic in phi and have a modulus without phi.", "quantifier": "every mesh, list of shells, radial basis and point", "why_tests_cant": "all points, shells and meshes", "anchors": ["src/diatomic/basis.cpp: TwoDBasis::eval_bf(double, double, double)", "src/general/spherical_harmonics.cpp: spherical_harmonics"]}
{"id": "C139", "title": "The timer as a stopwatch", "statement": "When stop is only called while the timer runs and cont only while it is stopped, and the timer runs when it is asked, get returns exactly the time a stopwatch would show. Right after stop, get returns that time plus the time since the last start. With a clock that never goes back get is never negative, whatever is called. That the timer behaves as a stopwatch for every sequence of calls is refuted: after stop the last run is counted twice, and cont on a running timer forgets the run.", "quantifier": "every sequence of calls and readings of the clock", "why_tests_cant": "all sequences of calls", "anchors": ["src/general/timer.cpp: Timer::stop, Timer::cont, Timer::set, Timer::get"]}
{"id": "C140", "title": "Times in words", "statement": "For every non-negative time below 2^64 seconds, parse returns the text of days, hours below 24, minutes below 60 and seconds with two decimals, parts that are zero left out and separated by one blank, that is within half a hundredth of a second of the time. That the seconds printed are below sixty is refuted by 59.999; that elapsed() is always defined is refuted by a clock set back one minute.", "quantifier": "every time", "why_tests_cant": "all times", "anchors": ["src/general/timer.cpp: Timer::parse, Timer::elapsed"]}
{"id": "C141", "title": "Electron density on a grid", "statement": "density_grid runs over elements, directions and nodes, in this order, and for every point stores the coordinates, the quadrature weight, the volume element Rhalf^3 sinh(mu)(cosh^2 mu - cos^2 theta) times the weight, and the values of the orbitals and of Sinv T applied to them; the values are those of eval_bf at the point, although only the functions of the element are used, and the densities are the sums of squared moduli. The indexing checks never fail. That the program runs for every checkpoint is refuted when Eigen's assertions are compiled in: the rows for the beta kinetic energy have all the columns of Cb, so any checkpoint with empty beta orbitals and at least one beta electron hits a size assertion; without assertions, as in the default build type, the result is right.", "quantifier": "every conforming basis, quadrature with inner nodes, directions and orbitals", "why_tests_cant": "all bases and grids; release builds hide the assertion", "anchors": ["src/diatomic/density_grid.cpp: main"]}
{"id": "C142", "title": "Integrals over the density grid", "statement": "With non-negative weights and |cos theta| <= 1 all densities and volume elements are non-negative, the printed norms are non-negative and equal the sums of the diagonals of the orbital overlaps on the grid, and the overlaps are Hermitian.", "quantifier": "every conforming basis, grid and orbitals", "why_tests_cant": "all grids", "anchors": ["src/diatomic/density_grid.cpp: main"]}
{"id": "C143", "title": "Jellium background: angular momentum, geometry, potential and energies", "statement": "consistent_lmax returns the number of tabulated magic numbers not above njellium and throws exactly from 99284 on; it is monotone. The shell radii satisfy 0 <= r_inner <= r_outer and enclose exactly njellium charges, so the check of the background charge never throws. The negative of the background potential obeys Gauss' law at every positive radius, kinks included, Coulomb's law outside, and is continuous in the centre. The background repulsion is half the integral of the charge density times that potential, is never negative, and equals the sum of the ball energies minus their interaction; the energy of the nucleus in the field is the integral of Z rho / r.", "quantifier": "every number of electrons, charge, radius per electron, with and without the vacancy", "why_tests_cant": "all radii; derivatives and integrals", "anchors": ["src/sadatom/aij.cpp: consistent_lmax", "src/sadatom/aij.cpp: main"]}
{"id": "C144", "title": "Jellium grid", "statement": "The Friedel period is pi over the Fermi momentum of the background. Without the vacancy the program's grid is strictly increasing from 0 to R + Rmax, with nelem + Nu - 1 + Nv elements, Nu and Nv the fewest elements no longer than period/nufreq that cover the box and the vacuum; every uniform boundary, hence R, is in it, and the tests that grids coincide never throw. With no background it is the atomic grid to Rmax. With the vacancy the grid is the one of the filled box plus r_inner, ascending, and strictly increasing exactly when r_inner was not a boundary; that it always is strictly increasing is refuted: a hydrogen atom with 7 jellium electrons and nufreq 1 has r_inner twice, an element of length zero.", "quantifier": "every admissible grid, charge, radius and vacuum size", "why_tests_cant": "the coincidence needs particular electron numbers", "anchors": ["src/sadatom/aij.cpp: main"]}
{"id": "C145", "title": "Densities and kinetic energy of the jellium Fock builders", "statement": "The restricted builder's radial density matrix is the sum over all orbitals of all angular momenta weighted with their occupations; its trace with a matrix is the weighted sum of expectation values, which is the number of electrons for normalised orbitals; the kinetic energy is the weighted sum of expectation values of T + l(l+1) Tl. The unrestricted builder's density is the sum over both spins if no angular momentum has beta electrons only; without this condition it is refuted, since a block without alpha electrons is skipped together with its beta electrons.", "quantifier": "all orbitals and occupations", "why_tests_cant": "the skipped case needs a beta-only angular momentum", "anchors": ["src/sadatom/aij.cpp: restricted_builder", "src/sadatom/aij.cpp: unrestricted_builder"]}
{"id": "C146", "title": "Jellium program: saved Fock matrices and guesses", "statement": "Loading a saved list of Fock matrices of equal dimensions gives the same matrices; a file with fewer numbers than its header announces is a runtime error. Blocks of different dimensions do not survive (refuted). A loaded list with lmax+1 blocks serves both spins, one with 2 lmax + 2 blocks gives the alpha blocks to a restricted run, and any other number is a logic error.", "quantifier": "all blocks and files", "why_tests_cant": "all sizes", "anchors": ["src/sadatom/aij.cpp: save_fock", "src/sadatom/aij.cpp: load_fock", "src/sadatom/aij.cpp: main"]}
{"id": "C147", "title": "Jellium program: saved density and orbitals", "statement": "The density written by a restricted run is the full one divided by 4 pi. For an unrestricted run only the alpha blocks enter, so that the total density is written is refuted. The tables of orbitals hold every orbital with an occupation above the threshold exactly once, ordered by block and orbital, with matching angular momenta, occupations, energies and columns; the three files use the same phase, with which the value of largest modulus is non-negative. File names exist exactly if Z >= Q and there is an electron; otherwise a logic error is thrown.", "quantifier": "all orbitals, occupations and thresholds", "why_tests_cant": "all block structures", "anchors": ["src/sadatom/aij.cpp: save_density", "src/sadatom/aij.cpp: radial_density_matrix", "src/sadatom/aij.cpp: save_orbitals"]}
