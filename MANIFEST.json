{
 "claims": [
  {
   "property": "C01",
   "status": "proved",
   "theorems": [
    "C01_flat_partition",
    "C01_build_succeeds"
   ],
   "note": ""
  },
  {
   "property": "C02",
   "status": "proved",
   "theorems": [
    "C02_canonical_leaves",
    "C02_canonicalIndices_leaves"
   ],
   "note": ""
  },
  {
   "property": "C03",
   "status": "proved",
   "theorems": [
    "C03_getCanonicalIndex_inverse",
    "C03_getCanonicalIndex_rejects",
    "C03_getCanonicalIndex_injective"
   ],
   "note": ""
  },
  {
   "property": "C04",
   "status": "proved",
   "theorems": [
    "C04_size_formula"
   ],
   "note": ""
  },
  {
   "property": "C05",
   "status": "proved",
   "theorems": [
    "C05_grouping_permutes",
    "C05_round_robin_in_group",
    "C05_order_respected"
   ],
   "note": ""
  },
  {
   "property": "C06",
   "status": "proved",
   "theorems": [
    "C06_intersperse_terminates",
    "C06_more_fuel_same_result"
   ],
   "note": ""
  },
  {
   "property": "C07",
   "status": "partial",
   "theorems": [
    "C07_order_loses_entries_refuted",
    "C07_order_duplicates_entries_refuted",
    "C07_order_partial"
   ],
   "note": "The full statement is false of the code: Structure.__init__ only checks that ordered names exist, so an explicit order may drop an entry (C07_order_loses_entries_refuted) or count it twice, leaving unaddressed elements (C07_order_duplicates_entries_refuted). Proved for orders that mention every name exactly once (C07_order_partial)."
  },
  {
   "property": "C08",
   "status": "proved",
   "theorems": [
    "C08_entry_list_iff",
    "C08_entry_list_result",
    "C08_struct_builds",
    "C08_struct_builds_order"
   ],
   "note": ""
  },
  {
   "property": "C09",
   "status": "proved",
   "theorems": [
    "C09_blocks_contiguous",
    "C09_blocks_complete",
    "C09_map_keys"
   ],
   "note": ""
  },
  {
   "property": "C10",
   "status": "proved",
   "theorems": [
    "C10_read_after_write",
    "C10_write_succeeds_iff"
   ],
   "note": ""
  },
  {
   "property": "C11",
   "status": "partial",
   "theorems": [
    "C11_writes_call",
    "C11_writes_local_partial",
    "C11_reads_local",
    "C11_write_disjoint_read_partial",
    "C11_writes_symm_refuted",
    "C11_writes_local_symm"
   ],
   "note": "Proved for structures without symmetric entries; indices may contain callables (C11_writes_call; sets listed without repetition), for which reads are not local (C102). False for symmetric entries: s['P',1,0]=c writes the mirrored element, which s.i['P',1,0] does not list (C11_writes_symm_refuted). With symmetric entries every change lies in the elements listed by s.i or in a symmetric block reached by the index (C11_writes_local_symm)."
  },
  {
   "property": "C12",
   "status": "partial",
   "theorems": [
    "C12_negative_canonical",
    "C12_out_of_range_partial",
    "C12_int_accepted_iff_partial",
    "C12_int_accepted_block_partial",
    "C12_out_of_range_empty_refuted",
    "C12_prefix_out_of_range",
    "C12_prefix_accepted"
   ],
   "note": "Proved for indices that give an integer for every repeat dimension (C12_int_accepted_iff_partial, C12_out_of_range_partial, C12_negative_canonical). With fewer integers C12_prefix_accepted and C12_prefix_out_of_range decide every case: an out-of-range integer raises unless a pending dimension is empty, and then it returns [] (C12_out_of_range_empty_refuted)."
  },
  {
   "property": "C13",
   "status": "proved",
   "theorems": [
    "C13_slice_read",
    "C13_slice_step0"
   ],
   "note": ""
  },
  {
   "property": "C14",
   "status": "proved",
   "theorems": [
    "C14_pending_colons",
    "C14_pending_nested",
    "C14_pending_negative"
   ],
   "note": ""
  },
  {
   "property": "C15",
   "status": "proved",
   "theorems": [
    "C15_ellipsis_read",
    "C15_dict_read",
    "C15_set_read",
    "C15_unknown_name"
   ],
   "note": ""
  },
  {
   "property": "C16",
   "status": "partial",
   "theorems": [
    "C16_names_read_partial",
    "C16_names_repeat_refuted",
    "C16_names_symm_refuted",
    "C16_names_read_exact",
    "C16_own_block_plain",
    "C16_own_block_symm"
   ],
   "note": "The list branch of Structure.traverseByPowerIndex forgets the entry: repeated entries raise (C16_names_repeat_refuted) and symmetric entries come back as upper triangles (C16_names_symm_refuted). C16_names_read_exact says for all structures what s[[n1,...]] returns and when it raises; C16_own_block_plain and C16_own_block_symm compare that with s[n]."
  },
  {
   "property": "C17",
   "status": "partial",
   "theorems": [
    "C17_write_back_partial",
    "C17_write_back_reversed_refuted",
    "C17_write_back_offset_refuted",
    "C17_slice_back",
    "C17_slice_back_accepted",
    "C17_slice_back_same"
   ],
   "note": "Payload lists are indexed by the index values of the slice instead of by position, so writing back s[x,::-1] permutes the data silently (C17_write_back_reversed_refuted) and writing back s[x,1:] corrupts and raises (C17_write_back_offset_refuted). Proved for indices whose slices start at 0 with step 1 (including nested structures, {}, sets, ellipsis, nesteddict). C17_slice_back and C17_slice_back_accepted say exactly what writing back any slice does and when it raises, C17_slice_back_same when it is the identity."
  },
  {
   "property": "C18",
   "status": "proved",
   "theorems": [
    "C18_list_write",
    "C18_list_write_reads",
    "C18_list_write_short",
    "C18_list_write_extra",
    "C18_broadcast_write",
    "C18_slice_write",
    "C18_slice_write_step0",
    "C18_ints_write"
   ],
   "note": ""
  },
  {
   "property": "C19",
   "status": "partial",
   "theorems": [
    "C19_single_write_atomic_partial",
    "C19_not_atomic_refuted",
    "C19_slice_write_exact",
    "C19_ints_write_exact"
   ],
   "note": "False for indices that address several elements: a list that is too short leaves the first repeats written (C19_not_atomic_refuted). Proved for one element with or without extra indices. C19_slice_write_exact and C19_ints_write_exact give the state left behind by a slice or list assignment that raises."
  },
  {
   "property": "C20",
   "status": "partial",
   "theorems": [
    "C20_call_dict_all_partial",
    "C20_call_dict_keys",
    "C20_call_dict_all_fill_partial",
    "C20_symm_struct_unreadable",
    "C20_entry_symm",
    "C20_dict_symm_refuted",
    "C20_dict_symm_struct_refuted"
   ],
   "note": "Proved for all structures whose type='symm' entries are matrices (also with repeats, sub-structures, nested lists and broadcast scalars): every entry reads back as given, a type='symm' entry as the value's upper triangle mirrored, hence the value itself when it is symmetric (C20_call_dict_all_partial, C20_entry_symm). False for a value of a type='symm' entry that is not symmetric (C20_dict_symm_refuted) and for entry(struct=..., type='symm'), which is accepted and filled but cannot be read (C20_symm_struct_unreadable, C20_dict_symm_struct_refuted). The key check is proved for all structures."
  },
  {
   "property": "C21",
   "status": "proved",
   "theorems": [
    "C21_call_vector",
    "C21_call_scalar",
    "C21_call_bad_shape",
    "C21_call_empty"
   ],
   "note": ""
  },
  {
   "property": "C22",
   "status": "partial",
   "theorems": [
    "C22_parse_ok",
    "C22_parse_bad_rows_partial",
    "C22_parse_one_row_refuted",
    "C22_parse_1d_refuted"
   ],
   "note": "Proved for data with size rows. Rejection is proved for every other number of rows but one: a single row, or one-dimensional data, is silently broadcast over all elements (C22_parse_one_row_refuted, C22_parse_1d_refuted)."
  },
  {
   "property": "C23",
   "status": "proved",
   "theorems": [
    "C23_mx_cat_order",
    "C23_mx_cat",
    "C23_mx_missing"
   ],
   "note": ""
  },
  {
   "property": "C24",
   "status": "proved",
   "theorems": [
    "C24_mx_fast_path",
    "C24_mx_bad_length"
   ],
   "note": ""
  },
  {
   "property": "C25",
   "status": "partial",
   "theorems": [
    "C25_mx_write_partial",
    "C25_mx_stale_refuted"
   ],
   "note": "The write reaches s.cat and s.i exactly (C25_mx_write_partial), but the same theorem shows every read keeps returning the value from construction: the full statement is false (C25_mx_stale_refuted)."
  },
  {
   "property": "C26",
   "status": "proved",
   "theorems": [
    "C26_symm_read",
    "C26_symm_write",
    "C26_symm_write_mismatch"
   ],
   "note": ""
  },
  {
   "property": "C27",
   "status": "partial",
   "theorems": [
    "C27_symm_element_write",
    "C27_symm_element_read_partial",
    "C27_symm_lower_read_refuted"
   ],
   "note": "Element assignment proved. Direct element reads are right on and above the diagonal only; below it the read is always structurally zero (C27_symm_lower_read_refuted, exact behaviour in C27_symm_element_read_partial)."
  },
  {
   "property": "C28",
   "status": "proved",
   "theorems": [
    "C28_extra_block_read",
    "C28_extra_block_read_err",
    "C28_extra_linear_read",
    "C28_extra_linear_read_err",
    "C28_extra_block_write",
    "C28_extra_block_fill",
    "C28_extra_block_misfit",
    "C28_extra_linear_write",
    "C28_extra_linear_fill",
    "C28_extra_read2",
    "C28_extra_read1",
    "C28_extra_write"
   ],
   "note": ""
  },
  {
   "property": "C29",
   "status": "proved",
   "theorems": [
    "C29_product_ok",
    "C29_product_accepts",
    "C29_product_bad_shape",
    "C29_product_blocks",
    "C29_name_sel"
   ],
   "note": ""
  },
  {
   "property": "C30",
   "status": "partial",
   "theorems": [
    "C30_product_scalar_partial",
    "C30_squared_scalar",
    "C30_product_scalar_refuted"
   ],
   "note": "squared() with a scalar is proved for all structures; product() for every row structure whose size is not 1. With size 1 and a wider column structure the scalar is refused (C30_product_scalar_refuted)."
  },
  {
   "property": "C31",
   "status": "proved",
   "theorems": [
    "C31_repeated_columns",
    "C31_repeated_bad_rows"
   ],
   "note": "Index after the column: any non-empty power index without callables; assigned values contain no structurally empty scalar (those are skipped by .nz assignment)."
  },
  {
   "property": "C32",
   "status": "proved",
   "theorems": [
    "C32_prefix_concat",
    "C32_prefix_block"
   ],
   "note": "C32_prefix_concat is the statement for all indices; C32_prefix_block says what a prefix naming a sub-structure gives."
  },
  {
   "property": "C33",
   "status": "partial",
   "theorems": [
    "C33_restored_accepts",
    "C33_restored_symm",
    "C33_unpickle_layout",
    "C33_unpickle_object_partial",
    "C33_pickle_symm_refuted"
   ],
   "note": "Size, index map, labels, s.i and s.f are proved unchanged for all structures, and so are all reads of a restored object and all writes when there is no symmetric entry. Assigning a whole symmetric entry fails after a round trip, because 'originalsparsity' is not pickled (C33_pickle_symm_refuted, C33_restored_symm: any non-scalar raises and changes nothing). Every assignment the restored object accepts has the effect it has on the original (C33_restored_accepts, all indices and structures)."
  },
  {
   "property": "C34",
   "status": "proved",
   "theorems": [
    "C34_entry_unknown",
    "C34_entry_conflict",
    "C34_entry_bad_repeat",
    "C34_entry_result",
    "C34_entry_accepts_iff",
    "C34_doc_unique",
    "C34_entry_proper"
   ],
   "note": ""
  },
  {
   "property": "C35",
   "status": "partial",
   "theorems": [
    "C35_expr_dims_partial",
    "C35_expr_struct_reads_partial",
    "C35_mx_expr_reads_partial",
    "C35_expr_ragged_refuted",
    "C35_expr_pattern_refuted"
   ],
   "note": "Proved for regular nested lists in struct_SX and struct_MX. A ragged list is accepted and loses expressions (C35_expr_ragged_refuted); an expression with a wider sparsity than the first is silently projected (C35_expr_pattern_refuted)."
  },
  {
   "property": "C36",
   "status": "proved",
   "theorems": [
    "C36_inequality_iff",
    "C36_inequality_fields",
    "C36_inequality_free",
    "C36_bounded_variable_spec"
   ],
   "note": "Every expression, bound and nominal value (matrices, vectors, structures); BoundedVariable included."
  },
  {
   "property": "C37",
   "status": "proved",
   "theorems": [
    "C37_vertcat_list_spec"
   ],
   "note": "For columns and equal-width matrices with nominal values. Without nominal values vertcat raises: see C39."
  },
  {
   "property": "C38",
   "status": "partial",
   "theorems": [
    "C38_vertcat_dict_spec",
    "C38_vertcat_dict_sat_dense_partial",
    "C38_vertcat_dict_sparse_refuted"
   ],
   "note": "Proved: structured bounds hold the members' nonzeros under their keys. Satisfaction equivalence is proved when the stored bounds and expressions are dense; C38_vertcat_dict_sparse_refuted shows it fails for sparse members, whose patterns are lost."
  },
  {
   "property": "C39",
   "status": "partial",
   "theorems": [
    "C39_vertcat_list_needs_nominal",
    "C39_vertcat_dict_needs_nominal",
    "C39_vertcat_no_nominal_refuted"
   ],
   "note": "Refuted: vertcat raises whenever one member has no nominal value (proved for all lists and dicts), with a witness."
  },
  {
   "property": "C40",
   "status": "partial",
   "theorems": [
    "C40_base_iff_partial",
    "C40_struct_t",
    "C40_struct_t_refuted",
    "C40_semi_iff_partial",
    "C40_impl_iff_partial",
    "C40_semi_fields",
    "C40_semi_err",
    "C40_impl_err",
    "C40_semi_no_alg_refuted",
    "C40_impl_xdot_refuted"
   ],
   "note": "Acceptance is characterised exactly. Three parts of the statement are refuted: z without alg is accepted, ImplicitDae does not require a symbolic xdot, and a scalar structure given as t is refused with AttributeError (C40_struct_t: structure objects have no is_scalar). is_valid_input() is decided inside CasADi and is a boolean of the model."
  },
  {
   "property": "C41",
   "status": "proved",
   "theorems": [
    "C41_make_implicit_ok",
    "C41_make_implicit_solutions",
    "C41_make_implicit_id",
    "C41_make_implicit_no_alg"
   ],
   "note": "For models with numel(alg) = numel(z); when alg is omitted although z has elements makeImplicit raises (C41_make_implicit_no_alg)."
  },
  {
   "property": "C42",
   "status": "partial",
   "theorems": [
    "C42_parallel_spec_partial",
    "C42_parallel_no_dynamics",
    "C42_parallel_implicit",
    "C42_parallel_dynamics_refuted"
   ],
   "note": "States, inputs, parameters and quadratures are concatenated (proved). The right-hand sides, t and tdp are lost: refuted."
  },
  {
   "property": "C43",
   "status": "proved",
   "theorems": [
    "C43_basis_accepts",
    "C43_basis_scalar",
    "C43_basis_lagrange"
   ],
   "note": "Exact arithmetic (real numbers)."
  },
  {
   "property": "C44",
   "status": "proved",
   "theorems": [
    "C44_interpolation_matrix",
    "C44_interpolation_matrix_scalar",
    "C44_barycentric_interpolator",
    "C44_barycentric_repeated_node"
   ],
   "note": "Exact arithmetic. With repeated nodes the assertion in the interpolation matrix fails (barycentric_repeated_node)."
  },
  {
   "property": "C45",
   "status": "proved",
   "theorems": [
    "C45_differentiation_matrix"
   ],
   "note": "Exact arithmetic."
  },
  {
   "property": "C46",
   "status": "proved",
   "theorems": [
    "C46_compose_spec",
    "C46_compose_too_wide"
   ],
   "note": "Exact arithmetic; a coefficient matrix with fewer columns than nodes is padded with zeros, a wider one raises IndexError."
  },
  {
   "property": "C47",
   "status": "proved",
   "theorems": [
    "C47_vandermonde_nonsingular",
    "C47_vandermonde_solvable",
    "C47_interpolators_agree",
    "C47_polynomial_interpolator",
    "C47_barycentric_queries",
    "C47_interpolator_nodes",
    "C47_polynomial_interpolator_array"
   ],
   "note": "np.linalg.solve is an argument that is assumed to return only solutions (and, for C47_polynomial_interpolator, to solve every nonsingular system); the Vandermonde system is proved nonsingular and solvable. C47_polynomial_interpolator and C47_barycentric_queries cover numbers, vectors, rows and empty queries; C47_interpolator_nodes the nodes that are refused. Exact arithmetic."
  },
  {
   "property": "C48",
   "status": "proved",
   "theorems": [
    "C48_chebyshev_points",
    "C48_cheb_spec"
   ],
   "note": "Exact arithmetic; np.cos and np.pi are the real cosine and pi."
  },
  {
   "property": "C49",
   "status": "proved",
   "theorems": [
    "C49_butcher_exact",
    "C49_butcher_row_sums",
    "C49_butcher_method_spec"
   ],
   "note": "Exact arithmetic."
  },
  {
   "property": "C50",
   "status": "proved",
   "theorems": [
    "C50_tableau_accepts",
    "C50_tableau_fields"
   ],
   "note": ""
  },
  {
   "property": "C51",
   "status": "proved",
   "theorems": [
    "C51_belongs_unique",
    "C51_piece_exists",
    "C51_piece_unique",
    "C51_call_spec",
    "C51_call_scalar",
    "C51_call_bad_continuity",
    "C51_belongs_open",
    "C51_ctor_iff"
   ],
   "note": "Exact arithmetic. Piece/Belongs define the piece and interval independently of the code."
  },
  {
   "property": "C52",
   "status": "proved",
   "theorems": [
    "C52_derivative_spec",
    "C52_derivative_is_derivative"
   ],
   "note": "Exact arithmetic; holds at every t that is not a bound, also outside."
  },
  {
   "property": "C53",
   "status": "partial",
   "theorems": [
    "C53_discretize_spec_partial",
    "C53_discretize_ascending",
    "C53_discretize_bad_step",
    "C53_discretize_end_refuted"
   ],
   "note": "Proved for real arithmetic. Refuted in binary64: with bounds 0.2, 0.9 the last x is 0.2+(0.9-0.2), which is not 0.9."
  },
  {
   "property": "C54",
   "status": "partial",
   "theorems": [
    "C54_poly_spec_partial",
    "C54_poly_equals_call_partial",
    "C54_poly_succeeds_iff",
    "C54_poly_degree_drop_refuted"
   ],
   "note": "Whenever poly(n) returns, the polynomials are right; poly_succeeds_iff gives exactly when: every component must have full degree on the interval. Refuted otherwise: a constant component makes it raise (in-place division of a trimmed coefficient array)."
  },
  {
   "property": "C55",
   "status": "partial",
   "theorems": [
    "C55_pdq_grid",
    "C55_grid_bounds",
    "C55_pdq_chebyshev_partial",
    "C55_pdq_tf_refuted"
   ],
   "note": "Proved over the real numbers, for the default point type and (C55_grid_bounds) for every point set that ends in 1. Missing: the bounds are not always among the points in binary64; C55_pdq_tf_refuted gives Pdq([0.2, 0.9], 1), whose tf is the number before 0.9."
  },
  {
   "property": "C56",
   "status": "partial",
   "theorems": [
    "C56_derivative_exact_partial",
    "C56_derivative_legendre_refuted"
   ],
   "note": "Exact for every point type whose last node is 1 (chebyshev, radau). For legendre, whose points leave out the interval's end, the claim is false: C56_derivative_legendre_refuted."
  },
  {
   "property": "C57",
   "status": "proved",
   "theorems": [
    "C57_integral_spec",
    "C57_integral_unique",
    "C57_integral_total"
   ],
   "note": "The linear solver is an argument; the hypotheses are that it returns only solutions (Solver) and, for totality, that it finds the solution of a nonsingular solvable system (Complete)."
  },
  {
   "property": "C58",
   "status": "proved",
   "theorems": [
    "C58_expand_spec",
    "C58_expand_wrong"
   ],
   "note": "A wrong number of columns is rejected (C58_expand_wrong). The skipped test_expandInput expects one column more for each interval."
  },
  {
   "property": "C59",
   "status": "partial",
   "theorems": [
    "C59_interp_exact_partial",
    "C59_interp_data_partial",
    "C59_interp_columns",
    "C59_interp_bad_continuity",
    "C59_left_last_interval_raises",
    "C59_left_refuted",
    "C59_left_exact",
    "C59_left_data",
    "C59_left_shift_refuted"
   ],
   "note": "Holds for 'both' and 'right'; other strings are rejected. For 'left' the call raises at every point of the last interval (C59_left_last_interval_raises, C59_left_refuted) and reads one column too far elsewhere: C59_left_exact says what every call returns, C59_left_data and C59_left_shift_refuted that data column k comes back at collocation point k instead of k-1."
  },
  {
   "property": "C60",
   "status": "proved",
   "theorems": [
    "C60_trajectory_accepts",
    "C60_trajectory_samples"
   ],
   "note": "The number of columns of x, z, u decides acceptance; the samples are returned at the points."
  },
  {
   "property": "C61",
   "status": "proved",
   "theorems": [
    "C61_scheme_fun_spec",
    "C61_scheme_fun_semi",
    "C61_scheme_fun_impl",
    "C61_scheme_fun_quad",
    "C61_scheme_equations"
   ],
   "note": "DAE objects become functions by C61_scheme_fun_spec and C61_scheme_fun_semi; the equations are C61_scheme_equations. Over the real numbers; the collocation points are any distinct numbers."
  },
  {
   "property": "C62",
   "status": "proved",
   "theorems": [
    "C62_trajectory_pieces",
    "C62_solution_trajectory"
   ],
   "note": "For collocation points in (0, 1], as legendre and radau points are. C62_trajectory_pieces holds for any x and K, C62_solution_trajectory for solutions of the equations."
  },
  {
   "property": "C63",
   "status": "proved",
   "theorems": [
    "C63_polynomial_solution",
    "C63_polynomial_quadrature"
   ],
   "note": "C63_polynomial_solution for the equations, C63_polynomial_quadrature for the integral."
  },
  {
   "property": "C64",
   "status": "proved",
   "theorems": [
    "C64_scheme_quadratures"
   ],
   "note": ""
  },
  {
   "property": "C65",
   "status": "partial",
   "theorems": [
    "C65_integrator_square_partial",
    "C65_square_refuted"
   ],
   "note": "There are never more equations than unknowns, and as many exactly when no equation of the DAE is structurally zero (C65_integrator_square_partial). For a DAE with a structurally zero algebraic equation there are fewer: C65_square_refuted."
  },
  {
   "property": "C66",
   "status": "partial",
   "theorems": [
    "C66_integrator_ok_iff",
    "C66_integrator_outputs_partial",
    "C66_integrator_roots",
    "C66_integrator_params_refuted"
   ],
   "note": "Proved for the integrators that can be made (C66_integrator_outputs_partial; roots are exactly the collocation solutions starting at x0: C66_integrator_roots). A DAE with both parameters and quadratures is refused whatever the rootfinder does: C66_integrator_ok_iff, C66_integrator_params_refuted."
  },
  {
   "property": "C67",
   "status": "partial",
   "theorems": [
    "C67_combine_parts_partial",
    "C67_combine_accepts",
    "C67_combine_rejects",
    "C67_combine_documented_refuted",
    "C67_combine_z_refuted"
   ],
   "note": "The accepted names are K, x, Z, U, u, p, eq, q, each at most once (C67_combine_accepts), and their parts are returned in order (C67_combine_parts_partial). The documented names x0 and z are rejected: C67_combine_documented_refuted, C67_combine_z_refuted."
  },
  {
   "property": "C68",
   "status": "partial",
   "theorems": [
    "C68_binding",
    "C68_binding_total",
    "C68_simulator_never",
    "C68_simulator_refuted"
   ],
   "note": "False for every DAE and grid: the constructor passes CollocationScheme too few arguments and raises TypeError (C68_simulator_never, C68_simulator_refuted). C68_binding shows that the binding function of the model follows Python's rule, C68_binding_total that there is no third outcome."
  },
  {
   "property": "C69",
   "status": "partial",
   "theorems": [
    "C69_save_refuted",
    "C69_save_load_partial"
   ],
   "note": "save calls the Python 2 name file, which does not exist in Python 3, and raises NameError (C69_save_refuted). With that name the round trip holds if the serialisation does (C69_save_load_partial)."
  },
  {
   "property": "C70",
   "status": "partial",
   "theorems": [
    "C70_struct_kept_partial",
    "C70_bad_struct_refuted"
   ],
   "note": "Proved: a structure passed as struct= becomes the entry's sub-structure (C70_struct_kept_partial). False otherwise: entry('x', struct=5) is accepted, the value ignored and a scalar entry created (C70_bad_struct_refuted)."
  },
  {
   "property": "C71",
   "status": "partial",
   "theorems": [
    "C71_integrate_by_name_partial",
    "C71_integrate_by_position",
    "C71_integrate_position_refuted"
   ],
   "note": "By name the trajectory through the integrator's result is returned (C71_integrate_by_name_partial). By position every call that reaches a result raises TypeError, because the function then returns a tuple: C71_integrate_by_position, C71_integrate_position_refuted."
  },
  {
   "property": "C72",
   "status": "partial",
   "theorems": [
    "C72_index0_reads_partial",
    "C72_index1_reads_partial",
    "C72_index2_swapped_reads",
    "C72_index2_diagonal_reads_partial",
    "C72_index2_off_diagonal",
    "C72_index1_sparse_refuted",
    "C72_index2_refuted",
    "C72_index2_transposed_refuted"
   ],
   "note": "Proved: with extraMode=0 the index reads the leaf holding component i (entries whose stored and original sparsity agree); with extraMode=1 it reads component i in dense leaves; with extraMode=2 it reads component i after swapping the last two indices, hence on the diagonal, and never contains i off the diagonal. Refuted: extraMode=1 on a sparse leaf reads another component (the index counts nonzeros); extraMode=2 yields (column,row), so it raises for a column vector and reads the transposed component of a square leaf."
  },
  {
   "property": "C73",
   "status": "partial",
   "theorems": [
    "C73_labels_distinct_partial",
    "C73_labels_size",
    "C73_labels_comma_refuted",
    "C73_labels_mode0_refuted"
   ],
   "note": "Proved for extraMode 1 and 2 (any mode but 0) when no entry name contains a comma: the labels are one per component, in order and pairwise distinct; the number and the success hold for every structure and mode. Refuted: names with commas collide, and extraMode=0 gives equal labels within a leaf."
  },
  {
   "property": "C74",
   "status": "proved",
   "theorems": [
    "C74_integrator_start"
   ],
   "note": ""
  },
  {
   "property": "C75",
   "status": "partial",
   "theorems": [
    "C75_property_values_partial",
    "C75_pdq_never",
    "C75_pdq_refuted"
   ],
   "note": "Proved for every scheme and every property but pdq. Refuted: pdq returns self._pdq, which is never set, so it always raises AttributeError."
  },
  {
   "property": "C76",
   "status": "partial",
   "theorems": [
    "C76_f_lists_positions_partial",
    "C76_f_needs_dense",
    "C76_f_sparse_refuted"
   ],
   "note": "The full statement holds exactly for dense index matrices (C76_f_lists_positions_partial, an equivalence; C76_f_needs_dense for all results). It is false for sparse leaves: FlatIndexDispatcher asserts density, so s.f of an upper-triangular entry raises (C76_f_sparse_refuted)."
  },
  {
   "property": "C77",
   "status": "proved",
   "theorems": [
    "C77_getitem_values",
    "C77_getitem_defined"
   ],
   "note": ""
  },
  {
   "property": "C78",
   "status": "partial",
   "theorems": [
    "C78_getStruct_known",
    "C78_getStruct_unknown",
    "C78_getStruct_message_refuted"
   ],
   "note": "Known names behave as stated (C78_getStruct_known). For an unknown name the error message itself fails: name.keys() on a string raises AttributeError (C78_getStruct_unknown, C78_getStruct_message_refuted)."
  },
  {
   "property": "C79",
   "status": "partial",
   "theorems": [
    "C79_symSX_new",
    "C79_symSX_given_partial",
    "C79_symSX_accepts",
    "C79_symSX_distinct",
    "C79_entry_sym_fits",
    "C79_entry_symstruct_fits",
    "C79_symMX_accepts",
    "C79_symSX_symm_refuted",
    "C79_symSX_broadcast_refuted"
   ],
   "note": "Names, distinctness and acceptance are proved; given symbols read back when they have exactly the elements of their entry (C79_symSX_given_partial), which holds for entry(name, sym=X). False with type='symm', where the symbols below the diagonal are dropped (C79_symSX_symm_refuted), and with struct= plus a scalar symbol, which is broadcast over all elements (C79_symSX_broadcast_refuted). All theorems cover an explicit order= that names every entry once."
  },
  {
   "property": "C80",
   "status": "partial",
   "theorems": [
    "C80_separate_restored_partial",
    "C80_together_exact",
    "C80_same_structure_first",
    "C80_mutable_never",
    "C80_mutable_alone",
    "C80_pickle_same_structure_refuted",
    "C80_pickle_sub_structure_refuted",
    "C80_pickle_stale_refuted"
   ],
   "note": "Proved when no object comes after one that has its structure as structure or sub-structure (C80_separate_restored_partial); the exact outcome for a first dump with sharing is C80_together_exact. False in general because __getstate__ puts the data into the dictionary of the shared CasadiStructure: objects on the same structure all get the first one's values (C80_same_structure_first, C80_pickle_same_structure_refuted), an object after one that contains its structure raises KeyError (C80_pickle_sub_structure_refuted), and data of earlier dumps reappear (C80_pickle_stale_refuted). struct_SX and struct_MX_mutable are never restored (C80_mutable_never, C80_mutable_alone)."
  },
  {
   "property": "C81",
   "status": "proved",
   "theorems": [
    "C81_squared_repeated_blocks",
    "C81_block_element",
    "C81_squared_repeated_bad",
    "C81_squared_repeated_default"
   ],
   "note": ""
  },
  {
   "property": "C82",
   "status": "partial",
   "theorems": [
    "C82_prefix_attr_exact_partial",
    "C82_view_attr",
    "C82_prefix_attr_refuted"
   ],
   "note": "Proved for squared and product views (C82_view_attr). For prefixes of a numeric structure it holds exactly when the block is the whole column (C82_prefix_attr_exact_partial), because __getattr__ delegates to struct.master, not to self(): C82_prefix_attr_refuted."
  },
  {
   "property": "C83",
   "status": "proved",
   "theorems": [
    "C83_pdq_length_points",
    "C83_pdq_length_bounds"
   ],
   "note": ""
  },
  {
   "property": "C84",
   "status": "partial",
   "theorems": [
    "C84_product_mx_same_partial",
    "C84_repeated_mx_iff",
    "C84_repeated_mx_reads",
    "C84_squared_repeated_mx_iff",
    "C84_squared_repeated_mx_reads",
    "C84_mx_repeated_refuted",
    "C84_mx_stack_refuted",
    "C84_mx_view_stale_refuted"
   ],
   "note": "For product (and squared, its special case) of a dense matrix the MX view reads as the numeric view and stays equal to it under the same assignments for all nonempty indices (C84_product_mx_same_partial). False in full: V() of an MX view keeps the matrix of the time of creation (C84_mx_view_stale_refuted), repeated of an MX matrix succeeds only with exactly one column (C84_repeated_mx_iff, C84_mx_repeated_refuted) and squared_repeated only with exactly one block (C84_squared_repeated_mx_iff, C84_mx_stack_refuted), because buildMap hands rows with several columns to MX(sp, val)."
  },
  {
   "property": "C85",
   "status": "partial",
   "theorems": [
    "C85_simulate_needs_param",
    "C85_simulate_asks_partial",
    "C85_simulate_type_error",
    "C85_simulate_refuted"
   ],
   "note": "The ValueError, the calls of input and the passing on of its exceptions are proved (C85_simulate_needs_param, C85_simulate_asks_partial). No call returns a trajectory: the result of the simulation is dropped and SystemTrajectory() is called without its four arguments, a TypeError (C85_simulate_type_error, C85_simulate_refuted). The CasADi function that simulates is a parameter."
  },
  {
   "property": "C86",
   "status": "partial",
   "theorems": [
    "C86_str_identifies_partial",
    "C86_repr_identifies_partial",
    "C86_compact_identifies",
    "C86_entry_plain",
    "C86_print_order_refuted",
    "C86_print_pattern_refuted",
    "C86_repr_size_refuted"
   ],
   "note": "Proved for structures whose entries are declared by dense shapes, repeats, struct= or type='symm' (C86_entry_plain) and whose sub-structures keep the order of their entries: str and repr determine the structure itself (C86_str_identifies_partial, C86_repr_identifies_partial). False otherwise: the order of a sub-structure and sparsity patterns are not printed (C86_print_order_refuted, C86_print_pattern_refuted), and repr leaves out the size line of str (C86_repr_size_refuted)."
  },
  {
   "property": "C87",
   "status": "partial",
   "theorems": [
    "C87_symm_block_write",
    "C87_symm_block_fill",
    "C87_symm_block_mismatch",
    "C87_symm_block_read_partial",
    "C87_symm_block_read_diag",
    "C87_symm_linear_fill_partial",
    "C87_symm_linear_read",
    "C87_symm_linear_refused",
    "C87_symm_block_read_refuted",
    "C87_symm_linear_ignored_refuted"
   ],
   "note": "Writes of blocks and of scalars are proved in full (any declared pattern, overlapping blocks included), and so is the refusal of any other payload. The claim about reading is false and exactly characterised: C87_symm_block_read_partial says which blocks can be read (equally many rows and columns, no stored element below the diagonal of the block) and what they show; blocks on the diagonal (C87_symm_block_read_diag) read correctly, others raise or lose elements (C87_symm_block_read_refuted). By one index, a scalar assignment to an element below the diagonal is silently ignored (C87_symm_linear_ignored_refuted) and no other payload is ever accepted (C87_symm_linear_refused)."
  },
  {
   "property": "C88",
   "status": "partial",
   "theorems": [
    "C88_names_write_partial",
    "C88_names_write_symm",
    "C88_names_then_int",
    "C88_names_then_name",
    "C88_names_write_symm_refuted",
    "C88_names_rest_refuted"
   ],
   "note": "The list branch drops the entry, so s[[\"P\"]]=[M] on a symmetric entry accepts matrices that s[\"P\"]=M refuses (C88_names_write_symm_refuted, C88_names_write_symm), and s[[\"r\"],0] and s[[\"g\"],\"p\"] raise although s[\"r\",0] and s[\"g\",\"p\"] work (C88_names_rest_refuted, C88_names_then_int, C88_names_then_name). Proved for entries without repeats, structure and symmetry (C88_names_write_partial)."
  },
  {
   "property": "C89",
   "status": "proved",
   "theorems": [
    "C89_rows_write",
    "C89_rows_refused",
    "C89_nums_write",
    "C89_nums_fill",
    "C89_nums_refused"
   ],
   "note": ""
  },
  {
   "property": "C90",
   "status": "proved",
   "theorems": [
    "C90_entry_one_argument",
    "C90_list_error",
    "C90_struct_rejects",
    "C90_expr_needed",
    "C90_expr_refused"
   ],
   "note": ""
  },
  {
   "property": "C91",
   "status": "partial",
   "theorems": [
    "C91_own_copy_partial",
    "C91_shared",
    "C91_cat_no_copy",
    "C91_own_copy_refuted"
   ],
   "note": "False of the code for a DM of the structure's size and for t.cat: the caller's object becomes the data (C91_shared, C91_cat_no_copy give the exact behaviour, C91_own_copy_refuted a witness). C91_own_copy_partial: numbers, lists, arrays and scalar DMs are copied."
  },
  {
   "property": "C92",
   "status": "proved",
   "theorems": [
    "C92_set_keeps_size",
    "C92_set_keeps_mirror",
    "C92_entry_local",
    "C92_other_entries"
   ],
   "note": "For every index and right-hand side; C92_entry_local and C92_other_entries exclude callables inside the index, which may return positions of other entries."
  },
  {
   "property": "C93",
   "status": "proved",
   "theorems": [
    "C93_tableau_order",
    "C93_tableau_order_max",
    "C93_tableau_weights",
    "C93_quadrature_order"
   ],
   "note": "over the reals; that CasADi's points have the orthogonality property is a hypothesis (Ortho), met exactly by the points in the examples"
  },
  {
   "property": "C94",
   "status": "proved",
   "theorems": [
    "C94_linear_invariant",
    "C94_linear_balance",
    "C94_quadratic_invariant",
    "C94_quadratic_balance",
    "C94_dissipation",
    "C94_energy_decay",
    "C94_contraction",
    "C94_quadratic_radau_refuted",
    "C94_decay_explicit_refuted"
   ],
   "note": "over the reals; Ortho as in C93. The two _refuted theorems show that the hypotheses are needed: Radau points lose energy that the dynamics keep, explicit Euler's point gains energy"
  },
  {
   "property": "C95",
   "status": "proved",
   "theorems": [
    "C95_solution_exists",
    "C95_solution_unique",
    "C95_solution_continuous",
    "C95_integrator_unique",
    "C95_long_steps_refuted"
   ],
   "note": "Existence needs that the DAE can be solved for xdot and z (Resolvable). C95_long_steps_refuted: with a step of 1/L implicit Euler on x'=x has no solution from 1 and infinitely many from 0, so the condition on the steps cannot be dropped. z and the quadratures are not claimed: the DAE need not determine z."
  },
  {
   "property": "C96",
   "status": "proved",
   "theorems": [
    "C96_error_bound",
    "C96_integrator_error"
   ],
   "note": "The bound is global; the true solution's derivative only has to be near polynomials on each interval. Superconvergence at the grid times (order 2n-1 or 2n for Radau or Legendre points) is not stated here."
  },
  {
   "property": "C97",
   "status": "proved",
   "theorems": [
    "C97_product_vector",
    "C97_product_outer",
    "C97_product_transpose"
   ],
   "note": "For leaves that are dense and not symmetric (BlockSpec.Plain); repeated and nested leaves are selected with indexf, others also by name. Sums and products are those of any type with an associative addition and a zero."
  },
  {
   "property": "C98",
   "status": "proved",
   "theorems": [
    "C98_split_scheme",
    "C98_integrator_split"
   ],
   "note": "The parts of the integrator need the short-step condition of C95, without which the equations may have several solutions (C95_long_steps_refuted)."
  },
  {
   "property": "C99",
   "status": "proved",
   "theorems": [
    "C99_move_scheme",
    "C99_integrator_move"
   ],
   "note": "Exact real arithmetic. The converse for an invertible S follows from the same theorem applied to its inverse. integrator_move needs the short-step condition of C95 for the transformed DAE."
  },
  {
   "property": "C100",
   "status": "proved",
   "theorems": [
    "C100_dense_error",
    "C100_algebraic_error",
    "C100_quadrature_error",
    "C100_integrate_error",
    "C100_integrator_algebraic_error",
    "C100_integrator_quadrature_error",
    "C100_constants_exist"
   ],
   "note": "dense_error, algebraic_error, quadrature_error for schemes, the integrator versions for integrate/integrator with any correct rootfinder (integrate must be called by keyword, C71). constants_exist shows that alpha and lam exist for every nonempty list of distinct points. ErrExamples.v: x' = -x/4, z = x, q' = x by implicit Euler, with an integrator that returns."
  },
  {
   "property": "C101",
   "status": "proved",
   "theorems": [
    "C101_assign_reads",
    "C101_assign_iff",
    "C101_assign_copy",
    "C101_nest_positions",
    "C101_nest_copy",
    "C101_set_keys_refuted"
   ],
   "note": "The index must not list a position twice (hypothesis NoDup). C101_set_keys_refuted: with a set of names the keys of the assigned dict that are not in the set are silently ignored, so success does not imply that the dict suits the index."
  },
  {
   "property": "C102",
   "status": "partial",
   "theorems": [
    "C102_read_call",
    "C102_index_call",
    "C102_leaf_index",
    "C102_leaf_call",
    "C102_write_call_partial",
    "C102_call_read_back",
    "C102_leaf_call_refuted",
    "C102_list_call_refuted"
   ],
   "note": "Reading and s.i: proved for callables standing at a structure or at an entry with repeat dimensions left (Above). On the matrix of an entry the callable receives positions instead of values: s[..., f] reads the elements f(s.i[...]) (C102_leaf_call), which is f(s[...]) if f selects but not if it computes (C102_leaf_call_refuted). Writing: proved for structures without symmetric entries, numbers and matrices, behind names and integers; a list on the right is also consumed by the index behind the callable, so that it raises although it fits (C102_list_call_refuted)."
  },
  {
   "property": "C103",
   "status": "proved",
   "theorems": [
    "C103_error_identity",
    "C103_grid_error",
    "C103_adjoint",
    "C103_grid_order",
    "C103_state_order",
    "C103_integrator_grid_error"
   ],
   "note": "error_identity, adjoint (the adjoint equation of a secant Jacobian satisfies the hypothesis on y), grid_error, grid_order, state_order for schemes; integrator_grid_error for integrate with any correct rootfinder (called by keyword, C71). SuperExamples.v: all hypotheses for the implicit midpoint rule on x' = -x/4, z = x, giving |7/9 - exp(-1/4)| <= 1/30."
  },
  {
   "property": "C104",
   "status": "partial",
   "theorems": [
    "C104_interpolator_nodes",
    "C104_interval_exists",
    "C104_interval_unique",
    "C104_local_time",
    "C104_local_mono",
    "C104_call",
    "C104_call_bounds",
    "C104_pdq_data",
    "C104_trajectory_data",
    "C104_collocation_poly",
    "C104_tc_range",
    "C104_tc_mono",
    "C104_tc_end_refuted"
   ],
   "note": "everything but the last sentence holds. tc: t_n <= tc <= fl(t_n + fl(t_n+1 - t_n)), ascending with c and exactly t_n for c = 0 (if that sum is finite, 0 <= c <= 1); C104_tc_end_refuted: on [-3, -0.9] the Radau time of c = 1 is -0.8999999999999999, after the end of the interval. Hypotheses: differences of neighbouring times do not overflow; nodes 0 and 1 where the statement speaks of them; collocation points of the Pdq ascend after rounding."
  },
  {
   "property": "C105",
   "status": "partial",
   "theorems": [
    "C105_interpolator_partial",
    "C105_matrix_partial",
    "C105_differentiation_partial",
    "C105_call_partial",
    "C105_derivative_partial",
    "C105_near_node_refuted",
    "C105_call_near_node_refuted"
   ],
   "note": "Proved for nodes with distances in [2^-b, 2^b] with b*n <= 300 (200 for derivative()), queries that are nodes or as far from them, data up to 2^300, and a Lebesgue function up to 2^53/(12n+12): explicit bounds, linear in n, and finite results. Not for all inputs: a query closer to a node than about 2^-1024 makes barycentric interpolation overflow to inf/inf = NaN between two ordinary nodes (refuted with nodes [0, 1] and the query 2^-1074, also through PiecewisePoly)."
  },
  {
   "property": "C106",
   "status": "proved",
   "theorems": [
    "C106_legendre_symmetric",
    "C106_radau_not_symmetric",
    "C106_legendre_unique",
    "C106_radau_unique",
    "C106_tableau_symmetric",
    "C106_reverse_scheme",
    "C106_integrator_back",
    "C106_radau_refuted"
   ],
   "note": "For all symmetric points (Legendre's are, by C106_legendre_symmetric), DAEs, grids and time transformations; the integrator where C95's uniqueness condition holds. C106_radau_refuted shows that implicit Euler does not return."
  },
  {
   "property": "C107",
   "status": "proved",
   "theorems": [
    "C107_end_point",
    "C107_integrator_end",
    "C107_damping",
    "C107_legendre_undamped"
   ],
   "note": "The damping constant is the sum of the absolute values of the inverse of the Butcher matrix. Points are any distinct ones without 0; the last statement is for the midpoint rule (Legendre, order 1), eps x' = -x."
  },
  {
   "property": "C108",
   "status": "proved",
   "theorems": [
    "C108_points",
    "C108_exists",
    "C108_unique",
    "C108_integrator_unique",
    "C108_legendre_bound_refuted"
   ],
   "note": "The inner product is given by any matrix S bounded below by a multiple of the identity. Points are any distinct ones orthogonal to polynomials of degree < order (Legendre) or < order-1 with last point 1 (Radau). Existence needs a (possibly huge) Lipschitz constant and a DAE solvable for xdot, z."
  },
  {
   "property": "C109",
   "status": "proved",
   "theorems": [
    "C109_stiff_error",
    "C109_smooth",
    "C109_other_points_refuted"
   ],
   "note": "The constant is not computed; it depends on the points and the inner product only. Existence of a Lipschitz constant and solvability for xdot, z are assumed, but do not enter the bound. Rates nu < 0 are treated as 0."
  },
  {
   "property": "C110",
   "status": "proved",
   "theorems": [
    "C110_unique",
    "C110_split",
    "C110_move",
    "C110_back",
    "C110_unsettled_refuted"
   ],
   "note": "Extends C98, C99 and C106 to dissipative DAEs with long steps and to the outputs Z, Q, qf. The _refuted theorem shows that some condition is needed."
  },
  {
   "property": "C111",
   "status": "proved",
   "theorems": [
    "C111_names_are_numbers",
    "C111_names_read",
    "C111_names_write",
    "C111_name_is_numbers",
    "C111_row_read",
    "C111_row_write",
    "C111_names_refused",
    "C111_name_refused"
   ],
   "note": "The selectors of delayed indices are read off A.f and A.i. Index matrices returned by index[...] that are neither a dense row nor a dense column are not modelled (C111 asks for a dense row or column)."
  },
  {
   "property": "C112",
   "status": "proved",
   "theorems": [
    "C112_stiff_outputs",
    "C112_stiff_dense"
   ],
   "note": "The constants are not computed; they depend on the points and the inner product only. As in C109, existence of a Lipschitz constant and solvability for xdot, z are assumed, but do not enter the bounds. The derivative of the trajectory (K) is not covered: it depends on the Lipschitz constant."
  },
  {
   "property": "C113",
   "status": "proved",
   "theorems": [
    "C113_sens_scheme",
    "C113_sens_integrator"
   ],
   "note": "The constants are not computed; they depend on the points and the inner product only. Solvability for xdot, z and existence of a Lipschitz constant are assumed, but the constant does not enter the bounds. K is not covered: it depends on the Lipschitz constant."
  },
  {
   "property": "C114",
   "status": "proved",
   "theorems": [
    "C114_sens_scheme",
    "C114_sens_integrator"
   ],
   "note": "Solvability of the equations is not needed. The condition on the steps is C95's, where C95_long_steps_refuted shows that it cannot be dropped."
  },
  {
   "property": "C115",
   "status": "proved",
   "theorems": [
    "C115_error_bound",
    "C115_convergence",
    "C115_convergence_outputs",
    "C115_integrator_convergence",
    "C115_rate",
    "C115_integrator_rate"
   ],
   "note": "C115_error_bound: explicit bounds for all outputs of the scheme with inputs within d of those of a solution. C115_convergence, C115_convergence_outputs: for every eps a largest step below which states, derivatives, algebraic states, quadratures and the piecewise polynomial are within eps, for any points in (0, 1], any grid, controls sampled anywhere in the intervals. C115_integrator_convergence: the same for outputs of the integrator and the polynomial of CollocationIntegrator.integrate. C115_rate, C115_integrator_rate: errors of first order in the steps for data Lipschitz in time, with constants independent of the solution and the grid. Steps are short (as in C95) and the DAE Lipschitz in states and inputs."
  },
  {
   "property": "C116",
   "status": "partial",
   "theorems": [
    "C116_exceptions",
    "C116_exception_partial",
    "C116_exception_early",
    "C116_type_error_iff",
    "C116_not_implemented_iff",
    "C116_type_refuted"
   ],
   "note": "False for type: the messages for a type other than 'symm' and for a matrix that is not square fail to format and raise TypeError (C116_type_refuted); C116_type_error_iff says exactly when. A shape of one or two elements that are not all numbers is passed on to CasADi, which raises NotImplementedError (C116_not_implemented_iff). Every other refusal raises Exception (C116_exceptions, C116_exception_partial), unknown keywords, conflicts and bad repeats in any case (C116_exception_early). Not covered: matrices and patterns as type, pairs and matrices as elements of a shape."
  },
  {
   "property": "C117",
   "status": "proved",
   "theorems": [
    "C117_error_bound",
    "C117_rate",
    "C117_integrator_rate"
   ],
   "note": "C117_error_bound: bounds for all outputs of the scheme with inexact inputs, constants from the points and the inner product only. C117_rate, C117_integrator_rate: one constant C for all DAEs with the given rates, whatever the Lipschitz constant of xdot in the states; K is left out, as its error does depend on that constant."
  },
  {
   "property": "C118",
   "status": "partial",
   "theorems": [
    "C118_reads",
    "C118_lower_refused",
    "C118_sparsity_refused",
    "C118_accepts_iff",
    "C118_symm_iff",
    "C118_sx_reads",
    "C118_sx_accepts",
    "C118_full_refuted"
   ],
   "note": "Refuted: struct_MX raises Exception for entry('P', expr=E, type='symm') with an E that has elements below the diagonal, e.g. a full symmetric matrix, because the expression is compared with the stored upper triangle; struct_SX accepts it (C118_full_refuted, C118_sx_accepts, C118_sx_reads). Proved otherwise: a list of entries is accepted exactly if every expression (also in nested lists) has its entry's stored sparsity (C118_accepts_iff, C118_symm_iff), refusals, and reads after all histories of assignments."
  },
  {
   "property": "C119",
   "status": "proved",
   "theorems": [
    "C119_repeated_accepts",
    "C119_repeated_default",
    "C119_squared_repeated_accepts",
    "C119_product_errors",
    "C119_squared_errors"
   ],
   "note": "Outcome of the four views for every matrix, for any element type; the class of every exception included. Simplification: the product of ones with a structurally zero scalar has no nonzeros."
  }
 ]
}