{
 "claims": [
  {
   "property": "C01",
   "status": "proved",
   "theorems": [
    "C01_coo_history",
    "C01_coo_new_ok"
   ],
   "note": "history refinement to a bounded list, no panic"
  },
  {
   "property": "C02",
   "status": "proved",
   "theorems": [
    "C02_coo_as_dense",
    "C02_coo_to_dense"
   ],
   "note": "any arithmetic, exact summation order"
  },
  {
   "property": "C03",
   "status": "proved",
   "theorems": [
    "C03_csc_from_coo",
    "C03_csc_same_dense"
   ],
   "note": "exact column contents without any law; dense equality needs only 0+x=x"
  },
  {
   "property": "C04",
   "status": "proved",
   "theorems": [
    "C04_csr_from_coo",
    "C04_csr_same_dense"
   ],
   "note": "exact row contents without any law; dense equality needs only 0+x=x"
  },
  {
   "property": "C05",
   "status": "proved",
   "theorems": [
    "C05_csc_update_history",
    "C05_csr_update_history",
    "C05_csc_update_refused",
    "C05_csr_update_refused"
   ],
   "note": "pointers and columns/rows equal to a fresh conversion after any history of updates (array tails beyond the last pointer are unused and may differ)"
  },
  {
   "property": "C06",
   "status": "proved",
   "theorems": [
    "C06_csc_from_csr",
    "C06_csr_from_csc",
    "C06_csc_from_csr_dense",
    "C06_csr_from_csc_dense",
    "C06_csr_roundtrip",
    "C06_csc_roundtrip"
   ],
   "note": ""
  },
  {
   "property": "C07",
   "status": "proved",
   "theorems": [
    "C07_coo_mat_vec_mul_order",
    "C07_coo_mat_vec_mul",
    "C07_coo_mat_vec_mul_update",
    "C07_coo_mat_t_vec_mul",
    "C07_csc_mat_vec_mul",
    "C07_csr_mat_vec_mul",
    "C07_mismatch"
   ],
   "note": "algebraic reading over any commutative ring; exact order form without laws"
  },
  {
   "property": "C08",
   "status": "proved",
   "theorems": [
    "C08_assign",
    "C08_add",
    "C08_lagrange",
    "C08_assign_cases",
    "C08_add_cases",
    "C08_add_atomic_refuted",
    "C08_actual_nnz"
   ],
   "note": "finding: failing calls are not atomic"
  },
  {
   "property": "C09",
   "status": "proved",
   "theorems": [
    "C09_csc_new_iff",
    "C09_csr_new_iff",
    "C09_csc_new_protects",
    "C09_csr_new_protects",
    "C09_new_total_refuted",
    "C09_new_first_pointer_refuted",
    "C09_coo_from_iff",
    "C09_coo_from_triangle_refuted"
   ],
   "note": "accepted arrays are safe; findings: the constructor itself can panic; non-zero first pointer accepted"
  },
  {
   "property": "C10",
   "status": "proved",
   "theorems": [
    "C10_write_then_read",
    "C10_complex_when_tests_agree",
    "C10_vismatrix",
    "C10_nothing_left_refuted",
    "C10_complex_count_refuted"
   ],
   "note": "Text-level model of both files; the formatter/parser of f64 is an oracle with the contract that what is shown is one word and is parsed back. Any CSC matrix that can be traversed, any symmetry kind and MMsym option, any tolerance, at least one entry above it: same value lists at every position, hence the same dense matrix. A YesFull matrix must really be symmetric, since only its lower triangle is written. Findings: a matrix without entries above the tolerance, and a complex matrix on which the tests of lines 198-245 and 261 disagree, are written to files that cannot be read."
  },
  {
   "property": "C11",
   "status": "proved",
   "theorems": [
    "C11_read_is_the_file",
    "C11_reads_every_file",
    "C11_panics_only_when",
    "C11_missing_dimensions_refuted",
    "C11_many_entries_refuted",
    "C11_upper_entry_refuted",
    "C11_index_min_refuted",
    "C11_hermitian_refuted"
   ],
   "note": "All ASCII texts: Ok exactly for the files described by file_says/storable, with exactly the stored triplets. The 'never panics' part is false: the four causes of a panic are characterised and each is shown to happen. Finding: Hermitian files are read as general."
  },
  {
   "property": "C12",
   "status": "proved",
   "theorems": [
    "C12_increment",
    "C12_success",
    "C12_count",
    "C12_affine",
    "C12_affine_entries",
    "C12_first_call_fails",
    "C12_refused",
    "C12_never_panics",
    "C12_later_failure_refuted"
   ],
   "note": "Any dimension, point, storage kind and stateful function. Finding: when a call after the first fails, y keeps the increment of that column."
  },
  {
   "property": "C13",
   "status": "proved",
   "theorems": [
    "C13_sorts_permute",
    "C13_sorts_sorted",
    "C13_argsort",
    "C13_argsort2",
    "C13_argsort3",
    "C13_compare_numeric"
   ],
   "note": "f64 as the IEEE data of stdlib SpecFloat; std stable sort modelled by stable insertion sort, justified by uniqueness in C13_argsort"
  },
  {
   "property": "C14",
   "status": "proved",
   "theorems": [
    "C14_new",
    "C14_filled",
    "C14_initialized",
    "C14_identity",
    "C14_diagonal",
    "C14_from",
    "C14_from_lower",
    "C14_from_upper",
    "C14_triangle_not_square",
    "C14_extract_row",
    "C14_extract_column",
    "C14_transposed",
    "C14_transposed_twice",
    "C14_history",
    "C14_out_of_range_row_refuted"
   ],
   "note": "no law on numbers; finding: a row index past the end is not always caught"
  },
  {
   "property": "C15",
   "status": "proved",
   "theorems": [
    "C15_band",
    "C15_band_entry",
    "C15_dimension_error"
   ],
   "note": ""
  },
  {
   "property": "C16",
   "status": "proved",
   "theorems": [
    "C16_split_join",
    "C16_join_split",
    "C16_split_join_mismatch",
    "C16_differences_of_cumulative",
    "C16_cumulative_of_differences",
    "C16_cumulative_value",
    "C16_lengths",
    "C16_elementwise",
    "C16_mapped_linspace_values",
    "C16_linspace_R",
    "C16_small_add",
    "C16_small_update",
    "C16_linspace_integer_refuted"
   ],
   "note": "finding: integer linspace does not end at stop"
  },
  {
   "property": "C17",
   "status": "proved",
   "theorems": [
    "C17_array_op",
    "C17_array_plus_opx",
    "C17_copy_scaled",
    "C17_inner",
    "C17_max_abs_diff"
   ],
   "note": "BLAS ddot/dscal/daxpy modelled by their documented elementwise meaning"
  },
  {
   "property": "C18",
   "status": "proved",
   "theorems": [
    "C18_small_inverse",
    "C18_shape_errors"
   ],
   "note": "exact real arithmetic; LAPACK path (m>=4) is an oracle"
  },
  {
   "property": "C19",
   "status": "proved",
   "theorems": [
    "C19_sort_vec_mat",
    "C19_empty_refuted",
    "C19_shape_errors"
   ],
   "note": "finding: empty input panics"
  },
  {
   "property": "C20",
   "status": "proved",
   "theorems": [
    "C20_rotation",
    "C20_eigenpairs",
    "C20_dimensions",
    "C20_two_by_two",
    "C20_scale_refuted"
   ],
   "note": "Real arithmetic. Every rotation keeps V orthogonal, zeroes its pair and preserves V S V^T exactly, except that two diagonal entries that differ by at most the tolerance are taken as equal (change bounded by their difference). On Ok the eigen-equation holds with an explicit bound; the only other outcome for matching dimensions is the non-convergence error. Finding: the tolerance is absolute, so small matrices get zero eigenvalues."
  },
  {
   "property": "C21",
   "status": "proved",
   "theorems": [
    "C21_line_search",
    "C21_succeeds"
   ],
   "note": "Exact arithmetic, f is any stateful and possibly failing callback."
  },
  {
   "property": "C22",
   "status": "proved",
   "theorems": [
    "C22_bracket",
    "C22_strict_refuted",
    "C22_expansion_refuted"
   ],
   "note": "Proved: ordered bracket with f(xo) not above the ends, stored values are values returned by f, for a positive expansion factor. Refuted: strict inequality (a plateau gives equality at one end); a negative expansion factor is accepted and returns xo outside its bracket."
  },
  {
   "property": "C23",
   "status": "proved",
   "theorems": [
    "C23_brent",
    "C23_true_root",
    "C23_small_values_refuted"
   ],
   "note": "Exact arithmetic; the machine epsilon in the tolerances is kept. Finding: a sign change whose product is above -EPSILON is turned down."
  },
  {
   "property": "C24",
   "status": "proved",
   "theorems": [
    "C24_brent_min"
   ],
   "note": "Exact arithmetic; f is any stateful and possibly failing callback."
  },
  {
   "property": "C25",
   "status": "proved",
   "theorems": [
    "C25_newton",
    "C25_first_converged_iterate",
    "C25_finds",
    "C25_last_iterate_refuted"
   ],
   "note": "Residual, Jacobian and linear solver are oracles. Finding: the residual after the last allowed iteration is never tested."
  },
  {
   "property": "C26",
   "status": "proved",
   "theorems": [
    "C26_tiling",
    "C26_errors",
    "C26_accuracy",
    "C26_exact",
    "C26_rule_polynomial",
    "C26_polynomial",
    "C26_first_pass",
    "C26_history",
    "C26_close_bounds_refuted"
   ],
   "note": "Real arithmetic; callback may keep state and fail. The value is the composite rule over a dyadic tiling of [a,b]; the rule tables are checked to integrate degree <= 2n-1 within 1e-16 (scaled). C26_close_bounds_refuted: usize underflow (panic) instead of the documented error for close bounds."
  },
  {
   "property": "C27",
   "status": "proved",
   "theorems": [
    "C27_lengths",
    "C27_free",
    "C27_origin"
   ],
   "note": "Exact arithmetic; the returned line minimises the sum of squares among all lines (all lines through the origin if asked), uniquely when the abscissae are not all equal."
  },
  {
   "property": "C28",
   "status": "proved",
   "theorems": [
    "C28_new",
    "C28_span_terminates",
    "C28_span",
    "C28_basis",
    "C28_out_of_range",
    "C28_recursive",
    "C28_point",
    "C28_hull",
    "C28_ends",
    "C28_elements",
    "C28_unclamped_refuted",
    "C28_overclamped_refuted",
    "C28_interleaved_refuted"
   ],
   "note": "Real arithmetic. The search ends for every knot vector; on sorted clamped knots the basis is Cox-de Boor, nonnegative, sums to one. Findings: unclamped knots give negative values with Ok; an end knot repeated p+2 times divides by zero; calc_point overwrites the functions that get_basis reads but not the span."
  },
  {
   "property": "C29",
   "status": "proved",
   "theorems": [
    "C29_new",
    "C29_eval",
    "C29_eval_trig",
    "C29_set_data",
    "C29_set_data_total",
    "C29_set_gen_data",
    "C29_set_function",
    "C29_set_function_refused",
    "C29_get_xy_data",
    "C29_polynomial",
    "C29_polynomial_function",
    "C29_adapt",
    "C29_tn",
    "C29_tn_deriv1",
    "C29_tn_deriv2",
    "C29_un",
    "C29_un_deriv1",
    "C29_un_deriv2",
    "C29_lobatto_points",
    "C29_lobatto_sorted",
    "C29_gauss_points",
    "C29_gauss_sorted",
    "C29_un_near_refuted",
    "C29_adapt_alias_refuted",
    "C29_failed_set_refuted",
    "C29_constant_data_refuted"
   ],
   "note": "Real arithmetic. Findings: adapt_function accepts any function that vanishes at both ends and the middle as zero; a failed set_function leaves a ready object with stale data; get_xy_data does not return the datum of a constant; chebyshev_un is cut off within 1e-12 of 1."
  },
  {
   "property": "C30",
   "status": "proved",
   "theorems": [
    "C30_new",
    "C30_psi",
    "C30_cardinal",
    "C30_nodes_clear",
    "C30_partition",
    "C30_lebesgue",
    "C30_eval",
    "C30_polynomial",
    "C30_eval_deriv1",
    "C30_eval_deriv2",
    "C30_dd1",
    "C30_dd2",
    "C30_gauss_end_refuted",
    "C30_near_node_refuted"
   ],
   "note": "Real arithmetic; an infinite barycentric sum is an explicit value. x is a node or at least the tolerance 10 eps away from each node. Findings: on a ChebyshevGauss grid the derivative at x = 1 is that at the last node; between a node and the tolerance constants are not reproduced. Error estimators are not modelled beyond the Lebesgue sum."
  },
  {
   "property": "C31",
   "status": "proved",
   "theorems": [
    "C31_roots",
    "C31_degenerate",
    "C31_leading",
    "C31_small_roots_refuted"
   ],
   "note": "Exact arithmetic. The statement holds when the discriminant is outside the absolute tolerance of the code; finding: x^3 - 1e-6 x is returned as a triple root at 0."
  },
  {
   "property": "C32",
   "status": "proved",
   "theorems": [
    "C32_decompose",
    "C32_compose",
    "C32_compose_special",
    "C32_roundtrip",
    "C32_split",
    "C32_split_special",
    "C32_is_integer",
    "C32_is_neg_integer",
    "C32_modulo",
    "C32_modulo_special",
    "C32_compose_overflow_refuted",
    "C32_split_inf_refuted",
    "C32_neg_one_pow_n",
    "C32_steps",
    "C32_boxcar",
    "C32_logistic",
    "C32_smooth_ramp",
    "C32_smooth_ramp_derivatives",
    "C32_superquadric",
    "C32_factorial"
   ],
   "note": "Bit-exact binary64 for composition.rs and modulo.rs (every 64-bit pattern); exact reals for functions.rs. Findings: float_compose overflows i32 for extreme exponents; float_split of an infinity returns a zero fraction where NaN is documented."
  },
  {
   "property": "C33",
   "status": "proved",
   "theorems": [
    "C33_min_max",
    "C33_valleys_and_peaks",
    "C33_nan_refuted"
   ],
   "note": "find_index_abs_max is a BLAS call and is not modelled. Finding: a NaN in first place hides every other value."
  },
  {
   "property": "C34",
   "status": "proved",
   "theorems": [
    "C34_generate3d",
    "C34_ends",
    "C34_last_station_refuted"
   ],
   "note": "generate2d is the one-layer case of the same code. Exact arithmetic for the end points; finding (binary64): with 50 stations on [0,1] the last one is 1-2^-53."
  },
  {
   "property": "C35",
   "status": "proved",
   "theorems": [
    "C35_format",
    "C35_digits",
    "C35_digits_range_refuted"
   ],
   "note": "Finding: 59.999 s with two digits is shown as 60.00s."
  },
  {
   "property": "C36",
   "status": "proved",
   "theorems": [
    "C36_histogram",
    "C36_new_rejects",
    "C36_bin_contains",
    "C36_nan_refuted",
    "C36_unsorted_refuted"
   ],
   "note": "any history of count/reset on ascending stations; findings: NaN lands in the first bin, unsorted stations are accepted"
  },
  {
   "property": "C37",
   "status": "proved",
   "theorems": [
    "C37_statistics",
    "C37_degenerate",
    "C37_dev_zero"
   ],
   "note": "exact real arithmetic"
  },
  {
   "property": "C38",
   "status": "proved",
   "theorems": [
    "C38_defined",
    "C38_interpolates",
    "C38_single",
    "C38_order_statistics",
    "C38_bounds",
    "C38_monotone",
    "C38_quartiles",
    "C38_order_independent"
   ],
   "note": "exact real arithmetic"
  },
  {
   "property": "C39",
   "status": "proved",
   "theorems": [
    "C39_outliers",
    "C39_empty_panics"
   ],
   "note": "exact real arithmetic"
  },
  {
   "property": "C40",
   "status": "proved",
   "theorems": [
    "C40_uniform_new",
    "C40_uniform_cdf",
    "C40_uniform_moments",
    "C40_gumbel_cdf",
    "C40_gumbel_from_mu_sig",
    "C40_frechet_cdf",
    "C40_frechet_moments",
    "C40_normal_cdf",
    "C40_lognormal_cdf",
    "C40_lognormal_from_mu_sig",
    "C40_frechet_cutoff_refuted"
   ],
   "note": "erf enters through its derivative and range (erf_ex_spec shows such a function exists); gamma and the Euler constant are parameters"
  },
  {
   "property": "C41",
   "status": "proved",
   "theorems": [
    "C41_numbering",
    "C41_set_semantics",
    "C41_out_of_range"
   ],
   "note": ""
  },
  {
   "property": "C42",
   "status": "proved",
   "theorems": [
    "C42_grid1_new",
    "C42_grid1_queries",
    "C42_grid1_uniform_R",
    "C42_grid2_new",
    "C42_grid2_new_rejects",
    "C42_grid2_uniform"
   ],
   "note": ""
  },
  {
   "property": "C43",
   "status": "proved",
   "theorems": [
    "C43_history2",
    "C43_history_natural2",
    "C43_validate2",
    "C43_get_nodes2",
    "C43_history1",
    "C43_history_natural1",
    "C43_y_side_panics1",
    "C43_validate1",
    "C43_get_nodes1",
    "C43_enabled1",
    "C43_enabled2",
    "C43_enabled_corner_refuted"
   ],
   "note": "finding: the corner branches of NaturalBcs2d enabled_ij are unreachable, so a corner follows its x side only"
  },
  {
   "property": "C44",
   "status": "proved",
   "theorems": [
    "C44_fdm1",
    "C44_fdm2",
    "C44_sps_no_unknowns_panics",
    "C44_solve_sps_without_prescribed_panics"
   ],
   "note": "finding: solve_sps panics when nothing is prescribed (pure natural/periodic problem passes validation); no unknowns makes the reduced assembly panic"
  },
  {
   "property": "C45",
   "status": "proved",
   "theorems": [
    "C45_fdm1_sps",
    "C45_fdm1_lmm",
    "C45_fdm2_sps",
    "C45_fdm2_lmm",
    "C45_symmetric",
    "C45_fdm1_total_uniform",
    "C45_fdm2_total_uniform"
   ],
   "note": "Exact real arithmetic; every storage kind. The totality theorems show every uniform grid with any boundary history yields a solver."
  },
  {
   "property": "C46",
   "status": "proved",
   "theorems": [
    "C46_fdm1_interior_cubic",
    "C46_fdm1_rows_quadratic",
    "C46_fdm2_interior_cubic",
    "C46_fdm2_rows_quadratic",
    "C46_periodic_corner_refuted"
   ],
   "note": "Exact real arithmetic on uniform coordinates; finding: flux halved at corners of a rectangle with exactly one periodic axis."
  },
  {
   "property": "C47",
   "status": "proved",
   "theorems": [
    "C47_fdm1",
    "C47_fdm2",
    "C47_solvers_agree1",
    "C47_solvers_agree2"
   ],
   "note": "Exact real arithmetic; the external sparse solver is a quantified function."
  },
  {
   "property": "C48",
   "status": "proved",
   "theorems": [
    "C48_point_on_edges_2d",
    "C48_corners_2d",
    "C48_derivatives_2d",
    "C48_no_second_derivative_refuted",
    "C48_point_on_faces_3d",
    "C48_derivatives_3d",
    "C48_none_means_zero",
    "C48_stations",
    "C48_triangulate",
    "C48_triangles_cover",
    "C48_triangulate_panics"
   ],
   "note": "Exact (real) arithmetic. Edges/faces reproduced iff the boundary functions agree at corners/edges; all first and second derivatives (2D and 3D) are the true partials when the supplied boundary derivatives are; omitting second derivatives means supplying zero, which is wrong for curved sides (refuted). Triangulation: exact connectivity, no duplicates, positive reference area, covers the square."
  },
  {
   "property": "C49",
   "status": "proved",
   "theorems": [
    "C49_order",
    "C49_order_dopri8",
    "C49_estimator_order",
    "C49_estimator_exact",
    "C49_structure",
    "C49_error_weights",
    "C49_fsal",
    "C49_estimators_dopri8",
    "C49_fehlberg4_estimator_declared_refuted",
    "C49_dopri8_estimator_declared_refuted"
   ],
   "note": "Every rooted tree up to the declared order (complete enumeration proved), exact rationals of the source literals; DoPri8 within 1e-28. Findings: Fehlberg4 declares estimator order 4 but its embedded weights have order 5; DoPri8 declares 7 but its embedded solutions have orders 5 and 3."
  },
  {
   "property": "C50",
   "status": "proved",
   "theorems": [
    "C50_new",
    "C50_step",
    "C50_accept",
    "C50_no_panic",
    "C50_total",
    "C50_reuse",
    "C50_contract"
   ],
   "note": "Exact arithmetic; f is any function (possibly failing). C50_reuse: a whole solve with stage reuse equals the solve that recomputes k0 at every attempt."
  },
  {
   "property": "C51",
   "status": "proved",
   "theorems": [
    "C51_linear",
    "C51_quadrature"
   ],
   "note": "Exact arithmetic on the rational values of the tables; DoPri8 (decimal tables) up to 1e-28 per coefficient. The step polynomial R(z) depends on the method only and agrees with exp up to the order; any polynomial of degree below the order is integrated exactly."
  },
  {
   "property": "C52",
   "status": "proved",
   "theorems": [
    "C52_dopri5",
    "C52_dopri8",
    "C52_available",
    "C52_dopri5_order4",
    "C52_dopri8_end_slope_refuted",
    "C52_dopri8_scheme",
    "C52_dopri8_order_refuted"
   ],
   "note": "Both curves pass through the two ends of the step and leave with the slope of the equation; DoPri5 also arrives with it and satisfies every order condition up to 4 at every theta. Refuted for DoPri8: the code uses the twelfth stage where f(x', y') is needed, so the slope at the end is wrong and a condition of order 6 fails at mid-step."
  },
  {
   "property": "C53",
   "status": "proved",
   "theorems": [
    "C53_reaches_end",
    "C53_monotone",
    "C53_equal_steps",
    "C53_recorded",
    "C53_no_panic",
    "C53_single_pass_refuted"
   ],
   "note": "OdeSolver::solve over any method respecting the trait contract (step/accept/reject do not touch the driver counters, accept adds h to x). Real arithmetic. Finding: with n_step_max = 1 no variable-step run over a non-trivial interval succeeds, even if its step lands on x1."
  },
  {
   "property": "C54",
   "status": "proved",
   "theorems": [
    "C54_reset",
    "C54_counts",
    "C54_no_divergence"
   ],
   "note": "Counters equal the numbers of attempts of the run; rejections before the first acceptance are not counted in n_rejected (documented behaviour made explicit)."
  },
  {
   "property": "C55",
   "status": "proved",
   "theorems": [
    "C55_stations",
    "C55_uniform_stations",
    "C55_user_stations",
    "C55_default_stations",
    "C55_uniform_drops_refuted",
    "C55_exhausted_panics_refuted"
   ],
   "note": "The last emitted x is the end of the run (within 10 eps of x1, C53). Findings: uniform mode drops the last multiple of h_out when h_out does not divide the interval; running out of steps with dense output is a panic."
  },
  {
   "property": "C56",
   "status": "proved",
   "theorems": [
    "C56_new_limits",
    "C56_accept_range",
    "C56_reject_range",
    "C56_update_params_refuted",
    "C56_no_growth_after_rejection",
    "C56_erk_keeps_flag",
    "C56_radau5_accept",
    "C56_radau5_reject",
    "C56_radau5_keeps_flag",
    "C56_radau5_range_refuted",
    "C56_radau5_rejected_grows_refuted"
   ],
   "note": "Explicit Runge-Kutta: as stated. Radau5: the statement is false as written, the range is [h/m_max, h/m_min] (proved; counterexample proved), and m_max < 1, which validate accepts, makes rejected steps grow. Findings: update_params keeps the limits of the old parameters."
  },
  {
   "property": "C57",
   "status": "proved",
   "theorems": [
    "C57_detected",
    "C57_stops"
   ],
   "note": "For ignored_after_nstep >= 1. The report is raised only at the step where the count equals ratified_after_nstep, not at later positives."
  },
  {
   "property": "C58",
   "status": "proved",
   "theorems": [
    "C58_validate_iff",
    "C58_m_min_boundary_refuted",
    "C58_tolerances",
    "C58_set_tolerances",
    "C58_defaults"
   ],
   "note": "Exact arithmetic, powf any function positive on positives. Finding: m_min = 0.5 is accepted although documented as excluded."
  },
  {
   "property": "C59",
   "status": "proved",
   "theorems": [
    "C59_erk",
    "C59_fresh",
    "C59_dense_stays_refuted",
    "C59_fweuler",
    "C59_bweuler_full_newton",
    "C59_bweuler_modified_newton_refuted",
    "C59_radau5",
    "C59_radau5_refuted",
    "C59_radau5_flag_left_on"
   ],
   "note": "True for explicit Runge-Kutta, forward Euler and backward Euler with full Newton. False for backward Euler with modified Newton and for Radau5 (flags and convergence estimate survive solve); true for Radau5 when the flags are off and the estimate is the same. Finding: dense output stays enabled (DoPri8: three more evaluations per step)."
  },
  {
   "property": "C60",
   "status": "proved",
   "theorems": [
    "C60_bweuler",
    "C60_affine",
    "C60_fweuler",
    "C60_modified_newton_refuted"
   ],
   "note": "The linear algebra is an arbitrary oracle (Jacobian, factorization, solution). Finding: with the modified Newton method a run whose first step needs no iteration never factorizes and fails at the next step."
  },
  {
   "property": "C61",
   "status": "proved",
   "theorems": [
    "C61_basis_orthonormal",
    "C61_t2_new_sym",
    "C61_t4_new_sym",
    "C61_get_std",
    "C61_get_std_range",
    "C61_get_set",
    "C61_set_range_refuted",
    "C61_set_std_matrix",
    "C61_to_std_matrix",
    "C61_roundtrip",
    "C61_components",
    "C61_norm",
    "C61_inner_product",
    "C61_inner_product_reps",
    "C61_as_general",
    "C61_sym2d_as_symmetric",
    "C61_as_std_matrix_2d",
    "C61_sym_set_std",
    "C61_sym_add_std",
    "C61_set_tensor",
    "C61_update",
    "C61_set_vector",
    "C61_clear_new_identity",
    "C61_t4_get_std",
    "C61_t4_set_std_array",
    "C61_t4_set_std_matrix",
    "C61_t4_as_std_array",
    "C61_t4_roundtrip",
    "C61_t4_from_std_array_bad",
    "C61_t4_as_std_matrix",
    "C61_t4_matrix_roundtrip",
    "C61_t4_inner_product",
    "C61_sym_set_std_plane_refuted",
    "C61_t4_set_std_array_atomic_refuted",
    "C61_t4_to_std_array_stale_refuted"
   ],
   "note": "Real arithmetic. A tensor is the sum of its components times an orthonormal basis of 3x3 matrices. Findings: sym_set_std on a 2D tensor accepts out-of-plane indices and writes a component that is never read; a failed Tensor4 set has already written part of the data; Tensor4::to_std_array of a 2D tensor leaves the out-of-plane entries of the target as they were."
  },
  {
   "property": "C62",
   "status": "proved",
   "theorems": [
    "C62_determinant",
    "C62_trace",
    "C62_transpose",
    "C62_squared",
    "C62_add",
    "C62_inverse",
    "C62_inverse_reps",
    "C62_deviator",
    "C62_deviator_norm",
    "C62_deviator_determinant",
    "C62_decompose",
    "C62_axial_vector",
    "C62_cross",
    "C62_dot",
    "C62_invariants",
    "C62_stress_strain_invariants",
    "C62_q_jj2",
    "C62_lode",
    "C62_lode_range",
    "C62_octahedral",
    "C62_octahedral_range",
    "C62_octahedral_alpha",
    "C62_inverse_scale_refuted",
    "C62_decompose_stale_refuted",
    "C62_q_general_refuted"
   ],
   "note": "Real arithmetic, all three representations. Findings: a well-conditioned tensor with small components has no inverse under a fixed tolerance; decompose of a symmetric tensor leaves stale skew components; q differs from sqrt(3 J2) for non-symmetric tensors."
  },
  {
   "property": "C63",
   "status": "proved",
   "theorems": [
    "C63_t4_set_tensor",
    "C63_t4_update",
    "C63_t4_add",
    "C63_t4_ddot_t4",
    "C63_t4_ddot_t4_update",
    "C63_t4_ddot_t2",
    "C63_t4_ddot_t2_update",
    "C63_t2_ddot_t4",
    "C63_t2_ddot_t4_ddot_t2",
    "C63_t2_dyad_t2",
    "C63_t2_dyad_t2_update",
    "C63_t2_odyad_t2",
    "C63_t2_udyad_t2",
    "C63_t2_ssd",
    "C63_t2_qsd_t2",
    "C63_t4_ddot_t2_dyad_t2_ddot_t4",
    "C63_t2_dot_t2",
    "C63_t2_dot_t1",
    "C63_t1_dot_t2",
    "C63_t1_dyad_t1_general",
    "C63_t1_dyad_t1_symmetric",
    "C63_t1_dyad_t1_2d",
    "C63_constants",
    "C63_projections",
    "C63_set_pp_symdev",
    "C63_t4_sym_set_std",
    "C63_reps",
    "C63_t1_dyad_t1_2d_refuted"
   ],
   "note": "Real arithmetic. Every hand-expanded formula of operations_t2/t4/mix1/mix2 (including the loop variants) equals its index-notation definition. Finding: t1_dyad_t1 into a 2D tensor drops the third components without an error. Tensor4::calc_inverse is not modelled."
  },
  {
   "property": "C64",
   "status": "proved",
   "theorems": [
    "C64_history",
    "C64_hooke",
    "C64_plane_stress",
    "C64_out_of_plane_error",
    "C64_conversions",
    "C64_bulk_shear",
    "C64_calc_inverse",
    "C64_inverse_contraction",
    "C64_compliance",
    "C64_compliance_plane_stress",
    "C64_soft_refuted"
   ],
   "note": "Real arithmetic. Every object reachable by a constructor and any sequence of parameter changes. Finding: the compliance of a soft material (E = 1e-16) is refused although the rigidity is a multiple of the identity."
  },
  {
   "property": "C65",
   "status": "proved",
   "theorems": [
    "C65_norm",
    "C65_jj2",
    "C65_jj3",
    "C65_sigma_s",
    "C65_p",
    "C65_sigma_t",
    "C65_q",
    "C65_lode",
    "C65_deriv2_jj2",
    "C65_aux_new",
    "C65_deriv2_jj3",
    "C65_deriv2_c",
    "C65_deriv2_sigma_t",
    "C65_deriv2_q",
    "C65_aux_lode_new",
    "C65_deriv2_lode",
    "C65_squared",
    "C65_squared_sym",
    "C65_inverse",
    "C65_inverse_sym",
    "C65_reps"
   ],
   "note": "Real arithmetic. Directional derivatives along every (symmetric) direction; second derivatives are derivatives of the gradient on the open set J2 > 0. The auxiliary structures may be reused: each call leaves them valid. For J2 <= 1e-9 the functions return None and leave the target alone."
  },
  {
   "property": "C66",
   "status": "proved",
   "theorems": [
    "C66_path",
    "C66_counts",
    "C66_success",
    "C66_failure",
    "C66_no_panic",
    "natural_ok",
    "arclength_ok",
    "C66_success_unmet_refuted",
    "C66_restore_refuted",
    "C66_terminate_refuted"
   ],
   "note": "Any system, callbacks (stateful, may fail), linear solver and stepsize schedule; both methods meet the interface of the driver. The driver itself never panics if the four functions of the method do not (C66_no_panic, without an output object). Findings: Success is also returned when the step budget is used up with the stop criterion unmet; the secondary state is not restored after the failure that ends the run; a terminate request is overridden by UnmetStopCriterion."
  },
  {
   "property": "C67",
   "status": "proved",
   "theorems": [
    "C67_validate",
    "C67_now",
    "C67_initial",
    "C67_steps",
    "C67_target",
    "C67_target_reached",
    "C67_listed",
    "C67_precise",
    "C67_precise_natural",
    "C67_precise_arclength",
    "C67_validate_unmet_refuted",
    "C67_steps_auto_refuted"
   ],
   "note": "Real arithmetic. validate and now decide an explicit specification and never panic together; Steps(n) with prescribed steps ends after exactly n accepted steps; the natural method never passes a lambda target and stops within 1e-10 of it; prescribed increments are walked through in order (C67_listed); with precise targets and automatic steps u never passes the target component by more than 1e-10 (C67_precise, both methods). Findings: a norm criterion already met is accepted; with automatic steps Steps(n) counts attempts at accepted steps only, so one rejection makes the run miss it."
  },
  {
   "property": "C68",
   "status": "proved",
   "theorems": [
    "C68_natural",
    "C68_arclength",
    "C68_run_natural",
    "C68_run_arclength",
    "C68_natural_failure",
    "C68_arclength_failure",
    "C68_counters",
    "C68_cumulative_refuted",
    "C68_infinite_residual",
    "C68_nan_residual_refuted",
    "C68_nan_constraint_refuted"
   ],
   "note": "A step that reports Success ends at a state whose residual (and arc-length constraint) is below tol_abs_residual, or whose Newton correction has scaled RMS <= 1; over whole runs every accepted state is reached by such steps. Every failure status has the cause it names. The divergence counters equal the number of double rises over any history. Finding: the counters are cumulative (not reset when the divergence stops). Finding: a residual that is NaN is taken for converged (Nonlin_Nan_Model.v, on the bit patterns of f64, with idamax as a parameter)."
  },
  {
   "property": "C69",
   "status": "proved",
   "theorems": [
    "C69_bordering",
    "C69_augmented",
    "C69_small_denominator",
    "C69_unique"
   ],
   "note": "Any size, system whose Jacobian callback fills the given matrix, and linear solver that is exact when it succeeds. Both paths return a solution of the same augmented Newton system; the system has at most one solution when G_u is injective and the denominator is not zero, so the two paths agree; the bordering path gives up only below the 1e-10 threshold."
  },
  {
   "property": "C70",
   "status": "proved",
   "theorems": [
    "C70_execute",
    "C70_history",
    "C70_configured",
    "C70_run",
    "C70_set_recording_refuted"
   ],
   "note": "Any configured Output, any sequence of calls without panic: the columns are those of one table with a row for every call that went on; nothing is recorded on a graceful stop. For both methods the table of a run is the initial state followed by every accepted state. Finding: set_recording called again for the same component clears that column only."
  },
  {
   "property": "C71",
   "status": "proved",
   "theorems": [
    "C71_dense"
   ],
   "note": "Exact for the end of the step and the second stage; for the first stage and the beginning the rounding of one decimal constant (1e-50) remains."
  },
  {
   "property": "C72",
   "status": "proved",
   "theorems": [
    "C72_collocation",
    "C72_inverse",
    "C72_transformation",
    "C72_eigenvalues",
    "C72_error_constants",
    "C72_abscissae",
    "C72_stage_equations"
   ],
   "note": "The decimal literals are read as exact real numbers."
  },
  {
   "property": "C73",
   "status": "proved",
   "theorems": [
    "C73_refine",
    "C73_difference_inside",
    "C73_zero_slope_refuted"
   ],
   "note": "Finding: a vanishing difference quotient counts as convergence, so a function without roots is refined successfully; the refined root is not kept in [xa, xb]."
  },
  {
   "property": "C74",
   "status": "proved",
   "theorems": [
    "C74_inverse",
    "C74_determinant",
    "C74_total",
    "C74_singular",
    "C74_scale_refuted",
    "C74_block_refuted"
   ],
   "note": "Real arithmetic, every size. For n >= 4 the returned number equals the value of every alternating multilinear normalised function (the determinant, specified axiomatically by its row operations). Findings: absolute zero-determinant tolerance; for n < N row swaps move entries of the target outside the n-by-n block, contrary to the documentation."
  },
  {
   "property": "C75",
   "status": "proved",
   "theorems": [
    "C75_solve",
    "C75_inverse",
    "C75_total",
    "C75_singular",
    "C75_solve_lin_sys",
    "C75_error_overwrites_refuted"
   ],
   "note": "Real arithmetic, every N and M. Finding: on the singular error the input matrix has already been overwritten."
  },
  {
   "property": "C76",
   "status": "proved",
   "theorems": [
    "C76_ratio",
    "C76_no_control",
    "C76_iterations",
    "C76_rejected",
    "C76_accepted",
    "C76_failure_factor_refuted"
   ],
   "note": "Real arithmetic (an infinite power is an arbitrary positive value). Finding: the failure factor has no upper bound, so a validated configuration may enlarge the stepsize at a rejection."
  },
  {
   "property": "C77",
   "status": "proved",
   "theorems": [
    "C77_initial",
    "C77_update",
    "C77_step"
   ],
   "note": "Real arithmetic, exact linear solves. The Jacobian is the one evaluated last during the iterations of the step (C77_update states which), which after convergence by residual at a later iteration is the one of the previous iterate."
  },
  {
   "property": "C78",
   "status": "proved",
   "theorems": [
    "C78_solution",
    "C78_solve_refused",
    "C78_first_call",
    "C78_next_call",
    "C78_no_panic",
    "C78_compute",
    "C78_compute_available",
    "C78_singular_reported_refuted",
    "C78_determinant_kept_refuted",
    "C78_options",
    "C78_colamd_refuted"
   ],
   "note": "UMFPACK routines are oracles with a stated contract (lib_correct), shown to be satisfiable by an exact integer library; values of any type, so real and complex. Findings: with compute_determinant the code of the numeric factorization is overwritten, so a singular matrix is reported as a success; the determinant is lost at the second factorization."
  },
  {
   "property": "C79",
   "status": "proved",
   "theorems": [
    "C79_solution",
    "C79_solve_refused",
    "C79_call_refused",
    "C79_no_panic",
    "C79_other_object_refuted",
    "C79_dropped_object_refuted",
    "C79_other_positions_refuted",
    "C79_positive_definite_refuted",
    "C79_square_refuted",
    "C79_determinant_kept_refuted"
   ],
   "note": "The full claim is false; it is proved for the use in which every factorize call is given the same object with the same positions in the same order (and positive_definite is not combined with full storage), for all programs of this kind. Findings: another object is ignored (its predecessor's values are used), freed memory is read after a drop, positions of the first call are kept, positive_definite with Sym::No doubles off-diagonal entries, a rectangular matrix is accepted later, the determinant is lost."
  },
  {
   "property": "C80",
   "status": "proved",
   "theorems": [
    "C80_accepted",
    "C80_columns",
    "C80_empty",
    "C80_default_labels_refuted",
    "C80_missing_labels_refuted",
    "C80_duplicates_refuted"
   ],
   "note": "All ASCII texts, any parser of values. Findings: without labels the first row is the header (the documented names col0, col1, ... do not exist and numbers in the first row are lost); a header that lacks the last labels passes the check; duplicate given labels are accepted and their columns are mixed."
  },
  {
   "property": "C81",
   "status": "proved",
   "theorems": [
    "C81_text"
   ],
   "note": "All ASCII texts, any parser of values."
  },
  {
   "property": "C82",
   "status": "proved",
   "theorems": [
    "C82_new",
    "C82_decompose",
    "C82_decompose_refused",
    "C82_compose",
    "C82_roundtrip",
    "C82_octahedral"
   ],
   "note": "Real arithmetic; builds on the theorem about the Jacobi rotations (C20). The state after a failed decomposition is not modelled."
  },
  {
   "property": "C83",
   "status": "proved",
   "theorems": [
    "C83_real",
    "C83_complex",
    "C83_exact",
    "C83_worse",
    "C83_duplicates_refuted"
   ],
   "note": "Real arithmetic; NaN and overflow not modelled (idamax is modelled as the reference BLAS loop). Finding: the largest stored value is not the largest entry of A when duplicates are summed, so the relative error depends on how A is stored."
  },
  {
   "property": "C84",
   "status": "proved",
   "theorems": [
    "C84_assign_cases",
    "C84_add_cases",
    "C84_assign",
    "C84_add",
    "C84_overflow_refuted"
   ],
   "note": "Any commutative ring of parts. Finding: assign_real and add_real with too many values return an error but have changed the matrix already."
  },
  {
   "property": "C85",
   "status": "proved",
   "theorems": [
    "C85_new",
    "C85_collocation",
    "C85_solve",
    "C85_flow",
    "C85_flow_length",
    "C85_flux_only_refuted",
    "C85_all_prescribed_refuted",
    "C85_interval_refuted"
   ],
   "note": "Real arithmetic; the grid and differentiation matrices are those of the InterpLagrange model (C30), the linear solver is a quantified oracle. Findings: with flux conditions only, or with all nodes prescribed, the reduced-system driver panics; an empty interval is accepted."
  },
  {
   "property": "C86",
   "status": "proved",
   "theorems": [
    "C86_new",
    "C86_collocation",
    "C86_solve",
    "C86_flow",
    "C86_flow_length",
    "C86_flux_only_refuted",
    "C86_all_prescribed_refuted"
   ],
   "note": "Real arithmetic; the differentiation matrices are those of the InterpLagrange model (C30), the linear solver is a quantified oracle. Findings: with flux conditions on all sides, or with all nodes prescribed, the reduced-system driver panics."
  },
  {
   "property": "C87",
   "status": "proved",
   "theorems": [
    "C87_pn",
    "C87_pn_unique",
    "C87_derivatives",
    "C87_gauss_weights",
    "C87_lobatto_weights",
    "C87_gauss_points",
    "C87_lobatto_points",
    "C87_small_rules",
    "C87_lobatto_two_refuted"
   ],
   "note": "Real arithmetic. The weight theorems take the points as exact zeros; that the Newton iterations converge to all zeros is not proved (only how they stop). Finding: for two points the Lobatto weights are zero instead of one."
  },
  {
   "property": "C88",
   "status": "proved",
   "theorems": [
    "C88_new",
    "C88_get_std",
    "C88_get_std_range",
    "C88_get_set",
    "C88_set_range_refuted",
    "C88_isometry",
    "C88_set_std_array",
    "C88_set_std_matrix",
    "C88_as_std_array",
    "C88_roundtrip",
    "C88_from_std_array_bad",
    "C88_as_std_matrix",
    "C88_matrix_roundtrip",
    "C88_from_std_matrix_bad",
    "C88_sym_set_std",
    "C88_update",
    "C88_add",
    "C88_dot_t1",
    "C88_ddot_t2",
    "C88_mismatch_panics",
    "C88_set_std_array_atomic_refuted",
    "C88_to_std_array_stale_refuted",
    "C88_sym_set_std_out_of_plane_refuted"
   ],
   "note": "Real arithmetic, default build (fixed 9x9 storage). Findings: a failed set has already written part of the data; to_std_array of a 2D tensor leaves the out-of-plane entries of the target as they were; sym_set_std on a 2D tensor accepts an out-of-plane component and loses it."
  },
  {
   "property": "C89",
   "status": "proved",
   "theorems": [
    "C89_simple_equation_constant",
    "C89_simple_system_with_mass_matrix",
    "C89_brusselator_ode",
    "C89_hairer_wanner_eq1",
    "C89_robertson",
    "C89_van_der_pol",
    "C89_amplifier1t",
    "C89_kreyszig_eq6",
    "C89_kreyszig_ex4",
    "C89_arenstorf",
    "C89_mass_simple",
    "C89_mass_amplifier1t",
    "C89_amplifier1t_consistent",
    "C89_solution_simple_constant",
    "C89_solution_mass",
    "C89_solution_hairer_wanner",
    "C89_solution_kreyszig_eq6",
    "C89_solution_kreyszig_ex4",
    "C89_config",
    "C89_set_jacobian",
    "C89_set_mass",
    "C89_default_nnz",
    "C89_brusselator_pde",
    "C89_brusselator_rhs",
    "C89_brusselator_alloc"
   ],
   "note": "Real arithmetic. The callbacks are modelled by their lists of put calls on the COO model of C01; the Fdm2d argument of the Brusselator by its periodicity, molecule and coordinates, with a proof that the allocated solver has them. Van der Pol needs epsilon <> 0; the Arenstorf Jacobian is taken away from the two bodies. Reference solutions given as decimal numbers and the final points x1 are not modelled."
  },
  {
   "property": "C91",
   "status": "proved",
   "theorems": [
    "C91_central5",
    "C91_forward7",
    "C91_backward7",
    "C91_central9",
    "C91_forward8",
    "C91_backward8",
    "C91_exact",
    "C91_check",
    "C91_check_failing",
    "C91_check_accepts",
    "C91_errors",
    "C91_vec_deriv1",
    "C91_vec_deriv2",
    "C91_num_jacobian"
   ],
   "note": "Real arithmetic: rounding errors, which dominate for smooth functions at h = 1/1000 in the high-order formulas, are not bounded. The truncation constants are explicit in the statements. The user function is a stateful callback; the central formula adapts its step only when its own estimate of the rounding error asks for it, and the bound covers every branch."
  },
  {
   "property": "C90",
   "status": "proved",
   "theorems": [
    "C90_simple_linear_problem",
    "C90_cubic_poly_1",
    "C90_cubic_poly_2",
    "C90_two_eq_ref",
    "C90_two_eq_nr_prob_1",
    "C90_two_eq_nr_prob_2",
    "C90_one_eq_with_fold_point",
    "C90_circle_ul",
    "C90_singular_initial_state",
    "C90_simple_linear_root",
    "C90_cubic_poly_1_points",
    "C90_cubic_poly_2_root",
    "C90_two_eq_ref_root",
    "C90_two_eq_nr_prob_1_root",
    "C90_two_eq_nr_prob_2_roots",
    "C90_fold_point",
    "C90_singular_root",
    "C90_circle_root",
    "C90_new",
    "C90_mat_approx_eq",
    "C90_check_ggu",
    "C90_check_ggu_refuted"
   ],
   "note": "Real arithmetic. bspline_problem_1 is not modelled. The callbacks of this crate do not reset the matrix: the claim is about new matrices (or after a reset). Samples without lambda leave Gl untouched, so it is the derivative only in a zeroed vector. Finding: check_ggu evaluates the numerical derivative at lambda = 0 instead of the given lambda."
  },
  {
   "property": "C92",
   "status": "proved",
   "theorems": [
    "C92_quadrilateral_2d",
    "C92_quarter_ring_2d",
    "C92_half_ring_2d",
    "C92_quarter_perforated_lozenge_2d",
    "C92_brick_3d",
    "C92_quarter_ring_3d",
    "C92_quarter_ring_region",
    "C92_half_ring_region"
   ],
   "note": "maps_2d and maps_3d say: construction succeeds, point is the closed form, and both forms of point_and_derivs return its true partial derivatives. The shapes are written with lerp and polar only. The mutex of quarter_ring_3d is not modelled."
  },
  {
   "property": "C93",
   "status": "proved",
   "theorems": [
    "C93_d1_problem_01",
    "C93_d1_problem_02",
    "C93_d1_problem_03",
    "C93_d1_problem_04a",
    "C93_d1_problem_04b",
    "C93_d1_problem_05",
    "C93_d2_problem_01",
    "C93_d2_problem_02",
    "C93_d2_problem_03",
    "C93_d2_problem_04",
    "C93_d2_problem_04_truncation",
    "C93_d2_problem_05",
    "C93_d2_problem_06",
    "C93_d2_problem_07",
    "C93_d2_problem_08",
    "C93_d2_problem_09",
    "C93_nsum_refuted"
   ],
   "note": "Real arithmetic: the overflow of sinh for ana_nsum > 227, which the documentation warns about, is not modelled. Finding: ana_nsum is about twice the number of terms."
  },
  {
   "property": "C94",
   "status": "proved",
   "theorems": [
    "C94_euler_predictor",
    "C94_simple_predictor",
    "C94_newton_natural",
    "C94_holds_step",
    "C94_holds_start",
    "C94_arc_predictor",
    "C94_newton_arc",
    "C94_recorded_natural",
    "C94_recorded_arclength",
    "C94_first_predictor_refuted"
   ],
   "note": "The linear solver is exact when it succeeds and the Jacobian callback fills the given matrix, as in C69. Finding: the first Euler predictor uses the slope of a point that is not on the curve."
  },
  {
   "property": "C95",
   "status": "proved",
   "theorems": [
    "C95_calculate_2d",
    "C95_calculate_3d",
    "C95_sizes",
    "C95_laplacian_2d",
    "C95_laplacian_3d",
    "C95_small_domain_refuted",
    "C95_ell_homogeneous_refuted"
   ],
   "note": "Over the reals. Findings: the metrics of small regular domains are refused (absolute bound on the squared Jacobian), and the documentation of the L-coefficients asks for the setting under which they panic."
  },
  {
   "property": "C96",
   "status": "proved",
   "theorems": [
    "C96_new",
    "C96_true_map",
    "C96_collocation",
    "C96_solve",
    "C96_flow",
    "C96_flow_length",
    "C96_normal_flux",
    "C96_orthogonal",
    "C96_oblique_flux_refuted",
    "C96_small_domain_refuted"
   ],
   "note": "Over the reals, linear solver and LAPACK as contracts. Findings: on oblique boundaries the natural condition does not impose the normal flux (the exact solution does not solve the discrete system), and small domains make the assembly panic."
  },
  {
   "property": "C97",
   "status": "proved",
   "theorems": [
    "C97_mat_mat_mul",
    "C97_mat_t_mat_mul",
    "C97_mul_sizes",
    "C97_mat_vec_mul",
    "C97_mat_vec_mul_update",
    "C97_vec_mat_mul",
    "C97_vec_sizes",
    "C97_vec_outer",
    "C97_mat_sym_rank_op",
    "C97_complex_mat_herm_rank_op",
    "C97_rank_sizes",
    "C97_sums",
    "C97_inner_zero_refuted",
    "C97_update_zero_refuted",
    "C97_rank_zero_refuted",
    "C97_outer_zero_refuted"
   ],
   "note": "For every commutative ring; the BLAS routines are modelled on raw arrays with leading dimensions, from their documentation. Findings: beta is ignored when the inner dimension is zero; empty matrices give illegal leading dimensions in the rank updates and outer products."
  },
  {
   "property": "C98",
   "status": "proved",
   "theorems": [
    "C98_penrose_unique",
    "C98_pseudo_inverse",
    "C98_pseudo_inverse_sizes",
    "C98_pinv_empty_refuted",
    "C98_eigen",
    "C98_eigen_lr",
    "C98_eigen_sizes",
    "C98_eigen_lr_sizes"
   ],
   "note": "LAPACK's dgesvd and dgeev are oracles with their documented contracts (dgesvd_spec, dgeev_spec); both contracts are shown satisfiable by examples. Finding: empty non-square matrices are refused although they have a pseudo-inverse."
  },
  {
   "property": "C99",
   "status": "proved",
   "theorems": [
    "C99_solve_lin_sys",
    "C99_solve_sizes",
    "C99_cholesky",
    "C99_cholesky_sizes",
    "C99_eigen_sym",
    "C99_eigen_sym_sizes",
    "C99_complex_eigen",
    "C99_complex_eigen_lr",
    "C99_complex_gen_eigen",
    "C99_complex_gen_eigen_lr",
    "C99_complex_left_refuted",
    "C99_complex_sizes",
    "C99_gen_eigen",
    "C99_gen_eigen_lr",
    "C99_gen_pairs_refuted",
    "C99_eigenvalues",
    "C99_real_sizes",
    "C99_complex_svd",
    "C99_complex_svd_sizes",
    "C99_complex_inverse",
    "C99_complex_inverse_sizes"
   ],
   "note": "The LAPACK routines are oracles with their documented contracts, shown satisfiable by examples; the LAPACK path of complex_mat_inverse (4 by 4 and larger) is not modelled. Findings: complex_mat_gen_eigen_lr never computes the left eigenvectors it documents; the columns returned by mat_gen_eigen for complex pairs are not eigenvectors."
  },
  {
   "property": "C100",
   "status": "proved",
   "theorems": [
    "C100_mat_norm",
    "C100_mat_norm_laws",
    "C100_vec_ops",
    "C100_vec_sizes",
    "C100_mat_ops",
    "C100_mat_sizes",
    "C100_mat_max_abs_diff",
    "C100_vec_norm",
    "C100_vec_norm_diff",
    "C100_vec_norm_chunk",
    "C100_complex_vec_norm",
    "C100_max_scaled",
    "C100_max_scaled_diff",
    "C100_rms_scaled",
    "C100_rms_scaled_diff",
    "C100_measure_sizes",
    "C100_vec_zip",
    "C100_mat_zip",
    "C100_zip_sizes"
   ],
   "note": "Exact real and complex arithmetic; the BLAS/LAPACK routines dnrm2, dasum, idamax, dlange, zlange, dcopy, dscal and daxpy are modelled by their reference definitions."
  },
  {
   "property": "C101",
   "status": "proved",
   "theorems": [
    "C101_format_scientific",
    "C101_width",
    "C101_write_number",
    "C101_numpy",
    "C101_mathematica",
    "C101_static_matrix",
    "C101_static_vector",
    "C101_empty_matrix_refuted",
    "C101_empty_vector_refuted",
    "C101_mat_display",
    "C101_vec_display",
    "C101_fmt_scientific",
    "C101_fmt_scientific_nan_refuted",
    "C101_empty_display",
    "C101_vismatrix"
   ],
   "note": "The texts of single numbers ({}, {:?}, {:.p}, {:e}) are arbitrary functions; creating files is not modelled. Findings: empty matrices and vectors give source code that is not well formed; vec_fmt_scientific panics on NaN and infinities."
  },
  {
   "property": "C102",
   "status": "proved",
   "theorems": [
    "C102_hankel_form",
    "C102_j0_even",
    "C102_j1_odd",
    "C102_j1_odd_refuted",
    "C102_jn_parity",
    "C102_jn_reflection",
    "C102_jn_one",
    "C102_jn_forward",
    "C102_jn_backward",
    "C102_jn_tiny",
    "C102_large_argument",
    "C102_yn_forward",
    "C102_yn_reflection",
    "C102_special_values",
    "C102_min_order_refuted",
    "C102_large_order_refuted",
    "C102_in_parity",
    "C102_in_miller",
    "C102_kn",
    "C102_x_times_i_pow_n",
    "C102_i_pow_n",
    "C102_i_pow_min_refuted"
   ],
   "note": "Exact real arithmetic on finite arguments; the rational approximations of orders 0 and 1 are arbitrary functions, so their accuracy is not claimed; infinite arguments of In and Kn are not modelled. Findings: J1 has the wrong sign for -2^-27 < x < 0; orders i32::MIN and n >= 2^30 panic; i_pow_n(i32::MIN) panics."
  },
  {
   "property": "C103",
   "status": "proved",
   "theorems": [
    "C103_f_domain",
    "C103_e_domain",
    "C103_out_of_domain",
    "C103_special_values",
    "C103_pi_zero_n",
    "C103_f_bounds",
    "C103_rd_bounds",
    "C103_rc_bounds",
    "C103_rc_negative",
    "C103_rc_domain",
    "C103_rj_bounds",
    "C103_e_below_f",
    "C103_pi_versus_f",
    "C103_equal_arguments",
    "C103_rf_symmetric",
    "C103_rd_symmetric",
    "C103_pi_large_n_refuted"
   ],
   "note": "Elliptic_Model.v follows elliptic.rs function by function (rf, rd, rc, rj and the three public integrals) over the reals; +Inf results are the constructor Inf. Convergence of rf and rd within the eleven iterations is proved by an explicit chain of ratios min/max. FINDING: elliptic_pi returns an error for every n with 1 - n sin^2(phi) >= 12584. The values of rf, rc, rd and rj (p > 0) are bracketed by the powers -1/2 and -3/2 of the extreme arguments, exact for equal arguments, and E and Pi are compared with F. Not stated: equality with the integrals up to a tolerance, the effect of rounding, convergence of rj for moderate n, and the value of rj for negative p."
  },
  {
   "property": "C104",
   "status": "proved",
   "theorems": [
    "C104_approx_eq",
    "C104_accepts",
    "C104_rejects",
    "C104_zero_tol",
    "C104_symmetric",
    "C104_nan_tol_refuted",
    "C104_array_approx_eq",
    "C104_vec_approx_eq",
    "C104_complex_approx_eq",
    "C104_complex_array_approx_eq",
    "C104_complex_vec_approx_eq",
    "C104_assert_alike",
    "C104_mat_approx_eq",
    "C104_complex_mat_approx_eq",
    "C104_empty_nested_refuted",
    "C104_ragged_refuted"
   ],
   "note": "Numbers are IEEE binary64 values of Flocq (binary_float 53 1024, one NaN), so rounding, overflow, signed zeros and NaN are part of the model; subtraction is Flocq's Bminus to nearest even, whose correctness theorem is used. The conversion to_f64 is an arbitrary function. FINDINGS: a NaN tolerance accepts everything finite; empty nested arrays panic in size(); entries beyond the length of the first row are ignored. Panic messages are not modelled."
  },
  {
   "property": "C105",
   "status": "proved",
   "theorems": [
    "C105_gamma_special",
    "C105_gamma_recurrence",
    "C105_gamma_factorial",
    "C105_gamma_stirling",
    "C105_gamma_reflection",
    "C105_beta_identity",
    "C105_beta_total",
    "C105_beta_symmetric",
    "C105_ln_beta_identity",
    "C105_beta_negative_integer",
    "C105_beta_pole",
    "C105_beta_i32_refuted",
    "C105_beta_symmetry_refuted",
    "C105_ln_beta_sign_refuted",
    "C105_ln_beta_small_refuted"
   ],
   "note": "Exact real arithmetic with NaN and infinities (no signed zeros, no overflow of finite results). The polynomial coefficients of gamma are arbitrary, so accuracy is not claimed, only the functional equations. For beta the routines gamma and ln_gamma are parameters assumed to compute one function G without zeros away from the poles (instances exist: C105_computes_any). balanced excludes the expansion for one argument above 10^6 (an approximation). FINDINGS: the documented symmetry fails for two non-positive integers of different parity (-Inf against +Inf); below -2^31 every integer gives +Inf; ln_beta returns -Inf for ordinary arguments such as (30, 40) because values below 10 epsilon count as zero; ln_beta returns -ln|B| in the expansion when gamma(b) < 0."
  },
  {
   "property": "C106",
   "status": "proved",
   "theorems": [
    "C106_special",
    "C106_erf_odd",
    "C106_erfc_reflect",
    "C106_complement",
    "C106_range",
    "C106_cut",
    "C106_erf_inv_domain",
    "C106_inverse_symmetry",
    "C106_erfc_inv_small_refuted"
   ],
   "note": "Exact real arithmetic with NaN and infinities, with the coefficients of the code (generated from the source). Nothing is said about the distance to the true error function. FINDING: erfc_inv(2^-60) is +Inf in f64 (Flocq computes 1 - x = 1), although only erfc_inv(0) is documented as +Inf."
  },
  {
   "property": "C107",
   "status": "proved",
   "theorems": [
    "C107_special",
    "C107_sin",
    "C107_low_bit",
    "C107_sign",
    "C107_reflection",
    "C107_recurrence",
    "C107_denominators",
    "C107_log_sign"
   ],
   "note": "Exact real arithmetic with NaN and infinities, with the coefficients of the code (generated from the source). `modulo` is the exact remainder. The recurrence is only exact on the ranges where the code itself reduces one argument to the other; nothing is said about the distance to the true function."
  },
  {
   "property": "C108",
   "status": "proved",
   "theorems": [
    "C108_new",
    "C108_basis",
    "C108_errors",
    "C108_curve",
    "C108_unique",
    "C108_methods_agree",
    "C108_redimension_refuted"
   ],
   "note": "Exact real arithmetic. The specification uses the derivative of the standard library (derivable_pt_lim), iterated, of a function that is smooth everywhere and equals the Cox-de Boor function on the span; C108_unique shows that this determines the value, also at the ends of the span. The earlier contents of the work arrays are arbitrary."
  },
  {
   "property": "C109",
   "status": "proved",
   "theorems": [
    "C109_chebyshev",
    "C109_chebyshev_errors",
    "C109_chebyshev_polynomial",
    "C109_not_ready",
    "C109_lagrange",
    "C109_lagrange_all",
    "C109_lagrange_polynomial",
    "C109_lagrange_errors",
    "C109_lagrange_all_errors",
    "C109_nan_refuted",
    "C109_no_station_refuted"
   ],
   "note": "Exact real arithmetic; NaN is modelled as an answer of the Chebyshev callback. The polynomial theorem for Lagrange needs every station to be a node or farther than the node tolerance from all nodes (see C30_near_node_refuted)."
  }
 ]
}