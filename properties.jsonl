{"id": "C01", "title": "COO matrix behaves as a bounded triplet list", "statement": "For every history of put/reset calls on a CooMatrix: put succeeds exactly when the row and column are in range, fewer than max_nnz triplets are stored and the entry lies in the triangle allowed by the symmetry flag; a failing put changes nothing observable; the stored triplets are exactly the successful puts since the last reset, in order; dimensions, symmetry flag and capacity never change.", "quantifier": "all dimensions, capacities, symmetry flags, value types and all finite sequences of put/reset calls", "why_tests_cant": "the claim is about every call history and every size; tests exercise a handful of short histories", "anchors": ["russell_sparse/src/coo_matrix.rs: NumCooMatrix::new, put, reset"]}
{"id": "C02", "title": "COO densification sums duplicates and mirrors triangles", "statement": "to_dense/as_dense of a COO matrix yields, at every (i,j), the sum in insertion order of all values put at (i,j), plus, when only one triangle is stored, those put at (j,i) with i≠j; every other entry is zero.", "quantifier": "all triplet lists (any number of duplicates, any order), all dimensions, all three storage kinds, any arithmetic (no algebraic law is used)", "why_tests_cant": "duplicates and orders are unbounded; f64 sums depend on order so examples cannot settle the exact sum", "anchors": ["russell_sparse/src/coo_matrix.rs: to_dense, as_dense"]}
{"id": "C03", "title": "COO to CSC conversion is well formed and loses nothing", "statement": "CscMatrix::from_coo of any valid non-empty COO matrix returns Ok without an out-of-bounds access; column pointers start at 0, never decrease and end at the number of stored entries; row indices are in range and strictly increasing inside each column (so duplicates are merged); the dense matrix represented is entry-by-entry the same (for commutative-associative addition; the exact summation order is also characterised).", "quantifier": "all COO matrices with at least one triplet, all sizes and duplicate patterns", "why_tests_cant": "the algorithm's workspace bookkeeping must be right for every pattern; a wrong boundary shows only for particular duplicate layouts", "anchors": ["russell_sparse/src/csc_matrix.rs: from_coo, update_from_coo"]}
{"id": "C04", "title": "COO to CSR conversion is well formed and loses nothing", "statement": "CsrMatrix::from_coo of any valid non-empty COO matrix returns Ok; row pointers start at 0, never decrease and end at the number of stored entries; column indices are in range and strictly increasing in each row; the dense matrix represented is entry-by-entry the same.", "quantifier": "all COO matrices with at least one triplet, all sizes and duplicate patterns", "why_tests_cant": "the in-place compaction is correct only if read/write cursors never cross for any pattern", "anchors": ["russell_sparse/src/csr_matrix.rs: from_coo, update_from_coo"]}
{"id": "C05", "title": "Reusing a CSC/CSR matrix equals a fresh conversion", "statement": "After any sequence of update_from_coo calls with matrices of the same shape, symmetry and capacity, the CSC (CSR) matrix is identical to from_coo of the last COO matrix: stale workspace contents never leak into the result.", "quantifier": "all sequences of compatible COO matrices", "why_tests_cant": "stale-state bugs depend on the history of previous contents", "anchors": ["russell_sparse/src/csc_matrix.rs: update_from_coo", "russell_sparse/src/csr_matrix.rs: update_from_coo"]}
{"id": "C06", "title": "CSC and CSR conversions preserve the matrix", "statement": "CscMatrix::from_csr and CsrMatrix::from_csc of a well-formed matrix produce a well-formed matrix with the same dense matrix; converting there and back returns the same arrays.", "quantifier": "all well-formed CSR/CSC matrices of any size", "why_tests_cant": "pointer shifting must be right for every sparsity pattern including empty rows/columns", "anchors": ["russell_sparse/src/csc_matrix.rs: from_csr", "russell_sparse/src/csr_matrix.rs: from_csc"]}
{"id": "C07", "title": "Sparse matrix-vector products equal the dense product", "statement": "mat_vec_mul, mat_vec_mul_update (COO) and mat_t_vec_mul compute alpha*A*u, v+alpha*A*u and alpha*A^T*u for the dense matrix A represented, for COO, CSC and CSR and every symmetry storage; they fail exactly on dimension mismatch and leave v unchanged then.", "quantifier": "all matrices, vectors, scalars, dimensions and storages", "why_tests_cant": "triangular storage doubles contributions except on the diagonal; only a universal statement covers all index pairs", "anchors": ["russell_sparse/src/coo_matrix.rs: mat_vec_mul, mat_vec_mul_update, mat_t_vec_mul", "russell_sparse/src/csc_matrix.rs: mat_vec_mul", "russell_sparse/src/csr_matrix.rs: mat_vec_mul"]}
{"id": "C08", "title": "COO assign, add and Lagrange block compose matrices", "statement": "assign(alpha,B) makes A represent alpha*B; add(alpha,B) makes A represent A+alpha*B; put_lagrange_block(E) appends E and, for full storage, its transpose so that A represents [[K,E^T],[E,0]]; each succeeds when shape, storage and capacity suffice.", "quantifier": "all compatible COO matrices and scalars", "why_tests_cant": "must hold for all nnz patterns, offsets and capacities", "anchors": ["russell_sparse/src/coo_matrix.rs: assign, add, put_lagrange_block"]}
{"id": "C09", "title": "CSC/CSR constructor validation protects later operations", "statement": "If CscMatrix::new/CsrMatrix::new accepts arrays then to_dense and mat_vec_mul on the result never access out of bounds.", "quantifier": "all input arrays", "why_tests_cant": "adversarial arrays are unbounded; the constructor itself must not panic", "anchors": ["russell_sparse/src/csc_matrix.rs: new, to_dense", "russell_sparse/src/csr_matrix.rs: new, to_dense"]}
{"id": "C10", "title": "Matrix Market write then read reproduces the matrix", "statement": "Writing a CSC matrix with write_matrix_market and reading it back gives a COO matrix representing the same dense matrix whose entries above the tolerance are kept; header symmetry is preserved.", "quantifier": "all well-formed matrices, symmetry kinds, tolerances", "why_tests_cant": "round trip over all patterns; the number formatter/parser is an oracle", "anchors": ["russell_sparse/src/write_matrix_market.rs: write_matrix_market", "russell_sparse/src/read_matrix_market.rs: read_matrix_market"]}
{"id": "C11", "title": "Matrix Market reader accepts exactly well-formed files", "statement": "Reading any sequence of lines returns Ok only if header, dimensions and exactly nnz in-range data lines are present and then the result holds exactly those triplets (mirrored as requested for symmetric files); otherwise it returns Err, never panics.", "quantifier": "all finite token streams", "why_tests_cant": "malformed inputs are unbounded", "anchors": ["russell_sparse/src/read_matrix_market.rs: MatrixMarketData, read_matrix_market"]}
{"id": "C12", "title": "Sparse numerical Jacobian restores its input and is exact for affine functions", "statement": "numerical_jacobian leaves x and y as they were when the function never fails, puts exactly ndim*ndim entries column by column and, for affine functions in exact arithmetic, yields exactly multiplier times the matrix.", "quantifier": "all dimensions, points, functions (oracle)", "why_tests_cant": "restoration must hold for every function and point", "anchors": ["russell_sparse/src/numerical_jacobian.rs: numerical_jacobian"]}
{"id": "C13", "title": "Fixed-size sorts and arg-sorts", "statement": "sort2, sort3, sort4 (and argsort2/3 and the descending/strided variants that exist) return a permutation of their input in the documented order; arg-sorts return a permutation of indices that sorts the input and do not modify the data.", "quantifier": "all values of any totally ordered type", "why_tests_cant": "sorting networks must be right for all orderings including ties", "anchors": ["russell_lab/src/base/sort.rs"]}
{"id": "C14", "title": "Dense matrix storage layout", "statement": "For every constructor (new, from, initialized, filled, identity, diagonal, from_lower, from_upper, transposed) get(i,j) returns the mathematically specified entry; set(i,j,v) changes exactly entry (i,j); extract_row/extract_column return the row/column; transposing twice is the identity; entries in valid range never alias.", "quantifier": "all dimensions, entries and all histories of set/add/mul", "why_tests_cant": "aliasing is an all-index-pairs property", "anchors": ["russell_lab/src/matrix/num_matrix.rs"]}
{"id": "C15", "title": "Conversion to LAPACK band storage", "statement": "mat_convert_to_blas_band places A(i,j) at row ku+i-j (offset as documented) column j of the band matrix for exactly the entries with max(0,j-ku)<=i<min(m,j+kl+1), leaving all other band entries unchanged, with no out-of-range access.", "quantifier": "all m,n,kl,ku and matrices", "why_tests_cant": "index arithmetic with unsigned subtraction must be right for all bandwidths", "anchors": ["russell_lab/src/matrix/mat_convert_to_blas_band.rs"]}
{"id": "C16", "title": "Vector utilities obey their algebra", "statement": "split2 then join2 is the identity for any split point; get_differences and get_cumulative_sum(start) are mutually inverse; linspace has the requested count, first element start, constant step; map/scale/initialized act elementwise; the small-vector sum and update write exactly the first n components and panic when n exceeds the size.", "quantifier": "all lengths and values", "why_tests_cant": "all lengths including 0 and 1", "anchors": ["russell_lab/src/vector/num_vector.rs", "russell_lab/src/small/small_vec_add.rs: small_vec_add", "russell_lab/src/small/small_vec_update.rs: small_vec_update"]}
{"id": "C17", "title": "Unrolled vector kernels equal the plain loops", "statement": "vec_copy_scaled (unrolled by four) writes alpha*u[i] at every i, vec_inner (unrolled up to the fixed sizes) equals the sum of products, vec_max_abs_diff returns the maximum absolute difference with its first index, for every length; length mismatch is an error and changes nothing.", "quantifier": "all lengths and values", "why_tests_cant": "remainder handling depends on length mod 4; index argument on ties", "anchors": ["russell_lab/src/vector/vec_copy_scaled.rs", "russell_lab/src/vector/vec_inner.rs", "russell_lab/src/vector/vec_max_abs_diff.rs"]}
{"id": "C18", "title": "Closed-form small matrix inverses", "statement": "For 1x1, 2x2 and 3x3 matrices mat_inverse returns Err exactly when |det|<=1e-15 and otherwise Ok(det) with the true determinant and ai satisfying a*ai = ai*a = I (exact arithmetic).", "quantifier": "all real matrices of those sizes", "why_tests_cant": "a sign error in a cofactor can hide on structured samples", "anchors": ["russell_lab/src/matrix/mat_inverse.rs"]}
{"id": "C19", "title": "Joint sorting of eigenvalues and eigenvectors", "statement": "sort_vec_mat orders the vector (descending) and permutes the matrix columns by the same permutation, so every (value, column) pair is preserved with multiplicity.", "quantifier": "all sizes and values, ties included", "why_tests_cant": "pairing must be preserved for all permutations", "anchors": ["russell_lab/src/matvec/sort_vec_mat.rs"]}
{"id": "C20", "title": "Jacobi eigenvalue iteration invariant", "statement": "Every rotation of mat_eigen_sym_jacobi preserves A*V = V*A' similarity and orthogonality of V; when it returns Ok, the reported eigenpairs satisfy the eigen-equation up to the neglected off-diagonal part, and V is orthogonal.", "quantifier": "all symmetric matrices, all sizes, any number of sweeps", "why_tests_cant": "invariant over an unbounded number of rotations", "anchors": ["russell_lab/src/matrix/mat_eigen_sym_jacobi.rs"]}
{"id": "C21", "title": "Line search contract", "statement": "LineSearch returns Ok(x) only with a step satisfying its documented acceptance (Armijo/Wolfe-type) test for the given function, within its iteration limit, otherwise Err; it never evaluates outside the documented bracket.", "quantifier": "all functions (oracle), starting points, directions and parameters", "why_tests_cant": "functions are unbounded oracles", "anchors": ["russell_lab/src/algo/line_search.rs"]}
{"id": "C22", "title": "Minimum bracketing contract", "statement": "MinBracketing methods return Ok(bracket) only if a<xo<b (or ordered) and f(xo) is below both ends as documented, with stored function values equal to f at these points; function failures propagate.", "quantifier": "all functions, initial guesses, parameters", "why_tests_cant": "any function oracle", "anchors": ["russell_lab/src/algo/min_bracketing.rs"]}
{"id": "C23", "title": "Brent root finder contract", "statement": "RootFinder::brent returns Ok(x) only with x in the initial interval and either f(x)=0 or a sign change of f within the tolerance of x, keeping a sign-changing bracket at every iteration; for a continuous f a true root lies within tolerance of x.", "quantifier": "all functions, all brackets, any number of iterations", "why_tests_cant": "invariant over all iterations of an adaptive loop", "anchors": ["russell_lab/src/algo/root_finder_brent.rs"]}
{"id": "C24", "title": "Brent minimizer contract", "statement": "MinSolver::brent keeps its point inside the bracket and never returns a point whose value is above the best value it evaluated.", "quantifier": "all functions and brackets", "why_tests_cant": "invariant over all iterations", "anchors": ["russell_lab/src/algo/min_solver.rs"]}
{"id": "C25", "title": "Newton solver returns only converged points", "statement": "NewtonSolver::solve returning Ok guarantees the residual norm (or correction norm, as configured) met the tolerance at the returned point; statistics count the calls made; failure of the callbacks propagates.", "quantifier": "all functions, Jacobians, linear solvers (oracles), tolerances", "why_tests_cant": "all callback behaviours", "anchors": ["russell_lab/src/algo/newton_solver.rs"]}
{"id": "C26", "title": "Adaptive quadrature covers the interval", "statement": "Quadrature::integrate sums rule values over sub-intervals that tile [a,b] exactly once, whatever the error estimates are, and it is exact when the rule is exact on each piece (additivity).", "quantifier": "all functions, intervals, refinement histories", "why_tests_cant": "the explicit stack/bit bookkeeping must be right for every refinement pattern", "anchors": ["russell_lab/src/algo/quadrature.rs"]}
{"id": "C27", "title": "Linear fit is the least squares optimum", "statement": "linear_fitting returns (c,m) minimising the sum of squared residuals among all lines (through the origin if requested) when the data are not degenerate.", "quantifier": "all data sets of any size", "why_tests_cant": "optimality quantifies over all other lines", "anchors": ["russell_lab/src/algo/linear_fitting.rs"]}
{"id": "C28", "title": "B-spline basis", "statement": "For a sorted clamped knot vector, the span search terminates and returns the unique span containing u, and the basis functions computed at u are non-negative and sum to 1. get_elements lists exactly the spans longer than the tolerance.", "quantifier": "all knot vectors, degrees and parameters", "why_tests_cant": "binary search termination and a recurrence over all degrees", "anchors": ["russell_lab/src/algo/bspline.rs"]}
{"id": "C29", "title": "Chebyshev interpolation reproduces its data and every low-degree polynomial", "statement": "After set_data, set_gen_data, set_function or a successful adapt_function, InterpChebyshev.eval (Clenshaw) equals sum a_k T_k at every point, takes the given values at the Chebyshev-Gauss-Lobatto points and reproduces every polynomial of degree at most nn everywhere on [xa, xb]. The library's T_n, U_n and their first two derivatives are the polynomials of the recurrences and their derivatives at every real point (outside the cut-off band around +-1). The grids are sorted and hold the documented points.", "quantifier": "all degrees, coefficients, functions (which may fail) and points", "why_tests_cant": "recurrences over all degrees; exactness for all polynomials", "anchors": ["russell_lab/src/algo/interp_chebyshev.rs", "russell_lab/src/math/chebyshev.rs", "russell_lab/src/math/chebyshev_u.rs"]}
{"id": "C30", "title": "Lagrange interpolation is cardinal and exact", "statement": "InterpLagrange: psi_j(x_i) is 1 if i=j else 0; the psi sum to one; eval reproduces every polynomial of degree <= N exactly; the derivative matrix has zero row sums and differentiates such polynomials exactly at nodes.", "quantifier": "all node sets with distinct nodes, all degrees, all polynomials of that degree", "why_tests_cant": "universal over nodes/degrees/polynomials", "anchors": ["russell_lab/src/algo/interp_lagrange.rs"]}
{"id": "C31", "title": "Cubic polynomial roots", "statement": "solve_cubic returns only numbers that are roots of x^3+ax^2+bx+c and, in each discriminant case, all real roots with the documented arrangement.", "quantifier": "all real coefficients", "why_tests_cant": "continuum of inputs with case distinctions at the discriminant", "anchors": ["russell_lab/src/algo/cubic.rs"]}
{"id": "C32", "title": "Float decomposition and integer helpers", "statement": "float_compose(float_decompose(x)) = x; modulo satisfies its sign and range law; sign/ramp/boxcar/heaviside helpers satisfy their defining piecewise laws for all arguments.", "quantifier": "all finite doubles / integers", "why_tests_cant": "2^64 bit patterns incl. subnormals", "anchors": ["russell_lab/src/math/composition.rs", "russell_lab/src/math/modulo.rs", "russell_lab/src/math/functions.rs"]}
{"id": "C33", "title": "Extrema search", "statement": "find_index_abs_max / find_min_max return the extreme values with first index; find_valleys_and_peaks returns exactly the indices of strict local extrema as documented.", "quantifier": "all sequences of any length", "why_tests_cant": "boundary and plateau cases for all lengths", "anchors": ["russell_lab/src/base/find_min_max.rs", "russell_lab/src/base/find_valleys_and_peaks.rs"]}
{"id": "C34", "title": "Generators", "statement": "generate2d/generate3d/linspace-type generators produce grids with g.get(j,i)= expected coordinate, first and last values exact, for all counts including 0 and 1.", "quantifier": "all counts and limits", "why_tests_cant": "corner counts", "anchors": ["russell_lab/src/base/generators.rs"]}
{"id": "C35", "title": "Duration formatting", "statement": "format_nanoseconds decomposes any u128 duration into hours/minutes/seconds... that recompose to the same duration (up to the printed sub-unit fraction) with each field in its range.", "quantifier": "all u128 values", "why_tests_cant": "2^128 values", "anchors": ["russell_lab/src/base/formatters.rs"]}
{"id": "C36", "title": "Histogram counts every datum in exactly its bin", "statement": "For sorted stations, after any history of count/reset calls, count in bin i equals the number of data since the last reset with stations[i] <= x < stations[i+1]; data outside are ignored; the binary search never indexes out of bounds.", "quantifier": "all station lists, all data histories", "why_tests_cant": "binary search boundaries over all lists", "anchors": ["russell_stat/src/histogram.rs: new, count, reset, find_bin"]}
{"id": "C37", "title": "Descriptive statistics", "statement": "Statistics::new returns the true min, max, mean and the (n-1)-normalised variance of the data (exact arithmetic), with std_dev its square root and the degenerate sizes as documented.", "quantifier": "all non-empty data sets", "why_tests_cant": "corrected two-pass formula must equal the definition for all n", "anchors": ["russell_stat/src/statistics.rs"]}
{"id": "C38", "title": "Quantiles", "statement": "quantile(sorted,q) lies between min and max, is monotone in q, equals the order statistics at q=k/(n-1), and quartiles do not depend on the input order.", "quantifier": "all sorted data, all q in [0,1]", "why_tests_cant": "continuum of q; all n", "anchors": ["russell_stat/src/quantile.rs", "russell_stat/src/quartiles.rs", "russell_stat/src/inter_quartile_range.rs"]}
{"id": "C39", "title": "Outlier detection", "statement": "outliers reports exactly the values outside [Q1-1.5 IQR, Q3+1.5 IQR] with their original indices.", "quantifier": "all data sets", "why_tests_cant": "set equality for all data", "anchors": ["russell_stat/src/outliers.rs"]}
{"id": "C40", "title": "Distribution functions", "statement": "For uniform, Gumbel and Frechet (and lognormal/normal given erf), cdf is monotone, in [0,1], and pdf is its derivative wherever stated; parameter conversions from (mu,sigma) reproduce mean and deviation formulas.", "quantifier": "all parameters in the documented domain and all x", "why_tests_cant": "real-analysis statement over a continuum", "anchors": ["russell_stat/src/distribution_uniform.rs", "russell_stat/src/distribution_gumbel.rs", "russell_stat/src/distribution_frechet.rs", "russell_stat/src/distribution_lognormal.rs", "russell_stat/src/distribution_normal.rs"]}
{"id": "C41", "title": "Equation numbering is a bijection", "statement": "After any history of recompute calls, EquationHandler partitions 0..neq into unknown and prescribed; iu/ip are inverse bijections onto 0..nu and 0..np, order preserving; asking for the wrong kind is an explicit error.", "quantifier": "all neq, all lists of prescribed equations (any order, repetition), all histories", "why_tests_cant": "history and permutation dependence", "anchors": ["russell_pde/src/equation_handler.rs"]}
{"id": "C42", "title": "2D grid numbering and boundary queries", "statement": "Grid2d: (i,j) and m convert back and forth; the coordinates of point m are (x_i,y_j); side membership, on_boundary, is_corner and get_nodes_on_side agree with i=0, i=nx-1, j=0, j=ny-1; Grid1d likewise.", "quantifier": "all nx, ny >= 2 and coordinates", "why_tests_cant": "all-index claim over all sizes", "anchors": ["russell_pde/src/grid_1d.rs", "russell_pde/src/grid_2d.rs"]}
{"id": "C43", "title": "Boundary condition bookkeeping", "statement": "For every history of set/set_homogeneous/set_periodic calls on EssentialBcs*/NaturalBcs*, the stored periodicity flags, functions and set-marks are those the latest relevant call left, validate accepts exactly the documented combinations and never panics, get_nodes returns each constrained node exactly once and nothing else, and the 'enabled' queries of the natural conditions answer whether the node's side has a condition.", "quantifier": "all histories of BC calls and grid sizes", "why_tests_cant": "interaction of calls in any order", "anchors": ["russell_pde/src/essential_bcs_1d.rs", "russell_pde/src/essential_bcs_2d.rs", "russell_pde/src/natural_bcs_1d.rs", "russell_pde/src/natural_bcs_2d.rs"]}
{"id": "C44", "title": "FDM assembly never overflows its storage", "statement": "Fdm1d/Fdm2d get_matrices_sps and get_matrices_lmm never exceed the pre-computed nnz capacities, never put out of range or in the wrong triangle, so no unwrap panics, for any grid and boundary configuration that passes validation (when the sub-matrices are non-empty).", "quantifier": "all grid sizes, BC combinations, symmetry options", "why_tests_cant": "capacity formula must dominate for all sizes", "anchors": ["russell_pde/src/fdm_1d.rs: get_matrices_sps, get_matrices_lmm", "russell_pde/src/fdm_2d.rs: get_matrices_sps, get_matrices_lmm"]}
{"id": "C45", "title": "FDM matrices are symmetric and storages agree", "statement": "The assembled matrix is symmetric for every configuration and the full, lower and upper storages represent the same matrix; every row's stencil equals the documented molecule with mirrored or periodic neighbours.", "quantifier": "all grid sizes, coefficients, BCs", "why_tests_cant": "row/column-wise universal claim", "anchors": ["russell_pde/src/fdm_1d.rs: loop_over_bandwidth", "russell_pde/src/fdm_2d.rs: loop_over_bandwidth"]}
{"id": "C46", "title": "FDM discretisation is exact for low-degree polynomials", "statement": "Applying the assembled molecule to samples of a polynomial of degree <=3 (per direction) reproduces -k*u''+... exactly at interior nodes for every spacing and coefficient; the mirrored boundary rows are exact for even extensions.", "quantifier": "all spacings, coefficients, polynomials of that degree", "why_tests_cant": "consistency over a continuum", "anchors": ["russell_pde/src/fdm_1d.rs: new", "russell_pde/src/fdm_2d.rs: new"]}
{"id": "C47", "title": "Reduced (SPS) and Lagrange (LMM) systems are equivalent", "statement": "A vector solves the reduced system with prescribed values inserted if and only if it (with the induced multipliers) solves the Lagrange system.", "quantifier": "all matrices, partitions, right-hand sides", "why_tests_cant": "linear-algebra equivalence over all sizes", "anchors": ["russell_pde/src/fdm_1d.rs: solve_sps, solve_lmm, get_joined_vector_sps", "russell_pde/src/fdm_2d.rs"]}
{"id": "C48", "title": "Transfinite maps interpolate their boundary", "statement": "Transfinite2d.point(r,s) equals the boundary curves on all four edges when the curves share corners, and the returned derivatives are the true partial derivatives; triangulate returns in-range, non-degenerate connectivity covering the grid.", "quantifier": "all boundary functions, all (r,s), all grid counts", "why_tests_cant": "continuum of points and functions", "anchors": ["russell_pde/src/transfinite_2d.rs", "russell_pde/src/transfinite_3d.rs"]}
{"id": "C49", "title": "Runge-Kutta tableaux satisfy the order conditions", "statement": "Each explicit Runge-Kutta tableau (Rk2..Fehlberg7) satisfies the order condition of every rooted tree up to its declared order (and the embedded weights up to the estimator order), row sums equal c, A is strictly lower triangular and error weights are b-be; for DoPri8 up to rounding.", "quantifier": "all rooted trees of order up to the declared order, i.e. all sufficiently smooth ODEs", "why_tests_cant": "order is a statement about all right-hand sides; a convergence test on one problem cannot settle it", "anchors": ["russell_ode/src/constants.rs", "russell_ode/src/enums.rs: Method::information"]}
{"id": "C50", "title": "Explicit Runge-Kutta step is the method of its tableau", "statement": "ExplicitRungeKutta step/accept computes y+h*sum b_i k_i with k_i = f(x+c_i h, y+h*sum a_ij k_j) and error from e; first-same-as-last reuse and reuse after rejection give the same stages as recomputation.", "quantifier": "all right-hand sides (oracle), dimensions, histories of accept/reject", "why_tests_cant": "stale stage reuse depends on history", "anchors": ["russell_ode/src/explicit_runge_kutta.rs: step, accept, reject"]}
{"id": "C51", "title": "Runge-Kutta methods integrate low-degree problems exactly", "statement": "One step of each method reproduces exactly the Taylor polynomial of the exact solution for y'=lambda*y up to its order and integrates y'=p(x) exactly for all polynomials p of degree below the order.", "quantifier": "all lambda, h, x, y and all polynomials of that degree", "why_tests_cant": "continuum of inputs", "anchors": ["russell_ode/src/constants.rs", "russell_ode/src/explicit_runge_kutta.rs"]}
{"id": "C52", "title": "Dense output interpolates the step", "statement": "DoPri5/DoPri8/Radau5 dense output at the beginning/end of the step returns the old/new solution, and for DoPri5 also matches the derivatives there.", "quantifier": "all steps, states and stage values", "why_tests_cant": "algebraic identity over all data", "anchors": ["russell_ode/src/erk_dense_out.rs: update, calculate", "russell_ode/src/radau5.rs: dense_output"]}
{"id": "C53", "title": "ODE driver reaches the end point or reports why not", "statement": "OdeSolver::solve returning Ok without a user stop has x=x1 (up to the documented 10*eps), the sequence of accepted x is strictly increasing and never passes x1, the equal-step mode performs exactly the computed number of equal steps; otherwise Err.", "quantifier": "all step methods (oracle of errors and suggested step sizes), intervals, parameters", "why_tests_cant": "all accept/reject/diverge schedules", "anchors": ["russell_ode/src/ode_solver.rs: solve"]}
{"id": "C54", "title": "ODE statistics add up", "statement": "n_steps = n_accepted + rejected/diverging attempts as documented, all counters are reset at the start of each solve.", "quantifier": "all schedules", "why_tests_cant": "accounting must hold for every schedule", "anchors": ["russell_ode/src/ode_solver.rs", "russell_ode/src/stats.rs", "russell_ode/src/workspace.rs"]}
{"id": "C55", "title": "Dense output stations are each emitted exactly once, in order", "statement": "For every accepted-step schedule, the dense-output stations recorded by Output are exactly the requested stations in increasing order, once each, none skipped, first and last included.", "quantifier": "all station lists and all step schedules", "why_tests_cant": "schedule-dependent", "anchors": ["russell_ode/src/output.rs: initialize, execute, last"]}
{"id": "C56", "title": "Step-size controller stays within bounds", "statement": "The new step size suggested by accept/reject of the explicit RK methods and Radau5 lies between m_min*h and m_max*h (and does not grow after a rejection).", "quantifier": "all error values, previous errors and parameters accepted by validate", "why_tests_cant": "continuum", "anchors": ["russell_ode/src/explicit_runge_kutta.rs: accept, reject", "russell_ode/src/radau5.rs: accept, reject", "russell_ode/src/params.rs"]}
{"id": "C57", "title": "Stiffness detection state machine", "statement": "Stiffness is reported exactly when the ratio test has been positive the configured number of times without the configured number of consecutive negatives in between; counters reset as documented.", "quantifier": "all sequences of h*rho values", "why_tests_cant": "history property", "anchors": ["russell_ode/src/detect_stiffness.rs"]}
{"id": "C58", "title": "Parameter validation is sound and complete", "statement": "Params::validate accepts exactly the parameter sets satisfying the documented inequalities; set_tolerances/calc_tolerances yield positive tolerances.", "quantifier": "all parameter values", "why_tests_cant": "continuum", "anchors": ["russell_ode/src/params.rs"]}
{"id": "C59", "title": "Solve calls are independent of history", "statement": "Calling solve on an OdeSolver a second time with the same inputs and deterministic functions gives the same results as on a fresh solver.", "quantifier": "all call histories", "why_tests_cant": "stale solver state depends on history", "anchors": ["russell_ode/src/ode_solver.rs", "russell_ode/src/radau5.rs", "russell_ode/src/explicit_runge_kutta.rs", "russell_ode/src/workspace.rs"]}
{"id": "C60", "title": "Backward Euler returns only converged steps", "statement": "BwEuler step Ok guarantees the scaled residual of y_new - y - h f(x_new,y_new) is below tolerance at the accepted state; FwEuler gives y+h f.", "quantifier": "all functions, Jacobians, linear solver oracles", "why_tests_cant": "all callback behaviours", "anchors": ["russell_ode/src/euler_backward.rs", "russell_ode/src/euler_forward.rs"]}
{"id": "C61", "title": "Kelvin-Mandel representation is a faithful isometry", "statement": "Tensor2::from_std_matrix then as_std_matrix returns the same 3x3 matrix for every admissible matrix and representation; get_std agrees; the inner product/norm of the vector equals the Frobenius inner product/norm; the same for Tensor4.", "quantifier": "all 3x3 matrices (and fourth-order arrays), all representations", "why_tests_cant": "continuum; sqrt(2) factors", "anchors": ["russell_tensor/src/tensor2.rs: set_std_matrix, get_std, norm", "russell_tensor/src/tensor4.rs"]}
{"id": "C62", "title": "Second-order tensor operations match matrix algebra", "statement": "determinant, transpose, inverse, squared, trace, deviator, norm, invariants, decompose and axial vector computed on the Kelvin-Mandel vector equal the corresponding operation on the 3x3 matrix, for all three representations.", "quantifier": "all tensors", "why_tests_cant": "hand-expanded polynomial formulas with many terms", "anchors": ["russell_tensor/src/tensor2.rs", "russell_tensor/src/operations_t2.rs"]}
{"id": "C63", "title": "Mixed tensor operations match index notation", "statement": "t2_dot_t2, t2_ddot_t2, t2_dyad_t2, t2_odyad_t2, t2_udyad_t2, t2_ssd, t2_qsd_t2, t4_ddot_t2, t4_ddot_t4, t1_dyad_t1, t2_dot_t1 etc. on Kelvin-Mandel components equal their index-notation definitions.", "quantifier": "all tensors, scalars", "why_tests_cant": "hundreds of hand-expanded component formulas", "anchors": ["russell_tensor/src/operations_mix1.rs", "russell_tensor/src/operations_mix2.rs", "russell_tensor/src/operations_t2.rs", "russell_tensor/src/operations_t4.rs"]}
{"id": "C64", "title": "Linear elasticity moduli", "statement": "The rigidity built from (E,nu) gives Hooke's law sigma = lambda tr(eps) I + 2G eps (3D and plane strain), the plane-stress modulus gives sigma_zz=0 with the returned out-of-plane strain, and (E,nu) <-> (K,G) conversions invert each other.", "quantifier": "all admissible moduli, all strains", "why_tests_cant": "continuum", "anchors": ["russell_tensor/src/lin_elasticity.rs"]}
{"id": "C65", "title": "Derivatives of tensor functions", "statement": "The library's derivative tensors (of inverse, square, invariants, deviator norm) are the true derivatives of the corresponding functions.", "quantifier": "all tensors in the domain, all directions", "why_tests_cant": "hand-expanded formulas; derivative statement", "anchors": ["russell_tensor/src/derivatives_t2.rs", "russell_tensor/src/derivatives_t4.rs"]}
{"id": "C66", "title": "Continuation driver outcome", "statement": "nonlin Solver::solve returns status Success only if a stopping condition (stop criterion met, user stop, list exhausted or step budget) holds; steps/accepted/rejected counters add up; the state (u,lambda) returned is that of the last accepted step; the driver itself never panics.", "quantifier": "all step outcomes (oracle), schedules, configurations", "why_tests_cant": "all schedules of failures and retries", "anchors": ["russell_nonlin/src/solver.rs: solve"]}
{"id": "C67", "title": "Stop criteria and validation", "statement": "Stop::validate accepts exactly criteria not yet met at the start; now() is true exactly when the criterion holds up to the tolerance; Steps(n) stops after exactly n accepted steps; a lambda target is not passed, prescribed increments are taken in order, and with precise targets u does not pass the target component.", "quantifier": "all criteria, states and step histories", "why_tests_cant": "history property", "anchors": ["russell_nonlin/src/enums.rs: Stop", "russell_nonlin/src/solver.rs", "russell_nonlin/src/delta_lambda.rs"]}
{"id": "C68", "title": "Newton iteration error control", "statement": "A continuation step reported successful has residual or correction below its tolerance; failures are classified as documented; divergence counters follow their definition.", "quantifier": "all residual/correction sequences", "why_tests_cant": "history property", "anchors": ["russell_nonlin/src/iteration_error.rs", "russell_nonlin/src/solver_natural.rs", "russell_nonlin/src/solver_arclength.rs"]}
{"id": "C69", "title": "Bordering algorithm solves the augmented system", "statement": "The (du, dlambda) computed by the bordering algorithm solves the (n+1)x(n+1) augmented Newton system exactly (exact arithmetic, exact inner solves), same as the augmented-matrix path.", "quantifier": "all sizes, matrices, right-hand sides with nonzero denominator", "why_tests_cant": "linear algebra over all sizes", "anchors": ["russell_nonlin/src/solver_arclength.rs: iterate"]}
{"id": "C70", "title": "Continuation output columns stay aligned", "statement": "After any history, all recorded columns (u components, lambda, h, norms) have equal lengths and row k holds the k-th recorded state; recording never happens on a graceful stop.", "quantifier": "all histories", "why_tests_cant": "history property", "anchors": ["russell_nonlin/src/output.rs"]}
{"id": "C71", "title": "Radau5 dense output interpolates the step", "statement": "After an accepted Radau5 step from (x, y) of size h, the dense output returns the new solution at x+h, the stage values at the two inner stations, and the old solution at x.", "quantifier": "all steps, all stage values", "why_tests_cant": "continuum of stage values", "anchors": ["russell_ode/src/radau5.rs: accept, dense_output"]}
{"id": "C72", "title": "Radau5 constants encode the Radau IIA method", "statement": "The decimal constants of Radau5 are those of the 3-stage Radau IIA collocation method: when the transformed Newton residual vanishes, the stages satisfy the Radau IIA equations up to the rounding of the constants.", "quantifier": "all right-hand sides, stage values and stepsizes", "why_tests_cant": "a wrong digit shows only as a loss of order", "anchors": ["russell_ode/src/radau5.rs: constants, step"]}
{"id": "C73", "title": "Root refinement reports convergence truthfully", "statement": "RootFinder::refine returning Ok keeps the number of roots and leaves each with a residual below the tolerance or a Newton correction below its tolerance; otherwise it returns an error, and it never panics.", "quantifier": "all functions, root lists, intervals and parameters", "why_tests_cant": "any function oracle", "anchors": ["russell_lab/src/algo/root_finder.rs: refine"]}
{"id": "C74", "title": "Inverse of a small array matrix", "statement": "small_mat_inv of an n-by-n block stored in an N-by-N array: an Ok result leaves a two-sided inverse of the block and returns its determinant; a matrix with a nonzero null vector is always reported as singular; n > N panics and nothing else does.", "quantifier": "every size, every real matrix, every previous content of the target", "why_tests_cant": "Gauss-Jordan with partial pivoting takes a data-dependent sequence of row swaps at every size", "anchors": ["russell_lab/src/small/small_mat_inv.rs", "russell_tensor/src/lin_elasticity.rs: calc_compliance"]}
{"id": "C75", "title": "Gauss-Jordan with full pivoting", "statement": "num_recipes_gaussj_sol/inv and small_solve_lin_sys: on Ok the matrix has been replaced by its inverse and each right-hand side by the solution of its system, whatever permutation the pivot search took; a matrix with a nonzero null vector gives the singular error; there is no panic.", "quantifier": "every size N, every number M of right-hand sides, every real matrix", "why_tests_cant": "the implicit column permutation and its unscrambling depend on the data", "anchors": ["russell_lab/src/small/num_recipes_gaussj.rs", "russell_lab/src/small/small_solve_lin_sys.rs"]}
{"id": "C76", "title": "Continuation stepsize control", "statement": "With automatic steps the stepsize offered after an accepted step is between (1 - pi/4) and (1 + pi/2) times the current one and positive, is not larger right after a failure or a rejection, stays the same without control and follows the number of iterations under iteration control; a rejected step multiplies it by the failure factor and leaves the state alone.", "quantifier": "all systems, callbacks, histories and control settings", "why_tests_cant": "real-valued control law over all histories", "anchors": ["russell_nonlin/src/solver.rs: adapt_stepsize, solve", "russell_nonlin/src/config.rs: validate"]}
{"id": "C77", "title": "Tangent vectors of pseudo-arclength continuation", "statement": "The tangent (du/ds, dlambda/ds) computed at the start of a run and after every accepted step has unit length, lies in the kernel of the Jacobian [G_u | G_lambda] it was computed from, and keeps its orientation: dlambda/ds has the requested sign at the start, and later the tangent does not point backwards with respect to the previous one.", "quantifier": "all systems, sizes, points, linear solvers that solve exactly, both the bordering and the augmented path", "why_tests_cant": "continuum of Jacobians and histories", "anchors": ["russell_nonlin/src/solver_arclength.rs: calc_initial_tangent, update_tangent_vector, step"]}
{"id": "C78", "title": "UMFPACK solver: an answer solves the last factorized system", "statement": "For every sequence of factorize and solve calls on an UMFPACK solver (real or complex): a successful solve returns a solution of A x = rhs where A is the matrix given to the last successful factorize call, with duplicate entries summed, provided the UMFPACK library keeps its own promise; a solve without a successful factorize, or with vectors of another length, is refused and leaves x alone; factorize refuses exactly non-square, empty or triangular matrices at first, and later exactly matrices of another kind, shape or nnz and any new parameters, without changing the solver; a failed refactorization blocks solve; factorize reports singular matrices; the requested determinant is that of the last factorized matrix; no call panics.", "quantifier": "all sequences of calls, matrices, right-hand sides, parameters and all library behaviours within the contract", "why_tests_cant": "the state machine spans Rust flags, a cached CSC matrix and C handles; tests exercise a handful of call orders", "anchors": ["russell_sparse/src/solver_umfpack.rs: factorize, solve", "russell_sparse/src/complex_solver_umfpack.rs: factorize, solve", "russell_sparse/src/../c_code/interface_umfpack.c", "russell_sparse/src/lin_solver.rs: compute"]}
{"id": "C79", "title": "MUMPS solver: an answer solves the last factorized system", "statement": "For every program that creates, changes and drops COO matrices and calls factorize and solve on a MUMPS solver: a successful solve returns a solution of the system of the matrix of the last successful factorize, as it was then (triangles mirrored, duplicates summed), provided MUMPS keeps its own promise; refused calls change nothing; nothing panics or reads freed memory.", "quantifier": "all programs (sequences of writes to objects, drops, factorize and solve calls), matrices, parameters, library behaviours within the contract", "why_tests_cant": "aliasing of a raw pointer kept by the C library depends on the whole history of the program", "anchors": ["russell_sparse/src/solver_mumps.rs: factorize, solve", "russell_sparse/src/complex_solver_mumps.rs: factorize, solve", "russell_sparse/src/../c_code/interface_mumps.c"]}
{"id": "C80", "title": "Tables are read exactly as written or refused", "statement": "For every text: reading a table (with or without expected labels) succeeds exactly when the rows (the words before a hash, of the lines that have any) are a header accepted by the labels followed by rows with one parsable value for each label; the table then holds for each label the values below it, in order, and no other keys; every other text gives an error; nothing panics. The labels are used to check the header, and without labels the columns are named col0, col1, ...", "quantifier": "all texts, labels and value types with any parser", "why_tests_cant": "tests read eight small files; the space of texts and label lists is unbounded", "anchors": ["russell_lab/src/base/read_table.rs: read_table", "russell_lab/src/base/read_table.rs: read_data"]}
{"id": "C81", "title": "Matrices are read from text exactly as written or refused", "statement": "For every text: reading a matrix succeeds exactly when all the rows of the text have the same number of cells and all the cells can be parsed; the matrix then has one row for each row of the text and entry (i,j) is the value of cell j of row i; otherwise an error is returned, and nothing panics.", "quantifier": "all texts and value types with any parser", "why_tests_cant": "tests read a few files; the transposition into column-major storage and the counters depend on the sizes", "anchors": ["russell_lab/src/matrix/num_matrix.rs: from_text_file"]}
{"id": "C82", "title": "Spectral decomposition: projectors and recomposition", "statement": "For every symmetric second-order tensor (2D or 3D) the decomposition either reports that the Jacobi rotations did not converge (never in 2D) or gives three symmetric, idempotent, mutually orthogonal projectors of trace one that sum to the identity, with which the tensor is the sum of the principal values times the projectors, up to the tolerances of the rotations; composing with other principal values gives exactly that sum; wrong representations are refused; the octahedral coordinates keep lengths.", "quantifier": "all symmetric tensors, principal values and reused decomposition objects", "why_tests_cant": "a continuum of tensors, with repeated and close principal values", "anchors": ["russell_tensor/src/spectral2.rs: decompose", "russell_tensor/src/spectral2.rs: compose", "russell_tensor/src/spectral2.rs: octahedral_basis"]}
{"id": "C83", "title": "Verification of linear systems reports the true residual", "statement": "For every sparse matrix A, vector x and right-hand side b (real or complex): the verification gives the largest stored value of A, the largest component of A x and the largest component of A x - b (in absolute value, triangles mirrored and duplicates summed in the products) and the relative error (third over one plus first); it gives an error exactly when the lengths do not match or A has no values, and never panics. The relative error is zero exactly when x solves the system, and a bound on it bounds every component of the residual. Of two reports the worse is kept.", "quantifier": "all valid matrices (all storage kinds), vectors and right-hand sides, real and complex", "why_tests_cant": "the report is what other tests trust; it must be right for every matrix, not only for those of the tests", "anchors": ["russell_sparse/src/verify_lin_sys.rs: from", "russell_sparse/src/verify_lin_sys.rs: from_complex", "russell_sparse/src/verify_lin_sys.rs: max_relative_error", "russell_lab/src/vector/vec_norm.rs", "russell_lab/src/vector/complex_vec_norm.rs"]}
{"id": "C84", "title": "Complex sparse matrices made of real ones", "statement": "For every real COO matrix B and complex numbers alpha + beta i: assign_real makes the complex matrix equal to (alpha + beta i) B, and add_real adds (alpha + beta i) B to its upper left part; both succeed exactly when the shapes, the storage kinds and the capacity allow it, keep the shape and kind, and refuse other shapes and kinds without changes.", "quantifier": "all valid matrices of all kinds, all factors, all sequences of earlier changes", "why_tests_cant": "unbounded matrices and duplicates; tests use 3x3 matrices", "anchors": ["russell_sparse/src/complex_coo_matrix.rs: assign_real", "russell_sparse/src/complex_coo_matrix.rs: add_real"]}
{"id": "C85", "title": "1D spectral collocation finds the collocation polynomial", "statement": "For every interval (xmin different from xmax), number of points, history of boundary conditions, conductivity, alpha and source: the reduced and the Lagrange-multiplier systems of the 1D spectral collocation solver are solved by the nodal values of a polynomial of degree below nx exactly when the polynomial satisfies -kx phi'' + alpha phi = source at the interior Chebyshev-Gauss-Lobatto points and the prescribed values and outward fluxes at the ends. With an exact linear solver, whatever the drivers return is the nodal vector of such a polynomial. The computed flow is -kx phi' at all nodes for every polynomial. The constructor accepts exactly 2 to 2049 points and non-periodic conditions and never panics.", "quantifier": "all intervals, numbers of points, boundary-condition histories, coefficients, sources, polynomials and exact linear solvers", "why_tests_cant": "tests compare a few solutions with few points within tolerances; the equations must hold for every grid size and boundary condition", "anchors": ["russell_pde/src/spc_1d.rs: new", "russell_pde/src/spc_1d.rs: get_matrices_sps", "russell_pde/src/spc_1d.rs: get_vectors_sps", "russell_pde/src/spc_1d.rs: get_matrices_lmm", "russell_pde/src/spc_1d.rs: get_vectors_lmm", "russell_pde/src/spc_1d.rs: solve_sps", "russell_pde/src/spc_1d.rs: solve_lmm", "russell_pde/src/spc_1d.rs: calculate_flow_vectors", "russell_lab/src/algo/interp_lagrange.rs"]}
{"id": "C86", "title": "2D spectral collocation finds the collocation polynomial", "statement": "For every rectangle with nonempty sides, numbers of points, history of boundary conditions, conductivities, alpha and source: the reduced and the Lagrange-multiplier systems of the 2D spectral collocation solver are solved by the nodal values of a polynomial of degree below nx in x and below ny in y exactly when the polynomial satisfies -kx phi_xx - ky phi_yy + alpha phi = source at the interior points, the prescribed values at the nodes of the sides that have some, and at the other boundary nodes the outward flows through the sides of the node add up to the given fluxes. With an exact linear solver, whatever the drivers return is the nodal vector of such a polynomial. The computed flow vectors are -kx phi_x and -ky phi_y at all nodes for every polynomial. The constructor accepts exactly 2 to 2049 points per axis and non-periodic conditions and never panics.", "quantifier": "all rectangles, numbers of points, boundary-condition histories, coefficients, sources, polynomials and exact linear solvers", "why_tests_cant": "tests compare a few solutions within tolerances; corners, mixed sides and unequal grids must be right for every size", "anchors": ["russell_pde/src/spc_2d.rs: new", "russell_pde/src/spc_2d.rs: get_matrices_sps", "russell_pde/src/spc_2d.rs: get_vectors_sps", "russell_pde/src/spc_2d.rs: get_matrices_lmm", "russell_pde/src/spc_2d.rs: get_vectors_lmm", "russell_pde/src/spc_2d.rs: solve_sps", "russell_pde/src/spc_2d.rs: solve_lmm", "russell_pde/src/spc_2d.rs: calculate_flow_vectors", "russell_pde/src/grid_2d.rs: new_chebyshev_gauss_lobatto"]}
{"id": "C87", "title": "Legendre polynomials and the quadrature rules built on them", "statement": "For every degree n the Legendre function is the polynomial of degree at most n with value 1 at 1 that is orthogonal on [-1,1] to all polynomials of lower degree (and the only one), with squared norm 2/(2n+1); the derivative functions return its first and second derivative at every point that is an end or at least 1e-15 away from both ends. The Gauss weights computed from distinct zeros of P_(nn+1) integrate every polynomial of degree up to 2 nn + 1 exactly; the Lobatto weights computed from the ends and distinct zeros of P_nn' integrate every polynomial of degree up to 2 nn - 1 exactly. The point functions return nn + 1 points (Gauss: ascending; Lobatto: with both ends), each the result of a Newton iteration for the polynomial from its own starting point, that stopped because the step was below 1e-15, the slope was below 1e-30 or the iterations were used up.", "quantifier": "all degrees, all points, all polynomials within the degree", "why_tests_cant": "tests check degrees up to 5 and a few rules numerically; orthogonality and exactness range over all polynomials and degrees", "anchors": ["russell_lab/src/math/legendre.rs: legendre_pn", "russell_lab/src/math/legendre.rs: legendre_pn_deriv1", "russell_lab/src/math/legendre.rs: legendre_pn_deriv2", "russell_lab/src/math/legendre.rs: legendre_gauss_points", "russell_lab/src/math/legendre.rs: legendre_gauss_weights", "russell_lab/src/math/legendre.rs: legendre_lobatto_points", "russell_lab/src/math/legendre.rs: legendre_lobatto_weights"]}
{"id": "C88", "title": "third-order tensors", "statement": "A third-order tensor, in either layout (case A: symmetric pair first; case B: symmetric pair last) and each representation, stands for one 3x3x3 array: reading a component, reading all of them as an array or as the 9x3 or 3x9 matrix of standard components gives that array. Setting from an array or a matrix succeeds exactly if every second-order slice fits the representation (symmetric; 2D: no out-of-plane part), and then what is read back is what was set. Setting one component of a symmetric tensor changes that component and its mirror image only. Scaled update and addition, the product with a vector and the double contraction with a second-order tensor are the component formulas on these arrays, whatever the output held before; operands of another representation or layout are refused.", "quantifier": "all arrays and matrices of components, all representations and layouts, all scalars and operands", "why_tests_cant": "tests check a handful of fixed arrays per representation", "anchors": ["russell_tensor/src/tensor3.rs: Tensor3::set_std_array", "russell_tensor/src/tensor3.rs: Tensor3::set_std_matrix", "russell_tensor/src/tensor3.rs: Tensor3::get_std", "russell_tensor/src/tensor3.rs: Tensor3::to_std_array", "russell_tensor/src/tensor3.rs: Tensor3::to_std_matrix", "russell_tensor/src/tensor3.rs: Tensor3::sym_set_std", "russell_tensor/src/tensor3.rs: Tensor3::update", "russell_tensor/src/operations_t3.rs: t3_add", "russell_tensor/src/operations_t3.rs: t3_dot_t1", "russell_tensor/src/operations_t3.rs: t3_ddot_t2"]}
{"id": "C89", "title": "The ODE sample problems are what they document", "statement": "Each sample problem of russell_ode (constant equation, system with mass matrix in every storage kind, Brusselator as ODE and as discretised PDE, Arenstorf orbit, Hairer-Wanner equation (1.1), Robertson, Van der Pol, one-transistor amplifier, the two Kreyszig problems) is consistent: the Jacobian callback, run on any COO matrix of the declared kind and capacity and with any old content, succeeds and leaves exactly alpha times the matrix of partial derivatives of the right-hand side; the mass callback fills the documented matrix within the declared number of non-zeros; the analytical solution satisfies the initial value and the differential equation at every x of its domain; the discretised Brusselator has the documented reaction terms plus alpha times the five-point Laplacian for every number of grid points. For any history of set_jacobian/set_mass calls the storage types of the Jacobian and mass matrices agree and are that of the system, a refused call changes nothing, and the default number of non-zeros is the number of storable positions.", "quantifier": "all alpha, x and y (away from the singularities of the formulas), all COO matrices of sufficient capacity with any old content, all grid sizes >= 2, both kinds of boundary conditions, all storage kinds, all call histories", "why_tests_cant": "tests compare the Jacobian with a numerical one at one point and tolerance, and the solutions at one or two points", "anchors": ["russell_ode/src/samples.rs: Samples::simple_equation_constant, simple_system_with_mass_matrix, brusselator_ode, brusselator_pde, arenstorf, hairer_wanner_eq1, robertson, van_der_pol, amplifier1t, kreyszig_eq6_page902, kreyszig_ex4_page920", "russell_ode/src/system.rs: System::new, set_jacobian, set_mass"]}
{"id": "C91", "title": "The numerical derivatives are accurate and the checkers sound", "statement": "For every function with enough derivatives near x, the derivative returned by deriv1_central5, deriv1_forward7, deriv1_backward7, deriv2_central9, deriv2_forward8 and deriv2_backward8 differs from the true first or second derivative by at most a fixed constant times h^4, h^6, h^6, h^8, h^6, h^6 (h = 1/1000) times a bound on the derivative of order 5, 7, 7, 10, 8, 8; hence they are exact on polynomials of degree 4, 6, 6, 9, 7, 7. The function is called only inside the documented one-sided or central interval, so it may fail elsewhere, and it may change its arguments between calls. A failure of the user function is returned unchanged. The approx_eq checkers accept every claimed derivative within the tolerance minus that error, and panic on every one farther than the tolerance plus that error. vec_deriv1_approx_eq and vec_deriv2_approx_eq accept when this holds for every component and panic when some component is that far off. num_jacobian returns the ndim by ndim matrix whose (i, j) entry is alpha times the partial derivative of component i with respect to variable j, up to |alpha| times the error of the central formula, whatever the user function does to its arguments.", "quantifier": "all smooth functions given as stateful callbacks, all points, all dimensions, all alpha, all claimed derivatives and tolerances", "why_tests_cant": "tests use a handful of functions and points; an error bound is a statement about all smooth functions", "anchors": ["russell_lab/src/check/deriv1_central.rs: deriv1_central5", "russell_lab/src/check/deriv1_forward.rs: deriv1_forward7", "russell_lab/src/check/deriv1_backward.rs: deriv1_backward7", "russell_lab/src/check/deriv2_central.rs: deriv2_central9", "russell_lab/src/check/deriv2_forward.rs: deriv2_forward8", "russell_lab/src/check/deriv2_backward.rs: deriv2_backward8", "russell_lab/src/check/deriv1_approx_eq.rs: deriv1_approx_eq", "russell_lab/src/check/deriv2_approx_eq.rs: deriv2_approx_eq", "russell_lab/src/algo/num_jacobian.rs: num_jacobian"]}
{"id": "C90", "title": "The nonlinear sample problems are what they document", "statement": "Each sample problem of russell_nonlin (linear, two cubic polynomials, three two-equation systems, fold point, singular initial state, circle) is consistent: at every state and parameter its Jacobian callback fills a new COO matrix of the declared kind and capacity with exactly the partial derivatives of G by u, and leaves the derivative by lambda in a zeroed vector; the reference solutions are roots of the equations, and the only ones (for the first cubic: the only real root, rounded); the trial points behave as documented: Newton's method oscillates between 0 and -1, the slope vanishes at sqrt(2/3), the determinant of the two-circle problem is -4 u0 + 4 u1 and zero exactly at the bad trial point; the fold point is at u = 1; the circle starts on its diagonal. System::new refuses exactly a zero dimension or zero entries, and a matrix of the chosen kind can always be allocated. check_ggu accepts a Jacobian whose entries are within the tolerance of the derivatives of G (up to the error of the difference formula) and panics when one is farther; mat_approx_eq accepts exactly matrices of equal sizes with all differences within the tolerance.", "quantifier": "all states u, parameters lambda, storage kinds, radii and exponents; all systems given by smooth callbacks; all matrices and tolerances", "why_tests_cant": "tests compare Jacobians with numerical ones at one point, and solutions after running a solver", "anchors": ["russell_nonlin/src/samples.rs: Samples::simple_linear_problem, cubic_poly_1, cubic_poly_2, two_eq_ref, two_eq_nr_prob_1, two_eq_nr_prob_2, one_eq_with_fold_point, singular_initial_state, circle_ul", "russell_nonlin/src/system.rs: System::new, check_ggu", "russell_lab/src/matrix/mat_approx_eq.rs: mat_approx_eq"]}
{"id": "C92", "title": "The sample maps are the shapes they are named after", "statement": "For every choice of corners or radii, the sample map of a quadrilateral, quarter ring, half ring, quarter of a perforated lozenge, brick or 3D quarter ring is built without error, sends every parameter to the point of the named shape (bilinear map of the four corners in counter-clockwise order, polar coordinates with the radius running from the inner to the outer one, arc to straight line, affine box, extruded ring), and returns exactly the first and second partial derivatives of that shape. For 0 < a < b the ring maps are one to one onto the ring sector.", "quantifier": "all corners, radii, lengths and all real parameters", "why_tests_cant": "The maps are functions of two or three real parameters and of the dimensions; a wrong sign or factor in one of the hand-written derivative closures shows only at some points and a test compares a few of them.", "anchors": ["russell_pde/src/transfinite_samples.rs: quadrilateral_2d, quarter_ring_2d, half_ring_2d, quarter_perforated_lozenge_2d, brick_3d, quarter_ring_3d"]}
{"id": "C93", "title": "The sample problems have the solutions they are shipped with", "statement": "Every sample problem of the PDE package is built without error, its essential and natural conditions pass the validation, and the analytical solution returned with it has two derivatives, satisfies the differential equation with the returned coefficients and source at every point, takes the returned value on every side with an essential condition and has the returned normal flux on every side with a natural condition; the returned flow vector is minus the coefficient times the gradient. For the mapped problems this holds on the image of the returned map. The truncated series of the Poisson problem satisfies the equation and two sides exactly, and the other two sides up to an error of at most 24/(pi^2 m) with m terms.", "quantifier": "all sample problems, all their parameters (length, wave number, radii, option numbers, number of terms) and all points of the domain or side", "why_tests_cant": "The samples are the reference that the tests of the solvers compare with; a test only evaluates them at the grid points of a few grids, and a wrong source term or flux at other points would be taken for a discretisation error.", "anchors": ["russell_pde/src/problem_samples.rs: d1_problem_01 to d1_problem_05, d2_problem_01 to d2_problem_09"]}
{"id": "C94", "title": "Predictors, Newton corrections and recorded residuals of a continuation step", "statement": "The Euler predictor moves u by the solution of Gu du = -(lambda1 - lambda0) Gl for the matrix and vector last computed by the user's function (whose factors the solver holds), and the simple predictor does not move it. An iteration that has not converged moves the state by exactly the Newton correction: -Gu^-1 G at fixed lambda for the natural method, and the solution of the augmented system (G, N) for the arc-length method. The arc-length predictor lies on the tangent line at the requested distance, and hits a targeted component of u exactly. When the residuals are recorded, every successful step appends one list with one number per iteration, the last of which is the largest magnitude among the components of G (and N) at the state reached; failed steps append nothing; and the counter of iterations grows by the length of the list.", "quantifier": "all systems, linear solvers that are exact when they succeed, configurations, states, steps, targets and histories of steps", "why_tests_cant": "A wrong sign or a stale factorisation in the predictor or corrector only slows the convergence of the iterations, so that tests on converged results still pass; the recorded residuals depend on which of the many exits of a step was taken.", "anchors": ["russell_nonlin/src/solver_natural.rs: step, iterate", "russell_nonlin/src/solver_arclength.rs: step, iterate", "russell_nonlin/src/stats.rs: record_iterations_residuals_start, record_iterations_residuals_append, record_iterations_residuals_stop"]}
{"id": "C95", "title": "Metrics of curvilinear coordinates", "statement": "Computing the metrics at a point from the derivatives of the position with respect to the coordinates gives, in 2D and 3D, the given covariant vectors, the contravariant vectors that form their dual basis, the two metric matrices of their products, the determinant of the covariant matrix as the returned value (the square of the Jacobian), and the Christoffel symbols of the second kind as the components of the second derivatives on the dual basis; the calculation fails exactly when the square of the Jacobian is at most 1e-15, and no sequence of calls panics or depends on earlier contents. With them, for every smooth field, the gradient is the sum of coordinate derivatives times contravariant vectors, and the Laplacian is the sum of g^ij times second coordinate derivatives minus L^k times first ones.", "quantifier": "all base vectors, second derivatives, earlier contents, smooth maps and smooth fields", "why_tests_cant": "A transposed contravariant index or a Christoffel symbol with swapped indices vanishes on orthogonal or symmetric test maps; the Laplacian identity concerns all smooth fields and maps.", "anchors": ["russell_pde/src/metrics.rs: new, calculate_2d, calculate_3d, calculate, ell_coefficient_for_laplacian", "russell_lab/src/matrix/mat_inverse.rs: mat_inverse"]}
{"id": "C96", "title": "Spectral collocation on a mapped domain solves the stated problem", "statement": "For every transfinite map with a Jacobian that is not tiny, every degree, coefficient, source and every set of boundary conditions, the reduced system and the Lagrange-multiplier system are satisfied by the node values of a smooth field, polynomial in the reference coordinates, exactly when the field satisfies -k laplace(phi) + alpha phi = source in the physical coordinates at the interior nodes, takes the prescribed values at nodes that have them (later sides win at corners) and the flows through the other sides add up to the given fluxes; what the drivers return is such a field; the computed flow vectors are -k grad(phi). The flow imposed on a side is the flow along the outward normal if the coordinate lines meet at right angles there or the field does not vary along the side.", "quantifier": "all maps with true derivatives and regular Jacobian, grids, boundary-condition histories, coefficients, sources, smooth fields and solver answers", "why_tests_cant": "The tests use a few maps (mostly orthogonal at the boundary, where a wrong normal flux is invisible) and compare with tolerances; that the discrete rows are the equation and the conditions concerns all maps and fields.", "anchors": ["russell_pde/src/spc_map_2d.rs: new, solve_sps, solve_lmm, get_matrices_sps, get_matrices_lmm, get_vectors_sps, get_vectors_lmm, calculate_flow_vectors", "russell_pde/src/transfinite_2d.rs: Transfinite2d", "russell_pde/src/metrics.rs: Metrics"]}
{"id": "C97", "title": "Matrix and vector products compute what they document", "statement": "For all matrices and vectors of compatible sizes, real or complex: mat_mat_mul gives alpha a b + beta c, mat_t_mat_mul gives alpha a^T b + beta c, mat_vec_mul gives alpha a u, mat_vec_mul_update gives alpha a u + beta v, vec_mat_mul gives alpha u^T a, vec_outer gives alpha u v^T, vec_outer_update adds it; the rank-k updates set exactly the chosen triangle to alpha a a^T + beta c (or a^T a, or the conjugate-transposed versions) and leave the other one alone; the row and column sums are the sums. Incompatible sizes are refused with an error and change nothing. No array is read or written out of bounds.", "quantifier": "all number rings (reals and complex numbers among them), all sizes below 2^31, all entries, factors and triangles", "why_tests_cant": "A wrong leading dimension, a swapped size or a wrong transposition flag shows only for rectangular matrices of particular sizes; the tests use one or two shapes per function. The tested shapes cannot establish the absence of out-of-bounds access in foreign code.", "anchors": ["russell_lab/src/matrix/mat_mat_mul.rs: mat_mat_mul", "russell_lab/src/matrix/mat_t_mat_mul.rs: mat_t_mat_mul", "russell_lab/src/matvec/mat_vec_mul.rs: mat_vec_mul", "russell_lab/src/matvec/mat_vec_mul_update.rs: mat_vec_mul_update", "russell_lab/src/matvec/vec_mat_mul.rs: vec_mat_mul", "russell_lab/src/matvec/vec_outer.rs: vec_outer", "russell_lab/src/matvec/vec_outer_update.rs: vec_outer_update", "russell_lab/src/matrix/mat_sym_rank_op.rs: mat_sym_rank_op", "russell_lab/src/matrix/complex_mat_herm_rank_op.rs: complex_mat_herm_rank_op", "russell_lab/src/matrix/mat_sum_cols.rs: mat_sum_cols", "russell_lab/src/matrix/mat_sum_rows.rs: mat_sum_rows"]}
{"id": "C98", "title": "The pseudo-inverse is the Moore-Penrose inverse and the eigenvectors are eigenvectors", "statement": "Given what LAPACK documents for dgesvd and dgeev: mat_pseudo_inverse(ai, a) gives a matrix that satisfies the four Penrose conditions for a matrix that differs from a by at most min(m,n) * 1e-15 * (largest singular value) per entry, and for a itself when every singular value is zero or above 1e-15 times the largest; there is only one such matrix. mat_eigen gives, for every column j, a unit vector v_j = v_real + i v_imag with a v_j = (l_real_j + i l_imag_j) v_j, whether the eigenvalue is real or one of a conjugate pair; mat_eigen_lr also gives unit vectors u_j with u_j^H a = (l_real_j + i l_imag_j) u_j^H. Wrong sizes and LAPACK failures are errors; nothing panics.", "quantifier": "all matrices of all sizes below 2^31, all answers of LAPACK that fulfil its documentation, all patterns of real and complex eigenvalues", "why_tests_cant": "The unpacking of conjugate pairs depends on where the pairs occur; the pseudo-inverse depends on the rank. A test checks a handful of matrices against stored numbers.", "anchors": ["russell_lab/src/matrix/mat_pseudo_inverse.rs: mat_pseudo_inverse", "russell_lab/src/matrix/mat_svd.rs: mat_svd", "russell_lab/src/matrix/mat_eigen.rs: mat_eigen, mat_eigen_lr", "russell_lab/src/internal/dgeev_data.rs: dgeev_data, dgeev_data_lr"]}
{"id": "C99", "title": "The LAPACK drivers return the factors, solutions and eigenvectors they document", "statement": "Given what LAPACK documents for the routines called: solve_lin_sys and complex_solve_lin_sys return x with a x = b; mat_cholesky and complex_mat_cholesky put into the chosen triangle a factor of every symmetric (hermitian) matrix with the given triangle and leave the other triangle alone; mat_eigen_sym and complex_mat_eigen_herm return ascending eigenvalues and orthonormal eigenvectors of that matrix; mat_eigenvalues returns eigenvalues; complex_mat_eigen(_lr), mat_gen_eigen(_lr) and complex_mat_gen_eigen(_lr) return right (and left) eigenvectors of the matrix or of the pair; complex_mat_svd returns a decomposition; complex_mat_inverse inverts matrices up to 3 by 3 when |det| > 1e-15 and refuses otherwise. Wrong sizes and LAPACK failures are errors.", "quantifier": "all matrices of all sizes below 2^31, both triangles, all answers of LAPACK that fulfil its documentation", "why_tests_cant": "A wrong flag or leading dimension passes any test that does not look at the affected output, as the missing left eigenvectors show; the tests use a few matrices.", "anchors": ["russell_lab/src/matvec/solve_lin_sys.rs: solve_lin_sys", "russell_lab/src/matvec/complex_solve_lin_sys.rs: complex_solve_lin_sys", "russell_lab/src/matrix/mat_cholesky.rs: mat_cholesky", "russell_lab/src/matrix/complex_mat_cholesky.rs: complex_mat_cholesky", "russell_lab/src/matrix/mat_eigen_sym.rs: mat_eigen_sym", "russell_lab/src/matrix/complex_mat_eigen_herm.rs: complex_mat_eigen_herm", "russell_lab/src/matrix/mat_eigenvalues.rs: mat_eigenvalues", "russell_lab/src/matrix/mat_gen_eigen.rs: mat_gen_eigen, mat_gen_eigen_lr", "russell_lab/src/matrix/complex_mat_eigen.rs: complex_mat_eigen, complex_mat_eigen_lr", "russell_lab/src/matrix/complex_mat_gen_eigen.rs: complex_mat_gen_eigen, complex_mat_gen_eigen_lr", "russell_lab/src/matrix/complex_mat_svd.rs: complex_mat_svd", "russell_lab/src/matrix/complex_mat_inverse.rs: complex_mat_inverse"]}
{"id": "C100", "title": "Norms, scaled measures and elementwise operations compute what their formulas say", "statement": "For every norm kind and every real or complex matrix, mat_norm returns the documented norm (largest row or column sum, largest modulus, root of the sum of squares; 0 for an empty matrix), which is a norm: nonnegative, zero only for the zero matrix, homogeneous and subadditive. vec_norm, vec_norm_chunk, vec_norm_diff and complex_vec_norm return the vector norms of the vector, of the chosen range and of the difference, the last being a metric. vec_max_scaled(_diff) and vec_rms_scaled(_diff) return the largest scaled entry and the root mean square of the scaled entries, the latter at most 1 when every entry is within its tolerance. copy, scale, update, add, plus and minus of vectors and matrices assign the stated combination to every entry. mat_max_abs_diff returns the largest difference and its first position. zip and unzip of complex vectors and matrices are inverse to each other. Wrong sizes are errors or panics as documented.", "quantifier": "all norm kinds, all vectors and matrices of all sizes (below 2^31 where BLAS is called), all coefficients", "why_tests_cant": "The tests evaluate small vectors and matrices with a few lengths; a swapped row/column sum, a wrong denominator or an omitted last entry is visible only for the shapes that expose it, and the norm axioms quantify over pairs.", "anchors": ["russell_lab/src/matrix/mat_norm.rs: mat_norm", "russell_lab/src/matrix/complex_mat_norm.rs: complex_mat_norm", "russell_lab/src/matrix/mat_copy.rs: mat_copy", "russell_lab/src/matrix/mat_scale.rs: mat_scale", "russell_lab/src/matrix/mat_update.rs: mat_update", "russell_lab/src/matrix/mat_add.rs: mat_add", "russell_lab/src/matrix/mat_plus.rs: mat_plus", "russell_lab/src/matrix/mat_minus.rs: mat_minus", "russell_lab/src/matrix/mat_max_abs_diff.rs: mat_max_abs_diff", "russell_lab/src/matrix/complex_mat_zip.rs: complex_mat_zip", "russell_lab/src/matrix/complex_mat_unzip.rs: complex_mat_unzip", "russell_lab/src/vector/vec_norm.rs: vec_norm", "russell_lab/src/vector/vec_norm_chunk.rs: vec_norm_chunk", "russell_lab/src/vector/vec_norm_diff.rs: vec_norm_diff", "russell_lab/src/vector/complex_vec_norm.rs: complex_vec_norm", "russell_lab/src/vector/vec_max_scaled.rs: vec_max_scaled", "russell_lab/src/vector/vec_max_scaled_diff.rs: vec_max_scaled_diff", "russell_lab/src/vector/vec_rms_scaled.rs: vec_rms_scaled", "russell_lab/src/vector/vec_rms_scaled_diff.rs: vec_rms_scaled_diff", "russell_lab/src/vector/vec_add.rs: vec_add", "russell_lab/src/vector/complex_vec_zip.rs: complex_vec_zip", "russell_lab/src/vector/complex_vec_unzip.rs: complex_vec_unzip"]}
{"id": "C101", "title": "Vectors, matrices and numbers written as text say what they contain", "statement": "format_scientific keeps the mantissa and exponent of the number, with a sign and at least two digits in the exponent, right-justified to at least the width; mat_to_numpy, mat_to_mathematica, mat_to_static_array and vec_to_static_array write the nested list of all entries, row by row, for every nonempty matrix or vector; printing a vector or a matrix draws a box whose lines all have the same length, with columns exactly one wider than the longest entry, from which the entries can be read back; vec_fmt_scientific does the same with aligned exponents; the file of mat_write_vismatrix has the sizes and the number of entries in its first line, followed by exactly the entries larger in magnitude than the tolerance, once each, row by row, with their indices and values; a negative tolerance is an error.", "quantifier": "all matrices and vectors of all sizes, all names, widths, precisions and tolerances, all ways to write the single numbers", "why_tests_cant": "Separators, brackets and widths depend on the position of the entry and on the whole set of entries; the tests compare a few fixed matrices, and none of them is empty or holds a NaN, where the output is malformed or the function panics.", "anchors": ["russell_lab/src/base/formatters.rs: format_scientific, format_fortran, write_formatted_number", "russell_lab/src/matrix/mat_to_numpy.rs: mat_to_numpy", "russell_lab/src/matrix/mat_to_mathematica.rs: mat_to_mathematica", "russell_lab/src/matrix/mat_to_static_array.rs: mat_to_static_array", "russell_lab/src/vector/vec_to_static_array.rs: vec_to_static_array", "russell_lab/src/vector/vec_fmt_scientific.rs: vec_fmt_scientific", "russell_lab/src/matrix/mat_write_vismatrix.rs: mat_write_vismatrix", "russell_lab/src/vector/num_vector.rs: Display for NumVector", "russell_lab/src/matrix/num_matrix.rs: Display for NumMatrix"]}
{"id": "C102", "title": "Bessel functions of integer order obey their recurrence, parity and special values; powers of i are exact", "statement": "From 2 on, J0, J1, Y0 and Y1 are Hankel's form with the phases pi/4 and 3 pi/4, the rewriting against cancellation included; Jn(-x) = J(-n)(x) = (-1)^n Jn(x) and Y(-n)(x) = (-1)^n Yn(x); for orders up to the argument, and for Y for all orders, the results are the solution of the three-term recurrence that starts with orders 0 and 1; for orders above the argument Jn(x) = J0(x) c(n)/c(0) with the solution c that vanishes at an order above n, the loop that chooses this order ends, and rescaling against overflow changes nothing; likewise In for both ways of scaling, with In(-x) = (-1)^n In(x); Kn obeys its recurrence and stays positive; below 2^-29 and from 2^302 on the results are the first terms of the series and of the asymptotic form; NaN, infinities and zero give the documented values; i_pow_n(n) = i^n and x_times_i_pow_n(x, n) = (x i)^n.", "quantifier": "all orders (i32 or usize), all arguments including NaN and infinities, all rational approximations", "why_tests_cant": "The tests compare a table of orders and arguments; branch boundaries, signs of negative orders and arguments, rescaling and i32 overflow depend on all of them. The proof found an argument range in which J1 has the wrong sign, and orders that panic.", "anchors": ["russell_lab/src/math/bessel_0.rs: bessel_j0, bessel_y0", "russell_lab/src/math/bessel_1.rs: bessel_j1, bessel_y1", "russell_lab/src/math/bessel_n.rs: bessel_jn, bessel_yn", "russell_lab/src/math/bessel_mod.rs: bessel_i0, bessel_i1, bessel_in, bessel_kn", "russell_lab/src/math/complex.rs: i_pow_n, x_times_i_pow_n"]}
{"id": "C103", "title": "Elliptic integrals: domain, convergence, special values and magnitude", "statement": "elliptic_f(phi, m) returns an error exactly when phi or m is negative, phi exceeds pi/2 (plus one epsilon) or m sin^2(phi) exceeds one; everywhere else it returns a number, or +Inf where m sin^2(phi) is within ten epsilons of one, and never reports a failure to converge. elliptic_e(phi, m) returns a number for every phi in [0, pi/2] and m >= 0 with m sin^2(phi) <= 1 (provided cos^2(phi) or 1 - m sin^2(phi) is at least 1e-40, which every f64 phi satisfies). The documented special values F(0,m) = E(0,m) = Pi(n,0,m) = 0, F(phi,0) = E(phi,0) = phi, F = Pi = Inf at m sin^2(phi) = 1 and Pi = Inf at n sin^2(phi) = 1 hold, Pi(0,phi,m) = F(phi,m), and F lies between sin(phi) and sin(phi)/sqrt(min(cos^2(phi), 1 - m sin^2(phi))) up to the factor 1e-5. E is below F by at least m sin^3(phi)/3 and Pi is above F by at least n sin^3(phi)/3 for n > 0 and below F for n < 0 (up to the factor 1e-4). elliptic_pi must return a value for every n: it does not for 1 - n sin^2(phi) >= 12584.", "quantifier": "all real amplitudes phi, parameters m and characteristics n", "why_tests_cant": "The iteration limit and the domain guards have to be met by every pair (phi, m) of a continuum, including amplitudes whose cosine is nearly zero; the tests compare some tabulated values.", "anchors": ["russell_lab/src/math/elliptic.rs: elliptic_f, elliptic_e, elliptic_pi, rf, rd, rc, rj"]}
{"id": "C104", "title": "The assertion helpers pass exactly when all values are finite, sizes match and differences are within the tolerance", "statement": "For every finite tolerance, approx_eq(a, b, tol) returns exactly when both numbers are finite and their f64 difference is at most tol, and panics otherwise; so numbers at a real distance of at most tol are always accepted, accepted numbers are at most tol plus half a unit in its last place apart, tolerance zero means equality, and the order of the two numbers does not matter. The array, vector, complex and matrix versions pass exactly when the sizes agree and every pair of entries (real and imaginary part) passes. assert_alike passes exactly for identical f64 values, distinguishing the two zeros and accepting two NaN. A NaN tolerance accepts every finite pair, an empty nested array makes the matrix version panic, and entries beyond the length of the first row are not compared.", "quantifier": "all f64 values including NaN, infinities and signed zeros; all finite tolerances; all lengths and matrix sizes; any element type with a conversion to f64", "why_tests_cant": "An assertion that wrongly passes makes every test that uses it worthless, and only the comparison of all pairs of f64 values can show that it never does.", "anchors": ["russell_lab/src/check/approx_eq.rs: approx_eq", "russell_lab/src/check/array_approx_eq.rs: array_approx_eq", "russell_lab/src/check/complex_approx_eq.rs: complex_approx_eq", "russell_lab/src/check/complex_array_approx_eq.rs: complex_array_approx_eq", "russell_lab/src/check/assert_alike.rs: assert_alike", "russell_lab/src/vector/vec_approx_eq.rs: vec_approx_eq", "russell_lab/src/vector/complex_vec_approx_eq.rs: complex_vec_approx_eq", "russell_lab/src/matrix/mat_approx_eq.rs: mat_approx_eq", "russell_lab/src/matrix/complex_mat_approx_eq.rs: complex_mat_approx_eq", "russell_lab/src/base/as_array.rs: AsArray2D"]}
{"id": "C105", "title": "The gamma and beta functions satisfy their functional equations, signs and special values", "statement": "gamma and beta return for every input (the argument reductions and the mutual recursion end). gamma is NaN at NaN, -Inf and the negative integers and +Inf at +Inf and zero; gamma(x + 1) = x gamma(x) between -33 and 32; gamma(n + 1) = n! for n up to 32; above 33 it is Stirling's formula (the same in both evaluation ranges, +Inf above 200); and below -33 it satisfies gamma(x) gamma(-x) = -pi / (x sin(pi x)), sign included. beta(a, b) = gamma(a) gamma(b) / gamma(a + b) whichever of the two evaluation orders or logarithms is used, zero where a + b is a non-positive integer; it is symmetric unless both arguments are non-positive integers; at a non-positive integer -n it is (-1)^b B(1+n-b, b) for integers 1 <= b <= n and +Inf otherwise; ln_beta is ln |B|. For two non-positive integers of different parity the two orders give infinities of opposite sign; below -2^31 beta is always +Inf; ln_beta is -Inf as soon as |B| < 10 epsilon; and with one argument above 10^6 and gamma(b) < 0 ln_beta returns -ln |B|.", "quantifier": "all real arguments and the special f64 values; any coefficients of the rational and Stirling approximations; any gamma and ln_gamma routines that compute a function without zeros", "why_tests_cant": "The formula used depends on a dozen ranges of the arguments and on signs and parities; a table of values covers none of the boundaries in general.", "anchors": ["russell_lab/src/math/gamma.rs: gamma, stirling", "russell_lab/src/math/beta.rs: beta, ln_beta, beta_negative_integer, ln_beta_negative_integer, ln_beta_asymptotic"]}
{"id": "C106", "title": "The error functions are odd, complementary and bounded, and their inverses respect domain and symmetry", "statement": "erf is odd with erf(0) = 0, erf(+-Inf) = +-1 and the value +-1 from 6 on; erfc(-x) = 2 - erfc(x) up to 6; erf(x) + erfc(x) = 1 between 2^-28 and 6 in absolute value, whichever of the four approximations is used; with the coefficients of the code and exact arithmetic erf has the sign of its argument and is strictly between -1 and 1 before 6, erfc is strictly between 0 and 1 for positive arguments before 28 and never leaves [0, 2]; the truncation of the argument to 20 bits changes nothing. erf_inv is infinite at -1 and 1, NaN outside, odd, zero at zero and positive on (0, 1); erfc_inv(x) = erf_inv(1 - x), so erfc_inv(2 - x) = -erfc_inv(x). In f64 erfc_inv returns +Inf for small positive arguments, because 1 - x rounds to 1.", "quantifier": "all real arguments and NaN and the infinities; any truncation function; one IEEE example for the finding", "why_tests_cant": "Four approximations meet at three boundaries, each written twice for erf and erfc; a wrong sign or boundary shows up only on part of an interval.", "anchors": ["russell_lab/src/math/erf.rs: erf, erfc", "russell_lab/src/math/erf_inv.rs: erf_inv, erfc_inv"]}
{"id": "C107", "title": "The logarithm of the gamma function has the right poles, signs, reflection and recurrence", "statement": "ln_gamma returns NaN and the infinities unchanged, +Inf with sign 1 at zero and at every negative integer and 0 at 1 and 2; away from the poles the value is finite, no argument panics, and the returned sign is -1 exactly on (-1, 0), (-3, -2), ...; the argument reduction computes sin(-pi x) for every x >= 0, and the low bit it looks at is the parity of the integer; ln_gamma(-x) = ln(pi / |x sin(pi x)|) - ln_gamma(x) from 2^-70 on; ln_gamma(x + 1) = ln x + ln_gamma(x) for 2^-70 <= x <= 0.9, for 2 <= x < 7 and for x = 1; with the coefficients of the code the value is positive on (0, 1) and beyond 2 and negative on (1, 2), and the denominators of the rational approximations never vanish.", "quantifier": "all real arguments, NaN and the infinities; for the low bit every f64 between 2^52 and 2^53", "why_tests_cant": "Seven ranges with their own approximations and a separate reduction for negative arguments; samples cover a few points of each.", "anchors": ["russell_lab/src/math/ln_gamma.rs: ln_gamma, sin_pi_times_neg_x_given_abs_x"]}
{"id": "C108", "title": "B-spline derivatives are the derivatives of the Cox-de Boor functions and of the curve", "statement": "On a sorted clamped knot vector and within its range, calc_basis_and_derivs answers for every order up to the degree, and get_basis_deriv(i, k) then gives the k-th derivative of the i-th Cox-de Boor function on the knot span that contains u; the derivatives of each order from one on sum to zero. Outside the range, or for an order above the degree, an error is returned. calc_curve_derivs answers by either method for every order asked, and get_curve_deriv then gives the k-th derivative of the curve for every k asked and zero, which is the derivative, for every k beyond the degree; both methods give the same values and the instance can be used again. The derivative on a span does not depend on the smooth function used to express it. Control points of a higher dimension set after a computation of derivatives make the next one panic (finding).", "quantifier": "all degrees, all sorted clamped knot vectors, all parameters within their range, all orders, all control points in all dimensions, all earlier contents of the work arrays", "why_tests_cant": "The algorithm alternates the rows of a work array and cuts its loops at both ends of the triangle depending on the function, the order and the degree; a test covers a few degrees and parameters.", "anchors": ["russell_lab/src/algo/bspline.rs: calc_basis_and_derivs, get_basis_deriv, calc_curve_derivs, get_curve_deriv, ders_basis_funs, curve_derivs_alg1, curve_derivs_alg2, curve_deriv_cpts"]}
{"id": "C109", "title": "The error estimates of the interpolants are the largest differences over the stations", "statement": "When the callbacks answer the values of a function (and of its derivatives), estimate_max_error of the Chebyshev interpolant and estimate_max_error / estimate_max_error_all of the Lagrange interpolant return the largest absolute difference between the interpolation and those values over the equally spaced stations of the interval, both ends included; estimate_max_error_all leaves out the two ends for the derivatives only, and only when asked to. The callback is asked once at each station, in order (for Lagrange after once at each node). A failure of the estimate is a failure of the callback, and no call follows it; an interpolant without data gives an error. The estimate against a polynomial of degree at most N is zero.", "quantifier": "all interpolants, all callbacks with any state, all numbers of stations", "why_tests_cant": "The result is a maximum over arbitrarily many stations of a function supplied by the caller; a test compares a few functions with recorded numbers.", "anchors": ["russell_lab/src/algo/interp_chebyshev.rs: InterpChebyshev::estimate_max_error", "russell_lab/src/algo/interp_lagrange.rs: InterpLagrange::estimate_max_error, InterpLagrange::estimate_max_error_all"]}
