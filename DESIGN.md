# Formal model of cpmech/russell in Rocq (Coq 8.16.1)

## 1. What this is

`/verif/rocq/theories` holds an executable Gallina model of parts of the russell
workspace (`russell_sparse`, `russell_lab`, `russell_stat`, `russell_pde`,
`russell_ode`, `russell_tensor`, `russell_nonlin`) and theorems about it.
The model was written by reading `/repo`; it was never run against the Rust code.
Every definition cites the file and line range it follows.

File naming, per topic `X`:

* `X_Model.v`  – the functions, following the Rust code; no proofs.
* `X_Spec.v`   – the small independent specification (where one is needed).
* `X_Proofs.v` – lemmas.
* `X_Thm.v`    – only property theorems (`exact lemma.`), `Print Assumptions`, and
  `Example`s showing the hypotheses are met by a concrete non-trivial case.

## 2. Modelling conventions

* `usize`, lengths, indices: `nat`. Overflow of `usize` additions is not modelled
  (a 64-bit address space cannot hold such data); *underflow* of unsigned
  subtraction is modelled (explicit panic) wherever the code subtracts.
* `i32` indices of the sparse module: `nat`; negative inputs are only possible through
  the constructors, where they are modelled with `Z`.
* `Result<T, StrError>` : `res T` with `Ok v`, `Err e` (e: an error code per message),
  and `Panic` for an index out of range, `unwrap` on `Err`, failed `assert!`.
* `&mut self` methods return the new state. When the Rust code returns `Err` after
  having partially updated the state, the model returns that partial state too.
* Numbers. Where possible definitions are parametrised by the operations
  (`zero`, `add`, `mul`, ...) and **no algebraic law** is assumed, so that the theorem
  also holds for `f64` with its rounding and evaluation order. Statements that need
  algebra (e.g. "inverse times matrix is identity") are proved over `R` (exact real
  arithmetic) or over `Q`; this is a simplification: rounding is not modelled there.
  Statements about particular f64 bit patterns use Coq's primitive floats.
* User callbacks, BLAS/LAPACK, the external linear solvers (UMFPACK, MUMPS), the number
  formatter/parser and files are universally quantified functions (oracles), never axioms.
* Loops are structural recursion or `fold`; `loop`/`while` use fuel, and exhaustion is a
  separate outcome, excluded by the statement (and proved unreachable where termination
  is part of the property).

## 3. Trusted base

* Coq 8.16.1 kernel (incl. `vm_compute`).
* The faithfulness of the model (read against the code; simplifications in comments).
* `Print Assumptions` output per theorem: see section 6 (kept current). Theorems over
  `nat`/`list`/`Z`/`Q`/generic numbers: *Closed under the global context*. Theorems over
  `R`: the three axioms of the standard library's classical reals
  (`ClassicalDedekindReals.sig_forall_dec`, `ClassicalDedekindReals.sig_not_dec`,
  `FunctionalExtensionality.functional_extensionality_dep`), plus `Classical_Prop.classic`
  when limits/derivatives lemmas of `Reals`/Coquelicot need it.
* Definitions and lemmas of the installed libraries Coquelicot (derivatives, integrals, complex numbers)
  and Flocq (binary64 numbers, C104) are used; they are compiled and checked by the same kernel and add no axioms
  beyond the four named above.

## 4. Plan per property

| id | modelled | proof |
|----|----------|-------|
| C01 | `NumCooMatrix::new/put/reset` as a state machine | invariant + refinement to a bounded list by induction over the op list |
| C02 | `to_dense` loop over dense storage | induction over triplets; no algebraic law |
| C03 | `CscMatrix::update_from_coo` incl. its workspaces | stage-by-stage loop invariants, refinement to "group by column, merge duplicates, sort" |
| C04 | `CsrMatrix::update_from_coo` | same |
| C05 | workspaces as part of the state | result does not depend on old workspace contents |
| C06 | `from_csr`, `from_csc` (counting + shifting pointers) | loop invariants; round trip by uniqueness of sorted form |
| C07 | `mat_vec_mul` etc. | induction + finite-sum algebra over a commutative ring |
| C08 | `assign`, `add`, `put_lagrange_block` | induction over triplets |
| C09 | `new` validation and the loops of `to_dense` | proof of the sound part, witness for the unsound part |
| C10/C11 | token-level reader/writer, formatter as oracle | induction over lines |
| C12 | `numerical_jacobian` loops | induction; affine exactness over R |
| C13 | `sort2/3/4`, `argsort*` | case analysis over any total order |
| C14–C17 | `NumMatrix`, `NumVector`, unrolled kernels | index algebra, induction on lengths |
| C18 | closed formulas | `field` over R |
| C19 | selection sort with column swaps | invariant: multiset of pairs |
| C20 | one Jacobi rotation, sweep as composition | invariants over R |
| C21–C25 | loop models with function oracle | loop invariants |
| C26 | bit-coded interval stack | invariant: processed + pending intervals tile [a,b] |
| C27 | closed formula with sums | completing the square over R |
| C28 | `find_span`, basis recurrence | induction on degree |
| C29 | Clenshaw loops | induction |
| C30 | barycentric weights, derivative matrix | polynomial identity over R |
| C31 | `solve_cubic` | case analysis over R with trigonometric identities |
| C32 | `float_decompose/compose` on (sign, mantissa, exponent) data; `modulo` | arithmetic over Z |
| C33–C35 | folds | induction |
| C36–C39 | binary search, folds, sorted lists | loop invariants |
| C40 | closed formulas | Coquelicot derivatives, monotonicity |
| C41–C43 | index bookkeeping | invariants over call histories |
| C44–C47 | assembly loops, capacities | counting lemma: at most `band` entries per row |
| C48 | closed formulas with boundary-function oracles | `ring`, derivative lemmas |
| C49 | tableaux over Q, all rooted trees | completeness of tree enumeration + `vm_compute` |
| C50, C51 | generic ERK step | induction over stages |
| C52 | dense output polynomials | `ring`/`field` |
| C53–C55 | driver loop with stepping oracle, output state machine | invariants over all schedules |
| C56–C60 | closed formulas / state machines | invariants |
| C61–C65 | component formulas | `field` with sqrt 2 |
| C66–C70 | driver loop, stop criteria, bordering | invariants, linear algebra |

| C71, C72 | Radau5 step and collocation constants | divided differences by `field`; interval bounds on the decimal constants |
| C73 | `RootFinder::refine` with a function oracle | loop invariant over the callback trace |
| C74, C75 | Gauss-Jordan loops over functions nat → nat → R | invariant: work matrix × original = partial identity |
| C76, C77 | stepsize formulas, bordered solves with a linear-solver oracle | real inequalities (atan bounds), linear algebra |
| C78 | Rust and C layers of the UMFPACK solver, library routines as oracles with a contract | invariant over call histories: cached CSC holds the last accepted matrix, numeric handle belongs to it |
| C79 | Rust and C layers of the MUMPS solver with a memory of matrix objects | invariant over programs in the steady use; counterexamples with an exact integer library |
| C80, C81 | the text readers as recursive functions over lines and words; parsers are oracles | induction over words and lines against the specification "rows of a text" |
| C82 | Spectral2 on top of the Jacobi and tensor models | from A V = V diag(l) with V orthogonal to projectors; block matrix in 2D |
| C83 | `VerifyLinSys` on the COO model; `idamax` as the reference loop; complex numbers as pairs | scan invariants for the maxima; dense product theorem of C03 over R and the ring of pairs |
| C84 | `assign_real`, `add_real` on the COO model with pair values | projections of pair triplets to real triplets; entry and mirror commute with them |
| C85 | `Spc1d`: `new`, matrices and vectors of both methods, drivers, flow, on the InterpLagrange, EquationHandler, boundary-condition and COO models | differentiation matrices are exact on polynomials (C30), so rows of the systems are the collocation equations; Lagrange basis gives the polynomial through any nodal vector |
| C86 | `Spc2d`: `new`, matrices and vectors of both methods, drivers, flow vectors, on the same models and the CGL grid | double sums collapse along the rows and columns of the grid; the 1D exactness of the differentiation matrices gives the partial derivatives; tensor product of Lagrange bases |
| C87 | `legendre_pn` as the Bonnet loop, both derivatives, Newton loops with fuel, weights as functions of the points | induction on the recurrence for the derivative identities and Legendre's equation; orthogonality by the self-adjoint form; Christoffel-Darboux for the integrals of the cardinal functions; division by the nodal polynomial for exactness |
| C88 | Tensor3 with its index tables, both layouts and three representations; operations_t3.rs | Tensor3 as three second-order tensors in the Kelvin-Mandel basis of C61; the loops by a lemma on loops whose bodies fail independently of the state; component identities by field arithmetic with sqrt 2 squared = 2 |
| C89 | `OdeSample_Model.v`: the samples as right-hand side, put lists, initial values and solutions; the configuration state of System | each Jacobian entry by differentiating the right-hand side with respect to one component and summing the puts; unbounded Brusselator by sums over the puts of each node; solutions by differentiation; configuration by induction on the history |
| C91 | `NumDeriv_Model.v`: the six difference formulas over stateful fallible callbacks, the six checkers, num_jacobian | Taylor-Lagrange at every node, coefficients by `field`; loops of num_jacobian by an invariant (y restored, work vector sized) |
| C90 | `NonlinSample_Model.v`: the samples as G, put lists and Gl; System::new; check_ggu over num_jacobian (C91) and mat_approx_eq | derivatives entry by entry; roots by factoring (unique real root by IVT); check_ggu by composing C91_num_jacobian, C02 and the loop rule |
| C92 | TfSample_Model.v: the boundary closures and their derivatives of all six sample maps, passed to the constructors of Transfinite_Model.v | TfSample_Thm.v: the derivative lists are the derivatives of the boundary lists, so C48 gives the derivatives of the patch; the patch is computed in closed form; polar coordinates are onto and one to one on the sector |
| C93 | PdeSample_Model.v: all sample problems with their coefficients, conditions (built with the operations of Bcs_Model.v), sources, solutions, flows and maps | PdeSample_Thm.v: witnesses for the partial derivatives, checked by differentiation; the image of the map gives r > 0 for the ring problems. PdeSeries_Thm.v: termwise derivatives of the series; the truncation error by the Dirichlet kernel, the Leibniz bound for pi/4 and two integrations |
| C94 | Nonlin_Model.v: predictors, `iterate` and `step` of both methods, recording of residuals | Nonlin_Pred_Thm.v: inversion of the monadic programs; the flag of the natural method as an invariant (`holds`) kept by every step. Nonlin_Rec_Thm.v: loop invariant of the iterations with the recorded list |
| C95 | Metrics_Model.v: `Metrics` (allocation, both calculations, Christoffel symbols, L-coefficients) on top of the inverse of C15 | Metrics_Thm.v: explicit results of the loops (calc2, calc3), dual-basis identities by field, chain rule for the second derivatives and contraction with the dual basis |
| C96 | SpcMap_Model.v: `SpcMap2d` (construction, both assemblies, vectors, drivers, flow vectors) on the transfinite maps (C48), the metrics (C95) and the interpolants | SpcMap_Thm.v: pull-back of the boundary conditions reduces vectors and equation numbering to C86 on the reference square; metrics give the rows; chain rule and Laplacian identity (C95) carry the rows to the physical domain; tensor-product Lagrange polynomials for the drivers |
| C97 | Blas_Model.v: gemm, gemv, ger, syrk, herk on raw column-major arrays with leading dimensions, transposition flags and argument checks; the wrappers of russell_lab for real and complex numbers | Blas_Thm.v: one lemma about nested loops that update distinct cells (upd2), then each wrapper against sums over index functions in an arbitrary ring; instances for R and C |
| C98 | Decomp_Model.v: mat_svd, mat_pseudo_inverse, mat_eigen, mat_eigen_lr and the unpacking loops of dgeev_data.rs on raw arrays; dgesvd and dgeev as oracles | Decomp_Thm.v: the Penrose conditions from the singular value decomposition by sums of rank-one matrices, uniqueness by algebra; the unpacking loops by induction along the compact form of LAPACK |
| C99 | Lapack_Model.v: the remaining LAPACK drivers, with every array a routine may write passed to the oracle | Lapack_Thm.v: contracts of the routines as specifications; the drivers against them, for rings with a conjugation where the real and complex versions coincide; the compact form of dggev by induction; small inverses by field |
| C100 | Norms_Model.v: norms, scaled measures, elementwise operations and zip/unzip over an abstract scalar type with a modulus | Norms_Thm.v: norms as specifications (largest sum, root of squares); the three ways to combine moduli share the gauge axioms (Cauchy-Schwarz for the Euclidean one), from which the norm laws follow; loop invariants for the rest |
| C101 | Text_Model.v: the functions that write numbers, vectors and matrices as text, as loops over a byte string | Text_Thm.v: loops that append are joins with separators; lines and words of the drawings by the reader of Matrix_Market files (MM_Model); entries of the VisMatrix file by a loop invariant |
| C102 | Bessel_Model.v: every branch, loop, sign and i32 operation of the functions; a f64 argument is NaN, an infinity or a real number | Bessel_Thm.v: ascending and descending solutions of the recurrence as sequences; invariants of the loops up to a scale factor; growth of the denominators bounds the loop; trigonometric identities |
| C103 | rf, rd, rc, rj and elliptic_f, elliptic_e, elliptic_pi over the reals with guards, iteration limit and errors | bounds on the ratio of the smallest to the largest argument after each duplication step give convergence; case analysis of the guards; RJ differences shrink by exactly four per step, which refutes large negative n |
| C104 | approx_eq and its array, vector, complex and matrix versions, assert_alike, size and at of nested arrays, over IEEE binary64 numbers (Flocq) | Flocq's theorems on subtraction and comparison, case analysis of non-finite values, induction over the loops |
| C105 | gamma, stirling, beta, ln_beta and their helpers over reals with NaN and infinities, polynomial coefficients and ln_gamma as parameters | evaluation relation for the argument reduction, sine shift for the reflection formula, case analysis of the ranges, integer arithmetic of casts and parity |
| C106 | erf, erfc, erf_inv, erfc_inv over reals with NaN and infinities, with the coefficients of the code | interval bounds on nested products, case analysis of the ranges, a lower bound of exp for the argument of the square root |
| C107 | ln_gamma and its sine reduction over reals with NaN and infinities, with the coefficients of the code; the low bit over Flocq binary64 | periodicity of the sine, case analysis of the ranges, interval bounds on nested products |
| C108 | ders_basis_funs with its work arrays, curve_derivs_alg1, curve_derivs_alg2, curve_deriv_cpts and the public entry points | derivative of the triangle by induction on the degree, summation by parts, loop invariants for the arrays; uniqueness by one-sided limits |
| C109 | estimate_max_error of both interpolants and estimate_max_error_all, with callbacks over an arbitrary state | invariant of the station loop (largest so far), totality of the evaluations, then C29 and C30 for polynomials |

Not expressible in this model: run time, memory use, the numerical accuracy of BLAS, LAPACK,
UMFPACK, MUMPS, threading of the external solvers, the file system.

## 5. Findings

Places where the code does not do what a user would expect from its documentation. Each is a theorem whose
name ends in `_refuted`: it exhibits inputs on which the expected statement is false of the model.

* `C08_add_atomic_refuted` – finding: a failing `assign`/`add`/`put_lagrange_block` is not atomic. Here `add` runs out of capacity half way and keeps the first triplet of the other matrix.
* `C09_new_total_refuted` – finding: the constructor itself can panic on bad arrays, because the indices are read before the next pointer has been compared with the array length
* `C09_new_first_pointer_refuted` – finding: repeated indices and a first pointer above zero are accepted; the converted matrix then silently drops the entries before the first pointer
* `C09_coo_from_triangle_refuted` – finding: unlike `new` and `put`, `from` checks neither squareness nor the triangle
* `C10_nothing_left_refuted` – A matrix without an entry above the tolerance is written to a file that cannot be read.
* `C10_complex_count_refuted` – A complex matrix on which the two tests of the writer disagree in number is written to a file that cannot be read.
* `C11_missing_dimensions_refuted` – a file that ends before the line with the dimensions makes the reader panic
* `C11_many_entries_refuted` – the reader panics (i32 overflow) when the file announces more than i32::MAX/2 entries and a full matrix is wanted
* `C11_upper_entry_refuted` – an entry above the diagonal of a symmetric file makes the reader panic
* `C11_index_min_refuted` – the index i32::MIN makes the reader panic
* `C11_hermitian_refuted` – a Hermitian file holds one triangle but is read as a general matrix: the other triangle is missing
* `C12_later_failure_refuted` – A failure of a later call leaves y moved.
* `C14_out_of_range_row_refuted` – finding: `get`/`set` check only the flat index; a row index past the end reads the next column
* `C16_linspace_integer_refuted` – finding: for integer vectors the last element is not `stop` when the step is rounded
* `C19_empty_refuted` – finding: an empty input panics (n - 1 underflows)
* `C20_scale_refuted` – Refuted: the error is not relative to the matrix. If e is below the tolerance, then the values 0, 0 and the vectors (1, 0), (0, 1) are returned for [[0, e], [e, 0]], whose eigenvalues are e and -e.
* `C22_strict_refuted` – C22, refuted part: the documentation promises f(xo) strictly below both ends; a plateau gives equality at one of them.
* `C22_expansion_refuted` – C22, refuted part: the expansion factor is not validated; a negative one returns an optimum outside its own bracket.
* `C23_small_values_refuted` – C23, refuted part: a sign change is documented to be enough, but small values are turned down (root_finder_brent.rs:88 compares the product with -EPSILON instead of 0).
* `C25_last_iterate_refuted` – C25, refuted part: the residual after the last allowed iteration is never tested, so a solve that has reached the exact root is reported as failed (newton_solver.rs:265-327).
* `C26_close_bounds_refuted` – C26 (refuted for close bounds): for bounds closer than 2^-46 relative to their size, but farther than the accepted 10 eps, the depth computation underflows: integrate panics instead of returning the documented error.
* `C28_unclamped_refuted` – C28 (refuted without clamping): the range check is against the extreme knots, so for unclamped knots calc_basis answers Ok with a negative value.
* `C28_overclamped_refuted` – C28 (refuted for an end knot repeated p + 2 times): calc_basis at the right end selects an empty span and divides by zero.
* `C28_interleaved_refuted` – C28: get_basis gives the values of the last calculated parameter only if no point was computed in between: calc_point overwrites the functions but not the span. The value is then that of neither parameter. calc_curve_derivs does the same to get_basis_deriv.
* `C29_un_near_refuted` – Refuted: inside the interval and nearer than 1e-12 to 1, chebyshev_un returns the value at 1; the polynomial takes this value at 1 only (here for U_2).
* `C29_adapt_alias_refuted` – Refuted: success does not mean that the function is approximated. For every function that vanishes at the two ends and in the middle, the first two trials see zeros only, and the zero function is returned.
* `C29_failed_set_refuted` – Refuted: a failed set_function leaves an object that still says that it is ready, with the new degree and the old (here: no) data.
* `C29_constant_data_refuted` – Refuted: with one datum, get_xy_data does not return it.
* `C30_gauss_end_refuted` – Refuted: eval_deriv1 at x = 1 is the derivative at x = 1. The points of a ChebyshevGauss grid do not reach the end of the interval, but x = 1 is taken for the last of them.
* `C30_near_node_refuted` – Refuted: eval reproduces constants everywhere. Between a node and the tolerance, psi of this node is set to 1 and the others are kept.
* `C31_small_roots_refuted` – C31, refuted part: the tolerance on the discriminant is absolute, so the three distinct roots -0.001, 0, 0.001 of x^3 - 1e-6 x are returned as a triple root 0.
* `C32_compose_overflow_refuted` – Finding: the exponent is added in i32 without a check: 2.0 * 2^i32::MAX is beyond the range but the call panics (it wraps around in a release build) instead of returning an infinity
* `C32_split_inf_refuted` – Finding: the documentation (and the comment in the code) promises that the fractional part of an infinity is NaN; it is a signed zero
* `C33_nan_refuted` – with a NaN in front (all comparisons false) position 0 is reported as the minimum and as the maximum
* `C34_last_station_refuted` – in binary64 the last station need not be the upper limit: 50 stations on [0, 1] end at 1 - 2^-53
* `C35_digits_range_refuted` – C35, refuted part: with digits the seconds may leave their range: 59.999 s with two digits is written as 60.00s, and one minute less 1 ns likewise
* `C36_nan_refuted` – a NaN is not in [0, 1) and not in [1, 2), yet `count` adds it to the first bin
* `C36_unsorted_refuted` – with stations that are not ascending, `new` succeeds and a value inside a bin can be missed
* `C40_frechet_cutoff_refuted` – finding: the absolute cut-off 1e-15 returns 0 where the distribution function is almost 1
* `C43_enabled_corner_refuted` – ... but false at a corner: the corner branches of the code come after the edge branches and are never taken, so a corner whose horizontal side alone has a natural condition is reported disabled
* `C46_periodic_corner_refuted` – At the corner of a rectangle with exactly one periodic axis the flux is still halved, although the row is not: with y periodic, the linear function u = x, which solves -kx u_xx = 0 with flux kx at Xmin, violates the row of node (0,0)
* `C48_no_second_derivative_refuted` – without second derivatives of the curves the pure second derivatives are returned as zero, also when the curves are not straight
* `C49_fehlberg4_estimator_declared_refuted` – the embedded weights of Fehlberg4 have order 5 although an estimator of order 4 is declared
* `C49_dopri8_estimator_declared_refuted` – a tree of order 6, resp. 4, whose condition fails by more than 10^-4
* `C52_dopri8_end_slope_refuted` – the slope of the dense output of DoPri8 at the end of the step is not f(x', y') there
* `C52_dopri8_order_refuted` – because the twelfth stage stands in for f(x', y'), a condition of order 6 fails by more than 10^-5 at mid-step: the curve of the eighth-order method is only of order 5
* `C53_single_pass_refuted` – C53, finding: variable stepping needs one pass more than there are steps: with n_step_max = 1 a run over an interval longer than 10 epsilon never succeeds, even if its only step lands on x1
* `C55_uniform_drops_refuted` – C55, finding: the uniform mode with h_out not dividing the interval overwrites the last multiple of h_out by x1: on [0, 1] with h_out = 0.3 the station 0.9 is never emitted
* `C55_exhausted_panics_refuted` – with dense output, running out of the allowed number of steps is a panic (the assertion in `last`), not the documented error
* `C56_update_params_refuted` – update_params does not refresh the limits: a validated parameter set with m_max = 2 can be followed by a suggestion of 10 h (the m_max given to `new`)
* `C56_radau5_range_refuted` – with the default limits the stepsize may grow eight times although m_max is 5: the limits of Radau5 are reciprocal
* `C56_radau5_rejected_grows_refuted` – a parameter that validate accepts: with m_max = 1/2 every rejected step is followed by a step at least twice as large
* `C58_m_min_boundary_refuted` – the documentation says m_min < 0.5; 0.5 itself is accepted
* `C59_dense_stays_refuted` – Dense output stays enabled after the call that requested it. Later calls give the same solution, but every accepted step of DoPri8 then costs three more evaluations of the user's function
* `C59_bweuler_modified_newton_refuted` – hence a solver object that has been used gives another result than a fresh one on the same call
* `C59_radau5_refuted` – After a run the flag "reuse Jacobian and factorization" may be on. The next call then computes neither in its first step: it uses the matrices of the old problem. A fresh object computes both
* `C60_modified_newton_refuted` – the first step of the run needs no iteration, so no factorization is made; the next step then asks the linear solver to solve without one: the run fails, although the full Newton method (and the modified one, had it been used before) succeeds
* `C61_set_range_refuted` – Finding: the documentation of get and set tells to check the range with dim() and announces a panic when an index is out of range; without the heap feature a symmetric tensor accepts a write to component 8 (dim() is 6 or 4) and gives it back, although it is no component of the tensor.
* `C61_sym_set_std_plane_refuted` – out of the plane the value is lost without an error
* `C61_t4_set_std_array_atomic_refuted` – after an error the tensor may be partly overwritten
* `C61_t4_to_std_array_stale_refuted` – a caller-supplied output array is not cleared by the 2D variant
* `C62_inverse_scale_refuted` – the absolute test calls a well-conditioned small tensor singular
* `C62_decompose_stale_refuted` – the decomposition into symmetric and skew parts does not clear the caller's output: an old value of the symmetric part survives
* `C62_q_general_refuted` – for a non-symmetric tensor J2 may be negative while q is positive, so q is not sqrt(3 J2)
* `C63_t1_dyad_t1_2d_refuted` – the dyadic product of two vectors stored into a 2D tensor silently drops the (2,2) component
* `C64_soft_refuted` – finding: the compliance of a soft material is refused, although the rigidity is a multiple of the identity
* `C66_success_unmet_refuted` – FINDING: Success does not mean that the stop criterion was met: when n_step_max passes are used up the last status is returned, whatever the criterion says (solver.rs:214-329).
* `C66_restore_refuted` – the backup of the secondary state is not restored when the failed step ends the run: the callback's change survives (solver.rs:247-254)
* `C66_terminate_refuted` – with `precise` and a target component, a request of the update callback to terminate is turned into UnmetStopCriterion, which is retried (solver.rs:223-238)
* `C67_validate_unmet_refuted` – FINDING: a norm criterion is accepted although it is already met, and so is a component within 1e-10
* `C67_steps_auto_refuted` – with automatic steps the criterion compares the number of attempts, and only at accepted steps, so one rejection makes the run miss Steps(n)
* `C68_cumulative_refuted` – FINDING: the counters are not reset when the divergence stops, so a step may fail with ContinuedResidualDivergence although the residual never went up three times in a row: the maximum residuals 1, 2, 3, 1, 2, 3 count as two continued divergences (iteration_error.rs:152-155).
* `C68_nan_residual_refuted` – A NaN computed by the user's function is not detected: of the NaN norm of the residual and the number |N|, which is zero in the natural method, the maximum is zero. So the iteration is declared converged, whatever the state is: a system with one equation that always evaluates to NaN has "converged" at once, and NanOrInfResidual is not reported.
* `C68_nan_constraint_refuted` – The NaN of the constraint function N (arclength method) is not detected either: with a zero residual G the maximum is the norm of G, and the iteration is declared converged.
* `C70_set_recording_refuted` – FINDING: set_recording called again with the same component (for instance between two runs) clears this column only: lambda and the stepsizes keep the rows of the first run.
* `C73_zero_slope_refuted` – C73, refuted part: an answer need not be anywhere near a root; a function without roots is "refined" successfully because a vanishing difference quotient counts as convergence (root_finder.rs:293-297).
* `C74_scale_refuted` – finding: the test for a singular matrix is not relative to its entries
* `C74_block_refuted` – inverting an n-by-n block inside a larger array overwrites entries outside the block (n above 3)
* `C75_error_overwrites_refuted` – after the error "singular matrix" the caller's matrix has been overwritten
* `C76_failure_factor_refuted` – FINDING: the failure factor has no upper bound, so that a validated configuration may enlarge the stepsize at a rejection
* `C78_singular_reported_refuted` – FINDING: with compute_determinant, the C layer overwrites the code of the numeric factorization with the code of the determinant: factorize reports success for a singular matrix, which is reported without that option.
* `C78_determinant_kept_refuted` – the request of the determinant is forgotten by the second factorization and cannot be repeated (new parameters are refused): the statistics then show the determinant 0
* `C78_colamd_refuted` – FINDING: Ordering::Colamd is documented as unavailable with UMFPACK and to default to automatic (enums.rs:114-119), but it selects the CHOLMOD ordering, which Ordering::Auto does not.
* `C79_other_object_refuted` – MUMPS keeps the pointer to the values of the first matrix: factorize called with another matrix of the same kind and size succeeds, but the factors, and the answers, are those of the first object
* `C79_dropped_object_refuted` – FINDING: when that first matrix has been dropped, the second call reads freed memory (the model stops).
* `C79_other_positions_refuted` – MUMPS keeps the positions of the first call: an object refilled in another order is factorized with its new values at the old positions
* `C79_positive_definite_refuted` – a positive definite matrix in full storage (Sym::No) with positive_definite is passed to MUMPS with SYM=1, which adds the two halves: off-diagonal entries are doubled
* `C79_square_refuted` – only the number of rows is compared in later calls: a rectangular matrix is accepted
* `C79_determinant_kept_refuted` – with MUMPS too, the determinant is lost at the second factorization
* `C80_default_labels_refuted` – the documentation says that, without labels, the columns are named col0, col1, ...; instead the first row is taken as the header: in a file of numbers the first row is lost
* `C80_missing_labels_refuted` – the documentation says that the labels are used to check the header; a file that lacks the last labels passes the check, and the missing columns are not in the table
* `C80_duplicates_refuted` – duplicate labels are refused when the labels come from the file, but not when they are given: the columns with the same label are mixed, and a column is longer than the number of rows
* `C83_duplicates_refuted` – the stored values are not the entries of the matrix: with two values at the same position, the reported largest entry is not that of the matrix
* `C84_overflow_refuted` – a refused call is not without effect: when the values do not fit, assign_real has already erased the matrix and stored the first of them
* `C85_flux_only_refuted` – `get_matrices_sps`, and with it `solve_sps`, panics when no side has a prescribed value: two flux conditions with alpha <> 0 are a well-posed problem, accepted by `validate`, and the documentation mentions no such restriction
* `C85_all_prescribed_refuted` – and it panics when every node has a prescribed value (two grid points, both prescribed)
* `C85_interval_refuted` – `new` does not check the interval: with xmin > xmax the node at `Xmin` is at the greater coordinate, and with xmin = xmax the spacing factor divides by zero
* `C86_flux_only_refuted` – `get_matrices_sps`, and with it `solve_sps`, panics when no side has prescribed values: flux conditions on all sides with alpha > 0 are a well-posed problem, accepted by `validate`
* `C86_all_prescribed_refuted` – and it panics when every node has a prescribed value (two grid points along an axis, all sides prescribed)
* `C87_lobatto_two_refuted` – with two points the Lobatto rule is the trapezoidal rule with weights 1, but the function returns zero weights
* `C88_set_range_refuted` – Finding: `get` and `set` are documented to panic when the indices are not below the sizes given by dims(); without the heap feature they do not: every tensor accepts a write to its (8, 8) component, which lies outside its dimensions, and reads the value back.
* `C88_set_std_array_atomic_refuted` – after an error the tensor may be partly overwritten
* `C88_to_std_array_stale_refuted` – a caller-supplied output array is not cleared by the 2D variant
* `C88_sym_set_std_out_of_plane_refuted` – setting an out-of-plane component of a 2D tensor is accepted and lost: the call succeeds, and every component reads as before, including the one set
* `C90_check_ggu_refuted` – Finding: check_ggu differentiates G numerically at lambda = 0 instead of the given lambda. The Jacobian of one_eq_with_fold_point is right everywhere (C90_one_eq_with_fold_point), but its check panics at every u and every lambda with |lambda| exp(u) greater than the tolerance.
* `C93_nsum_refuted` – The documentation of problem 4 calls ana_nsum the number of summation terms, but the loop visits the odd numbers below it, which are half as many; with ana_nsum = 1 the sum is empty and the returned function is (1 - x^2) / 2, which is 1/2 where the boundary condition asks for 0.
* `C94_first_predictor_refuted` – The predictor of the first step is not the point of the tangent at the start: the matrix and the vector Gl are computed after lambda has been moved, so the slope is that of a point (u0, lambda1) that is not on the curve. For G = u - lambda^2, from (1, 1) with a step of 1, the predictor is u = 5 and not 1 + 1 * 2 = 3.
* `C95_small_domain_refuted` – The base vectors of a square of side 1e-4 (half side 5e-5 on the reference square) are orthogonal and far from degenerate, but the metrics cannot be computed: the inverse of the covariant matrix is refused when the square of the Jacobian is at most 1e-15, an absolute bound that depends on the unit of length.
* `C95_ell_homogeneous_refuted` – The documentation of the L-coefficients says that `homogeneous` must be true; with `homogeneous` true the call panics after the calculation, since the Christoffel symbols are not stored.
* `C96_oblique_flux_refuted` – The exact solution can fail to solve the discrete system although it is a polynomial: on a domain with oblique sides the natural conditions do not impose the flow along the outward normal (documented as wn = w.n). Here phi = y on the parallelogram x = r + s/2, y = s with k = 1; the flow through the right side is 1/sqrt 5.
* `C96_small_domain_refuted` – A small domain makes `get_matrices_sps` and `get_matrices_lmm` panic: the metric determinant is compared with 1e-15, an absolute bound, and the error is unwrapped. Square of side c = 0.0001
* `C97_inner_zero_refuted` – mat_mat_mul and mat_t_mat_mul document c := alpha a b + beta c. With an empty inner dimension the product is zero and c should become beta c, but both functions set c to zero: beta is ignored.
* `C97_update_zero_refuted` – mat_vec_mul_update documents v := alpha a u + beta v. With an empty u it sets v to zero instead of beta v.
* `C97_rank_zero_refuted` – mat_sym_rank_op and complex_mat_herm_rank_op pass the number of rows of a as leading dimension. In the second case with an a of zero rows (c := beta c) that is 0, which BLAS refuses as an illegal argument (the reference XERBLA stops the program).
* `C97_outer_zero_refuted` – vec_outer and vec_outer_update accept an empty u (a matrix without rows) and pass the leading dimension 0, an illegal argument; the products with an empty u or v in mat_vec_mul are guarded, these are not.
* `C98_pinv_empty_refuted` – The pseudo-inverse of a matrix with no rows but some columns (or the other way around) is the empty matrix of the transposed size. mat_pseudo_inverse handles only the 0 by 0 case; otherwise it passes a leading dimension 0 to dgesvd and fails ("An argument had an illegal value"), although mat_inverse, mat_mat_mul and others accept empty matrices.
* `C99_complex_left_refuted` – complex_mat_gen_eigen_lr documents that u holds the left eigenvectors. The code passes C_FALSE for the left eigenvectors (complex_mat_gen_eigen.rs:287; the real version passes C_TRUE), so LAPACK never touches u: whatever the caller put there is returned. With the zero matrix that the example and the test pass, no column of u is a left eigenvector of anything. The test prints u but does not check it.
* `C99_gen_pairs_refuted` – mat_gen_eigen and mat_gen_eigen_lr document "a vj = lj b vj, where vj is the column j of v". When a pair of eigenvalues is complex this is false for both columns: the columns are the real and the imaginary part of one eigenvector, and no real vector belongs to a complex eigenvalue (here for every b that maps no nonzero vector to zero). mat_eigen unpacks the columns into v_real and v_imag; the generalised versions do not and their documentation does not say so.
* `C101_empty_matrix_refuted` – Matrices without rows or without columns give source code that is not well formed: more brackets are closed than opened, as in `a = np.array([]],dtype=float)` for a matrix without rows.
* `C101_empty_vector_refuted` – The static array of an empty vector is a lone comma, which is not Rust code.
* `C101_fmt_scientific_nan_refuted` – vec_fmt_scientific panics when the vector contains a number that is not finite, whose text (NaN, inf, -inf) does not contain the letter e; format_scientific itself accepts such numbers.
* `C102_j1_odd_refuted` – FINDING: for -2^-27 < x < 0, `bessel_j1` returns -x/2 > 0 instead of x/2: the branch for tiny arguments forgets the sign, so that J1 is not odd (bessel_1.rs:128-130). `bessel_jn(1, x)` for these x and `bessel_jn(-1, x)` for 0 < x < 2^-27 inherit it.
* `C102_min_order_refuted` – FINDING: for order i32::MIN, `bessel_jn` and `bessel_yn` negate the order and panic (attempt to negate with overflow) at every argument but zero (bessel_n.rs:94, 301).
* `C102_large_order_refuted` – FINDING: for an order n with 2^30 <= n, `bessel_jn` computes n + n in i32 and panics for every argument from 2^-29 up to n, although Jn(x) is zero to every digit there (bessel_n.rs:191).
* `C102_i_pow_min_refuted` – FINDING: `i_pow_n(i32::MIN)` and `x_times_i_pow_n(x, i32::MIN)` panic (attempt to negate with overflow), although i^n = 1 for this order (math/complex.rs:50, 109).
* `C103_pi_large_n_refuted` – FINDING. The documentation of elliptic_pi restricts phi and m only. For a large negative n (1 - n sin^2(phi) >= 12584, e.g. phi = pi/2, n = -20000, m = 1/2, where the integral is about 0.011) the duplication loop of the Carlson form RJ is cut after N_MAX_ITERATIONS = 11 steps, each of which only divides the distance between p and the other arguments by four, so an error is returned for every such n.
* `C104_nan_tol_refuted` – FINDING. A NaN tolerance disables the comparison: all pairs of finite numbers pass, whatever their difference.
* `C104_empty_nested_refuted` – FINDING. A matrix without rows cannot be compared with an empty nested array: `size` indexes the first row and panics, although both are empty.
* `C104_ragged_refuted` – FINDING. Entries of later rows beyond the length of the first row are not compared (nor reported).
* `C105_beta_i32_refuted` – Below -2^31 the answer is always +Inf, although B(-n,b) is finite there for integers 1 <= b <= n.
* `C105_beta_symmetry_refuted` – The documented symmetry B(a,b) = B(b,a) fails for two non-positive integers of different parity: one order gives +Inf, the other -Inf.
* `C105_ln_beta_sign_refuted` – With one large argument and Gamma(b) < 0, ln_beta returns -ln|B(a,b)| instead of ln|B(a,b)|: with b = -1/2, for every a above 10^6, beta returns -exp L and ln_beta returns -L, with L > 0.
* `C105_ln_beta_small_refuted` – ln_beta returns -Inf for ordinary arguments: B(30,40) = 29! 39! / 69! is about 10^-21, its logarithm about -49.
* `C106_erfc_inv_small_refuted` – In f64, erfc_inv returns +Inf for small positive numbers, for which the inverse is a moderate number: 1.0 - x rounds to 1.0. The numbers are IEEE binary64 (Flocq); the example is x = 2^-60, and the exact function is finite there.
* `C108_redimension_refuted` – C108: control points of a higher dimension can be set after derivatives have been computed, but the array of the curve derivatives keeps the dimension of the first ones: calc_curve_derivs then panics, at every parameter and for every order.
* `C109_nan_refuted` – C109 is refuted for callbacks that answer NaN: the maximum ignores NaN, and an interpolant compared with a reference solution that is NaN at every station is reported to have error zero
* `C109_no_station_refuted` – C109 is refuted for a station count of zero: it is accepted, and every interpolant has error zero, also one whose data was never set

## 6. Theorem/assumption table

D1 = `ClassicalDedekindReals.sig_forall_dec`, D2 = `ClassicalDedekindReals.sig_not_dec`,
FE = `FunctionalExtensionality.functional_extensionality_dep`, CL = `Classical_Prop.classic`. All four are in Coq's standard library.
"closed" means: Closed under the global context. Generated from `Print Assumptions`.

| property | status | theorem | file | assumptions |
|---|---|---|---|---|
| C01 | proved | `C01_coo_history` | Sparse_Thm | closed |
| C01 | proved | `C01_coo_new_ok` | Sparse_Thm | closed |
| C02 | proved | `C02_coo_as_dense` | Sparse_Thm | closed |
| C02 | proved | `C02_coo_to_dense` | Sparse_Thm | closed |
| C03 | proved | `C03_csc_from_coo` | Sparse_Thm | closed |
| C03 | proved | `C03_csc_same_dense` | Sparse_Thm | closed |
| C04 | proved | `C04_csr_from_coo` | Sparse_Thm | closed |
| C04 | proved | `C04_csr_same_dense` | Sparse_Thm | closed |
| C05 | proved | `C05_csc_update_history` | Sparse_Thm | closed |
| C05 | proved | `C05_csr_update_history` | Sparse_Thm | closed |
| C05 | proved | `C05_csc_update_refused` | Sparse_Thm | closed |
| C05 | proved | `C05_csr_update_refused` | Sparse_Thm | closed |
| C06 | proved | `C06_csc_from_csr` | Sparse_Thm | closed |
| C06 | proved | `C06_csr_from_csc` | Sparse_Thm | closed |
| C06 | proved | `C06_csc_from_csr_dense` | Sparse_Thm | closed |
| C06 | proved | `C06_csr_from_csc_dense` | Sparse_Thm | closed |
| C06 | proved | `C06_csr_roundtrip` | Sparse_Thm | closed |
| C06 | proved | `C06_csc_roundtrip` | Sparse_Thm | closed |
| C07 | proved | `C07_coo_mat_vec_mul_order` | Sparse_Thm | closed |
| C07 | proved | `C07_coo_mat_vec_mul` | Sparse_Thm | closed |
| C07 | proved | `C07_coo_mat_vec_mul_update` | Sparse_Thm | closed |
| C07 | proved | `C07_coo_mat_t_vec_mul` | Sparse_Thm | closed |
| C07 | proved | `C07_csc_mat_vec_mul` | Sparse_Thm | closed |
| C07 | proved | `C07_csr_mat_vec_mul` | Sparse_Thm | closed |
| C07 | proved | `C07_mismatch` | Sparse_Thm | closed |
| C08 | proved | `C08_assign` | Sparse_Thm | closed |
| C08 | proved | `C08_add` | Sparse_Thm | closed |
| C08 | proved | `C08_lagrange` | Sparse_Thm | closed |
| C08 | proved | `C08_assign_cases` | Sparse_Thm | closed |
| C08 | proved | `C08_add_cases` | Sparse_Thm | closed |
| C08 | proved | `C08_add_atomic_refuted` | Sparse_Thm | closed |
| C08 | proved | `C08_actual_nnz` | Sparse_Thm | closed |
| C09 | proved | `C09_csc_new_iff` | Sparse_Thm | closed |
| C09 | proved | `C09_csr_new_iff` | Sparse_Thm | closed |
| C09 | proved | `C09_csc_new_protects` | Sparse_Thm | closed |
| C09 | proved | `C09_csr_new_protects` | Sparse_Thm | closed |
| C09 | proved | `C09_new_total_refuted` | Sparse_Thm | closed |
| C09 | proved | `C09_new_first_pointer_refuted` | Sparse_Thm | closed |
| C09 | proved | `C09_coo_from_iff` | Sparse_Thm | closed |
| C09 | proved | `C09_coo_from_triangle_refuted` | Sparse_Thm | closed |
| C10 | proved | `C10_write_then_read` | MM_Write_Thm | closed |
| C10 | proved | `C10_complex_when_tests_agree` | MM_Write_Thm | closed |
| C10 | proved | `C10_vismatrix` | MM_Write_Thm | closed |
| C10 | proved | `C10_nothing_left_refuted` | MM_Write_Thm | closed |
| C10 | proved | `C10_complex_count_refuted` | MM_Write_Thm | closed |
| C11 | proved | `C11_read_is_the_file` | MM_Thm | closed |
| C11 | proved | `C11_reads_every_file` | MM_Thm | closed |
| C11 | proved | `C11_panics_only_when` | MM_Thm | closed |
| C11 | proved | `C11_missing_dimensions_refuted` | MM_Thm | closed |
| C11 | proved | `C11_many_entries_refuted` | MM_Thm | closed |
| C11 | proved | `C11_upper_entry_refuted` | MM_Thm | closed |
| C11 | proved | `C11_index_min_refuted` | MM_Thm | closed |
| C11 | proved | `C11_hermitian_refuted` | MM_Thm | closed |
| C12 | proved | `C12_increment` | NumJac_Thm | D1 D2 FE |
| C12 | proved | `C12_success` | NumJac_Thm | D1 D2 FE |
| C12 | proved | `C12_count` | NumJac_Thm | D1 D2 FE |
| C12 | proved | `C12_affine` | NumJac_Thm | D1 D2 FE |
| C12 | proved | `C12_affine_entries` | NumJac_Thm | D1 |
| C12 | proved | `C12_first_call_fails` | NumJac_Thm | D1 D2 FE |
| C12 | proved | `C12_refused` | NumJac_Thm | D1 D2 FE |
| C12 | proved | `C12_never_panics` | NumJac_Thm | D1 D2 FE |
| C12 | proved | `C12_later_failure_refuted` | NumJac_Thm | D1 D2 FE |
| C13 | proved | `C13_sorts_permute` | Sort_Thm | closed |
| C13 | proved | `C13_sorts_sorted` | Sort_Thm | closed |
| C13 | proved | `C13_argsort` | Sort_Thm | closed |
| C13 | proved | `C13_argsort2` | Sort_Thm | closed |
| C13 | proved | `C13_argsort3` | Sort_Thm | closed |
| C13 | proved | `C13_compare_numeric` | Sort_Thm | closed |
| C14 | proved | `C14_new` | Dense_Thm | closed |
| C14 | proved | `C14_filled` | Dense_Thm | closed |
| C14 | proved | `C14_initialized` | Dense_Thm | closed |
| C14 | proved | `C14_identity` | Dense_Thm | closed |
| C14 | proved | `C14_diagonal` | Dense_Thm | closed |
| C14 | proved | `C14_from` | Dense_Thm | closed |
| C14 | proved | `C14_from_lower` | Dense_Thm | closed |
| C14 | proved | `C14_from_upper` | Dense_Thm | closed |
| C14 | proved | `C14_triangle_not_square` | Dense_Thm | closed |
| C14 | proved | `C14_extract_row` | Dense_Thm | closed |
| C14 | proved | `C14_extract_column` | Dense_Thm | closed |
| C14 | proved | `C14_transposed` | Dense_Thm | closed |
| C14 | proved | `C14_transposed_twice` | Dense_Thm | closed |
| C14 | proved | `C14_history` | Dense_Thm | closed |
| C14 | proved | `C14_out_of_range_row_refuted` | Dense_Thm | closed |
| C15 | proved | `C15_band` | Dense_Thm | closed |
| C15 | proved | `C15_band_entry` | Dense_Thm | closed |
| C15 | proved | `C15_dimension_error` | Dense_Thm | closed |
| C16 | proved | `C16_split_join` | LabVec_Thm | closed |
| C16 | proved | `C16_join_split` | LabVec_Thm | closed |
| C16 | proved | `C16_split_join_mismatch` | LabVec_Thm | closed |
| C16 | proved | `C16_differences_of_cumulative` | LabVec_Thm | closed |
| C16 | proved | `C16_cumulative_of_differences` | LabVec_Thm | closed |
| C16 | proved | `C16_cumulative_value` | LabVec_Thm | closed |
| C16 | proved | `C16_lengths` | LabVec_Thm | closed |
| C16 | proved | `C16_elementwise` | LabVec_Thm | closed |
| C16 | proved | `C16_mapped_linspace_values` | LabVec_Thm | closed |
| C16 | proved | `C16_linspace_R` | LabVec_Thm | D1 FE |
| C16 | proved | `C16_small_add` | VecCheck_Thm | closed |
| C16 | proved | `C16_small_update` | VecCheck_Thm | closed |
| C16 | proved | `C16_linspace_integer_refuted` | LabVec_Thm | closed |
| C17 | proved | `C17_array_op` | LabVec_Thm | closed |
| C17 | proved | `C17_array_plus_opx` | LabVec_Thm | closed |
| C17 | proved | `C17_copy_scaled` | LabVec_Thm | closed |
| C17 | proved | `C17_inner` | LabVec_Thm | closed |
| C17 | proved | `C17_max_abs_diff` | LabVec_Thm | D1 FE |
| C18 | proved | `C18_small_inverse` | LabMat_Thm | D1 FE |
| C18 | proved | `C18_shape_errors` | LabMat_Thm | D1 FE |
| C19 | proved | `C19_sort_vec_mat` | LabMat_Thm | closed |
| C19 | proved | `C19_empty_refuted` | LabMat_Thm | closed |
| C19 | proved | `C19_shape_errors` | LabMat_Thm | closed |
| C20 | proved | `C20_rotation` | Jacobi_Thm | D1 D2 FE |
| C20 | proved | `C20_eigenpairs` | Jacobi_Thm | D1 D2 FE |
| C20 | proved | `C20_dimensions` | Jacobi_Thm | D1 D2 FE |
| C20 | proved | `C20_two_by_two` | Jacobi_Thm | D1 D2 FE |
| C20 | proved | `C20_scale_refuted` | Jacobi_Thm | D1 D2 FE |
| C21 | proved | `C21_line_search` | Search_Thm | D1 FE |
| C21 | proved | `C21_succeeds` | Search_Thm | D1 FE |
| C22 | proved | `C22_bracket` | Search_Thm | D1 FE |
| C22 | proved | `C22_strict_refuted` | Search_Thm | D1 FE |
| C22 | proved | `C22_expansion_refuted` | Search_Thm | D1 FE |
| C23 | proved | `C23_brent` | Search_Thm | D1 FE |
| C23 | proved | `C23_true_root` | Search_Thm | D1 D2 FE |
| C23 | proved | `C23_small_values_refuted` | Search_Thm | D1 FE |
| C24 | proved | `C24_brent_min` | Search_Thm | D1 FE |
| C25 | proved | `C25_newton` | Newton_Thm | D1 FE |
| C25 | proved | `C25_first_converged_iterate` | Newton_Thm | D1 FE |
| C25 | proved | `C25_finds` | Newton_Thm | D1 FE |
| C25 | proved | `C25_last_iterate_refuted` | Newton_Thm | D1 FE |
| C26 | proved | `C26_tiling` | Quad_Thm | D1 D2 CL FE |
| C26 | proved | `C26_errors` | Quad_Thm | D1 D2 CL FE |
| C26 | proved | `C26_accuracy` | Quad_Thm | D1 D2 CL FE |
| C26 | proved | `C26_exact` | Quad_Thm | D1 D2 CL FE |
| C26 | proved | `C26_rule_polynomial` | Quad_Thm | D1 D2 CL FE |
| C26 | proved | `C26_polynomial` | Quad_Thm | D1 D2 CL FE |
| C26 | proved | `C26_first_pass` | Quad_Thm | D1 D2 CL FE |
| C26 | proved | `C26_history` | Quad_Thm | D1 D2 CL FE |
| C26 | proved | `C26_close_bounds_refuted` | Quad_Thm | D1 D2 CL FE |
| C27 | proved | `C27_lengths` | Fit_Thm | D1 FE |
| C27 | proved | `C27_free` | Fit_Thm | D1 FE |
| C27 | proved | `C27_origin` | Fit_Thm | D1 FE |
| C28 | proved | `C28_new` | Bspline_Thm | D1 FE |
| C28 | proved | `C28_span_terminates` | Bspline_Thm | D1 FE |
| C28 | proved | `C28_span` | Bspline_Thm | D1 FE |
| C28 | proved | `C28_basis` | Bspline_Thm | D1 FE |
| C28 | proved | `C28_out_of_range` | Bspline_Thm | D1 FE |
| C28 | proved | `C28_recursive` | Bspline_Thm | D1 FE |
| C28 | proved | `C28_point` | Bspline_Thm | D1 FE |
| C28 | proved | `C28_hull` | Bspline_Thm | D1 FE |
| C28 | proved | `C28_ends` | Bspline_Thm | D1 FE |
| C28 | proved | `C28_elements` | BsplineD_Thm | D1 FE |
| C28 | proved | `C28_unclamped_refuted` | Bspline_Thm | D1 FE |
| C28 | proved | `C28_overclamped_refuted` | Bspline_Thm | D1 FE |
| C28 | proved | `C28_interleaved_refuted` | BsplineD_Thm | D1 FE |
| C29 | proved | `C29_new` | InterpCheb_Thm | D1 FE |
| C29 | proved | `C29_eval` | InterpCheb_Thm | D1 FE |
| C29 | proved | `C29_eval_trig` | InterpCheb_Thm | D1 D2 CL FE |
| C29 | proved | `C29_set_data` | InterpCheb_Thm | D1 D2 FE |
| C29 | proved | `C29_set_data_total` | InterpCheb_Thm | D1 D2 FE |
| C29 | proved | `C29_set_gen_data` | InterpCheb_Thm | D1 D2 FE |
| C29 | proved | `C29_set_function` | InterpCheb_Thm | D1 D2 FE |
| C29 | proved | `C29_set_function_refused` | InterpCheb_Thm | D1 D2 FE |
| C29 | proved | `C29_get_xy_data` | InterpCheb_Thm | D1 D2 FE |
| C29 | proved | `C29_polynomial` | InterpCheb_Thm | D1 D2 FE |
| C29 | proved | `C29_polynomial_function` | InterpCheb_Thm | D1 D2 FE |
| C29 | proved | `C29_adapt` | InterpCheb_Thm | D1 D2 FE |
| C29 | proved | `C29_tn` | ChebFn_Thm | D1 D2 CL FE |
| C29 | proved | `C29_tn_deriv1` | ChebFn_Thm | D1 D2 CL FE |
| C29 | proved | `C29_tn_deriv2` | ChebFn_Thm | D1 D2 CL FE |
| C29 | proved | `C29_un` | ChebFn_Thm | D1 D2 CL FE |
| C29 | proved | `C29_un_deriv1` | ChebFn_Thm | D1 D2 CL FE |
| C29 | proved | `C29_un_deriv2` | ChebFn_Thm | D1 D2 CL FE |
| C29 | proved | `C29_lobatto_points` | Cheb_Thm | D1 D2 FE |
| C29 | proved | `C29_lobatto_sorted` | Cheb_Thm | D1 D2 FE |
| C29 | proved | `C29_gauss_points` | ChebFn_Thm | D1 D2 FE |
| C29 | proved | `C29_gauss_sorted` | ChebFn_Thm | D1 D2 FE |
| C29 | proved | `C29_un_near_refuted` | ChebFn_Thm | D1 D2 CL FE |
| C29 | proved | `C29_adapt_alias_refuted` | InterpCheb_Thm | D1 D2 FE |
| C29 | proved | `C29_failed_set_refuted` | InterpCheb_Thm | D1 D2 FE |
| C29 | proved | `C29_constant_data_refuted` | InterpCheb_Thm | D1 D2 FE |
| C30 | proved | `C30_new` | InterpLagrange_Thm | D1 D2 CL FE |
| C30 | proved | `C30_psi` | InterpLagrange_Thm | D1 D2 CL FE |
| C30 | proved | `C30_cardinal` | InterpLagrange_Thm | D1 D2 CL FE |
| C30 | proved | `C30_nodes_clear` | InterpLagrange_Thm | D1 D2 CL FE |
| C30 | proved | `C30_partition` | InterpLagrange_Thm | D1 D2 CL FE |
| C30 | proved | `C30_lebesgue` | InterpLagrange_Thm | D1 D2 CL FE |
| C30 | proved | `C30_eval` | InterpLagrange_Thm | D1 D2 CL FE |
| C30 | proved | `C30_polynomial` | InterpLagrange_Thm | D1 D2 CL FE |
| C30 | proved | `C30_eval_deriv1` | InterpLagrange_Thm | D1 D2 CL FE |
| C30 | proved | `C30_eval_deriv2` | InterpLagrange_Thm | D1 D2 CL FE |
| C30 | proved | `C30_dd1` | InterpLagrange_Thm | D1 D2 CL FE |
| C30 | proved | `C30_dd2` | InterpLagrange_Thm | D1 D2 CL FE |
| C30 | proved | `C30_gauss_end_refuted` | InterpLagrange_Thm | D1 D2 CL FE |
| C30 | proved | `C30_near_node_refuted` | InterpLagrange_Thm | D1 D2 CL FE |
| C31 | proved | `C31_roots` | Fit_Thm | D1 D2 CL FE |
| C31 | proved | `C31_degenerate` | Fit_Thm | D1 D2 CL FE |
| C31 | proved | `C31_leading` | Fit_Thm | D1 D2 CL FE |
| C31 | proved | `C31_small_roots_refuted` | Fit_Thm | D1 D2 CL FE |
| C32 | proved | `C32_decompose` | Float_Thm | D1 FE |
| C32 | proved | `C32_compose` | Float_Thm | D1 FE |
| C32 | proved | `C32_compose_special` | Float_Thm | closed |
| C32 | proved | `C32_roundtrip` | Float_Thm | closed |
| C32 | proved | `C32_split` | Float_Thm | D1 FE |
| C32 | proved | `C32_split_special` | Float_Thm | closed |
| C32 | proved | `C32_is_integer` | Float_Thm | D1 FE |
| C32 | proved | `C32_is_neg_integer` | Float_Thm | D1 FE |
| C32 | proved | `C32_modulo` | Float_Thm | D1 FE |
| C32 | proved | `C32_modulo_special` | Float_Thm | closed |
| C32 | proved | `C32_compose_overflow_refuted` | Float_Thm | closed |
| C32 | proved | `C32_split_inf_refuted` | Float_Thm | closed |
| C32 | proved | `C32_neg_one_pow_n` | MathFn_Thm | D1 FE |
| C32 | proved | `C32_steps` | MathFn_Thm | D1 FE |
| C32 | proved | `C32_boxcar` | MathFn_Thm | D1 FE |
| C32 | proved | `C32_logistic` | MathFn_Thm | D1 D2 CL FE |
| C32 | proved | `C32_smooth_ramp` | MathFn_Thm | D1 D2 CL FE |
| C32 | proved | `C32_smooth_ramp_derivatives` | MathFn_Thm | D1 D2 CL FE |
| C32 | proved | `C32_superquadric` | MathFn_Thm | D1 D2 CL FE |
| C32 | proved | `C32_factorial` | MathFn_Thm | D1 FE |
| C33 | proved | `C33_min_max` | Util_Thm | D1 FE |
| C33 | proved | `C33_valleys_and_peaks` | Util_Thm | D1 FE |
| C33 | proved | `C33_nan_refuted` | Util_Thm | closed |
| C34 | proved | `C34_generate3d` | Util_Thm | D1 FE |
| C34 | proved | `C34_ends` | Util_Thm | D1 FE |
| C34 | proved | `C34_last_station_refuted` | Util_Thm | closed |
| C35 | proved | `C35_format` | Util_Thm | closed |
| C35 | proved | `C35_digits` | Util_Thm | closed |
| C35 | proved | `C35_digits_range_refuted` | Util_Thm | closed |
| C36 | proved | `C36_histogram` | Hist_Thm | closed |
| C36 | proved | `C36_new_rejects` | Hist_Thm | closed |
| C36 | proved | `C36_bin_contains` | Hist_Thm | closed |
| C36 | proved | `C36_nan_refuted` | Hist_Thm | closed |
| C36 | proved | `C36_unsorted_refuted` | Hist_Thm | closed |
| C37 | proved | `C37_statistics` | Stat_Thm | D1 D2 FE |
| C37 | proved | `C37_degenerate` | Stat_Thm | D1 D2 FE |
| C37 | proved | `C37_dev_zero` | Stat_Thm | D1 D2 FE |
| C38 | proved | `C38_defined` | Stat_Thm | D1 FE |
| C38 | proved | `C38_interpolates` | Stat_Thm | D1 FE |
| C38 | proved | `C38_single` | Stat_Thm | D1 FE |
| C38 | proved | `C38_order_statistics` | Stat_Thm | D1 FE |
| C38 | proved | `C38_bounds` | Stat_Thm | D1 FE |
| C38 | proved | `C38_monotone` | Stat_Thm | D1 FE |
| C38 | proved | `C38_quartiles` | Stat_Thm | D1 FE |
| C38 | proved | `C38_order_independent` | Stat_Thm | D1 FE |
| C39 | proved | `C39_outliers` | Stat_Thm | D1 FE |
| C39 | proved | `C39_empty_panics` | Stat_Thm | D1 FE |
| C40 | proved | `C40_uniform_new` | Dist_Thm | D1 FE |
| C40 | proved | `C40_uniform_cdf` | Dist_Thm | D1 D2 CL FE |
| C40 | proved | `C40_uniform_moments` | Dist_Thm | D1 D2 CL FE |
| C40 | proved | `C40_gumbel_cdf` | Dist_Thm | D1 D2 CL FE |
| C40 | proved | `C40_gumbel_from_mu_sig` | Dist_Thm | D1 D2 FE |
| C40 | proved | `C40_frechet_cdf` | Dist_Thm | D1 D2 CL FE |
| C40 | proved | `C40_frechet_moments` | Dist_Thm | D1 FE |
| C40 | proved | `C40_normal_cdf` | Dist_Thm | D1 D2 CL FE |
| C40 | proved | `C40_lognormal_cdf` | Dist_Thm | D1 D2 CL FE |
| C40 | proved | `C40_lognormal_from_mu_sig` | Dist_Thm | D1 D2 CL FE |
| C40 | proved | `C40_frechet_cutoff_refuted` | Dist_Thm | D1 D2 CL FE |
| C41 | proved | `C41_numbering` | Eqs_Thm | closed |
| C41 | proved | `C41_set_semantics` | Eqs_Thm | closed |
| C41 | proved | `C41_out_of_range` | Eqs_Thm | closed |
| C42 | proved | `C42_grid1_new` | Grid_Thm | closed |
| C42 | proved | `C42_grid1_queries` | Grid_Thm | closed |
| C42 | proved | `C42_grid1_uniform_R` | Grid_Thm | D1 FE |
| C42 | proved | `C42_grid2_new` | Grid_Thm | closed |
| C42 | proved | `C42_grid2_new_rejects` | Grid_Thm | closed |
| C42 | proved | `C42_grid2_uniform` | Grid_Thm | closed |
| C43 | proved | `C43_history2` | Bcs_Thm | closed |
| C43 | proved | `C43_history_natural2` | Bcs_Thm | closed |
| C43 | proved | `C43_validate2` | Bcs_Thm | closed |
| C43 | proved | `C43_get_nodes2` | Bcs_Thm | closed |
| C43 | proved | `C43_history1` | Bcs_Thm | closed |
| C43 | proved | `C43_history_natural1` | Bcs_Thm | closed |
| C43 | proved | `C43_y_side_panics1` | Bcs_Thm | closed |
| C43 | proved | `C43_validate1` | Bcs_Thm | closed |
| C43 | proved | `C43_get_nodes1` | Bcs_Thm | closed |
| C43 | proved | `C43_enabled1` | Bcs_Thm | closed |
| C43 | proved | `C43_enabled2` | Bcs_Thm | closed |
| C43 | proved | `C43_enabled_corner_refuted` | Bcs_Thm | closed |
| C44 | proved | `C44_fdm1` | Fdm_Cap | closed |
| C44 | proved | `C44_fdm2` | Fdm_Cap | closed |
| C44 | proved | `C44_sps_no_unknowns_panics` | Fdm_Cap | closed |
| C44 | proved | `C44_solve_sps_without_prescribed_panics` | Fdm_Cap | closed |
| C45 | proved | `C45_fdm1_sps` | Fdm_Thm | D1 FE |
| C45 | proved | `C45_fdm1_lmm` | Fdm_Thm | D1 FE |
| C45 | proved | `C45_fdm2_sps` | Fdm_Thm | D1 FE |
| C45 | proved | `C45_fdm2_lmm` | Fdm_Thm | D1 FE |
| C45 | proved | `C45_symmetric` | Fdm_Thm | D1 FE |
| C45 | proved | `C45_fdm1_total_uniform` | Fdm_Exists | D1 FE |
| C45 | proved | `C45_fdm2_total_uniform` | Fdm_Exists | D1 FE |
| C46 | proved | `C46_fdm1_interior_cubic` | Fdm_Cons | D1 FE |
| C46 | proved | `C46_fdm1_rows_quadratic` | Fdm_Cons | D1 FE |
| C46 | proved | `C46_fdm2_interior_cubic` | Fdm_Cons | D1 FE |
| C46 | proved | `C46_fdm2_rows_quadratic` | Fdm_Cons | D1 FE |
| C46 | proved | `C46_periodic_corner_refuted` | Fdm_Cons | D1 FE |
| C47 | proved | `C47_fdm1` | Fdm_Equiv | D1 FE |
| C47 | proved | `C47_fdm2` | Fdm_Equiv | D1 FE |
| C47 | proved | `C47_solvers_agree1` | Fdm_Equiv | D1 FE |
| C47 | proved | `C47_solvers_agree2` | Fdm_Equiv | D1 FE |
| C48 | proved | `C48_point_on_edges_2d` | Transfinite_Thm | D1 FE |
| C48 | proved | `C48_corners_2d` | Transfinite_Thm | D1 FE |
| C48 | proved | `C48_derivatives_2d` | Transfinite_Thm | D1 FE |
| C48 | proved | `C48_no_second_derivative_refuted` | Transfinite_Thm | D1 FE |
| C48 | proved | `C48_point_on_faces_3d` | Transfinite_Thm | D1 FE |
| C48 | proved | `C48_derivatives_3d` | Transfinite_Thm | D1 FE |
| C48 | proved | `C48_none_means_zero` | Transfinite_Thm | D1 FE |
| C48 | proved | `C48_stations` | Transfinite_Thm | D1 D2 FE |
| C48 | proved | `C48_triangulate` | Transfinite_Thm | D1 D2 FE |
| C48 | proved | `C48_triangles_cover` | Transfinite_Thm | D1 D2 FE |
| C48 | proved | `C48_triangulate_panics` | Transfinite_Thm | D1 D2 FE |
| C49 | proved | `C49_order` | Erk_Tab_Thm | closed |
| C49 | proved | `C49_order_dopri8` | Erk_Tab_Thm | closed |
| C49 | proved | `C49_estimator_order` | Erk_Tab_Thm | closed |
| C49 | proved | `C49_estimator_exact` | Erk_Tab_Thm | closed |
| C49 | proved | `C49_structure` | Erk_Tab_Thm | closed |
| C49 | proved | `C49_error_weights` | Erk_Tab_Thm | closed |
| C49 | proved | `C49_fsal` | Erk_Tab_Thm | closed |
| C49 | proved | `C49_estimators_dopri8` | Erk_Tab_Thm | closed |
| C49 | proved | `C49_fehlberg4_estimator_declared_refuted` | Erk_Tab_Thm | closed |
| C49 | proved | `C49_dopri8_estimator_declared_refuted` | Erk_Tab_Thm | closed |
| C50 | proved | `C50_new` | Erk_Thm | D1 FE |
| C50 | proved | `C50_step` | Erk_Thm | D1 D2 FE |
| C50 | proved | `C50_accept` | Erk_Thm | D1 D2 FE |
| C50 | proved | `C50_no_panic` | Erk_Thm | D1 D2 FE |
| C50 | proved | `C50_total` | Erk_Thm | D1 D2 FE |
| C50 | proved | `C50_reuse` | Erk_Thm | D1 D2 FE |
| C50 | proved | `C50_contract` | Erk_Thm | D1 D2 FE |
| C51 | proved | `C51_linear` | Erk_Exact_Thm | D1 D2 FE |
| C51 | proved | `C51_quadrature` | Erk_Exact_Thm | D1 D2 CL FE |
| C52 | proved | `C52_dopri5` | Erk_Dense_Thm | D1 D2 CL FE |
| C52 | proved | `C52_dopri8` | Erk_Dense_Thm | D1 D2 CL FE |
| C52 | proved | `C52_available` | Erk_Dense_Thm | D1 FE |
| C52 | proved | `C52_dopri5_order4` | Erk_Dense_Thm | D1 FE |
| C52 | proved | `C52_dopri8_end_slope_refuted` | Erk_Dense_Thm | D1 D2 CL FE |
| C52 | proved | `C52_dopri8_scheme` | Erk_Dense_Thm | D1 D2 FE |
| C52 | proved | `C52_dopri8_order_refuted` | Erk_Dense_Thm | D1 FE |
| C53 | proved | `C53_reaches_end` | Ode_Drv_Thm | D1 FE |
| C53 | proved | `C53_monotone` | Ode_Drv_Thm | D1 FE |
| C53 | proved | `C53_equal_steps` | Ode_Drv_Thm | D1 FE |
| C53 | proved | `C53_recorded` | Ode_Out_Thm | D1 FE |
| C53 | proved | `C53_no_panic` | Ode_Drv_Thm | D1 FE |
| C53 | proved | `C53_single_pass_refuted` | Ode_Drv_Thm | D1 FE |
| C54 | proved | `C54_reset` | Ode_Drv_Thm | D1 |
| C54 | proved | `C54_counts` | Ode_Drv_Thm | D1 FE |
| C54 | proved | `C54_no_divergence` | Ode_Drv_Thm | D1 FE |
| C55 | proved | `C55_stations` | Ode_Out_Thm | D1 FE |
| C55 | proved | `C55_uniform_stations` | Ode_Out_Thm | D1 FE |
| C55 | proved | `C55_user_stations` | Ode_Out_Thm | D1 FE |
| C55 | proved | `C55_default_stations` | Ode_Out_Thm | D1 FE |
| C55 | proved | `C55_uniform_drops_refuted` | Ode_Out_Thm | D1 FE |
| C55 | proved | `C55_exhausted_panics_refuted` | Ode_Out_Thm | D1 FE |
| C56 | proved | `C56_new_limits` | Erk_Ctl_Thm | D1 FE |
| C56 | proved | `C56_accept_range` | Erk_Ctl_Thm | D1 D2 FE |
| C56 | proved | `C56_reject_range` | Erk_Ctl_Thm | D1 FE |
| C56 | proved | `C56_update_params_refuted` | Erk_Ctl_Thm | D1 FE |
| C56 | proved | `C56_no_growth_after_rejection` | Erk_Ctl_Thm | D1 FE |
| C56 | proved | `C56_erk_keeps_flag` | Erk_Ctl_Thm | D1 D2 FE |
| C56 | proved | `C56_radau5_accept` | Radau_Thm | D1 FE |
| C56 | proved | `C56_radau5_reject` | Radau_Thm | D1 FE |
| C56 | proved | `C56_radau5_keeps_flag` | Radau_Hist_Thm | D1 D2 FE |
| C56 | proved | `C56_radau5_range_refuted` | Radau_Thm | D1 FE |
| C56 | proved | `C56_radau5_rejected_grows_refuted` | Radau_Thm | D1 FE |
| C57 | proved | `C57_detected` | Ode_Base_Thm | D1 FE |
| C57 | proved | `C57_stops` | Ode_Base_Thm | D1 FE |
| C58 | proved | `C58_validate_iff` | Ode_Base_Thm | D1 FE |
| C58 | proved | `C58_m_min_boundary_refuted` | Ode_Base_Thm | D1 FE |
| C58 | proved | `C58_tolerances` | Ode_Base_Thm | D1 D2 FE |
| C58 | proved | `C58_set_tolerances` | Ode_Base_Thm | D1 D2 FE |
| C58 | proved | `C58_defaults` | Ode_Base_Thm | D1 D2 FE |
| C59 | proved | `C59_erk` | Erk_Hist_Thm | D1 D2 FE |
| C59 | proved | `C59_fresh` | Erk_Hist_Thm | D1 FE |
| C59 | proved | `C59_dense_stays_refuted` | Erk_Hist_Thm | D1 D2 FE |
| C59 | proved | `C59_fweuler` | Bwe_Thm | D1 FE |
| C59 | proved | `C59_bweuler_full_newton` | Bwe_Thm | D1 D2 FE |
| C59 | proved | `C59_bweuler_modified_newton_refuted` | Bwe_Thm | D1 D2 FE |
| C59 | proved | `C59_radau5` | Radau_Hist_Thm | D1 D2 FE |
| C59 | proved | `C59_radau5_refuted` | Radau_Hist_Thm | D1 D2 FE |
| C59 | proved | `C59_radau5_flag_left_on` | Radau_Hist_Thm | D1 FE |
| C60 | proved | `C60_bweuler` | Bwe_Thm | D1 D2 FE |
| C60 | proved | `C60_affine` | Bwe_Thm | D1 D2 FE |
| C60 | proved | `C60_fweuler` | Bwe_Thm | D1 FE |
| C60 | proved | `C60_modified_newton_refuted` | Bwe_Thm | D1 D2 FE |
| C61 | proved | `C61_basis_orthonormal` | Tensor_Thm | D1 D2 FE |
| C61 | proved | `C61_t2_new_sym` | Tensor4_Thm | D1 |
| C61 | proved | `C61_t4_new_sym` | Tensor4_Thm | D1 |
| C61 | proved | `C61_get_std` | Tensor_Thm | D1 D2 FE |
| C61 | proved | `C61_get_std_range` | Tensor_Thm | D1 D2 FE |
| C61 | proved | `C61_get_set` | Tensor4_Thm | closed |
| C61 | proved | `C61_set_range_refuted` | Tensor4_Thm | D1 |
| C61 | proved | `C61_set_std_matrix` | Tensor_Thm | D1 D2 FE |
| C61 | proved | `C61_to_std_matrix` | Tensor_Thm | D1 D2 FE |
| C61 | proved | `C61_roundtrip` | Tensor_Thm | D1 D2 FE |
| C61 | proved | `C61_components` | Tensor_Thm | D1 D2 FE |
| C61 | proved | `C61_norm` | Tensor_Thm | D1 D2 FE |
| C61 | proved | `C61_inner_product` | Tensor_Thm | D1 D2 FE |
| C61 | proved | `C61_inner_product_reps` | Tensor_Thm | D1 |
| C61 | proved | `C61_as_general` | Tensor_Thm | D1 D2 FE |
| C61 | proved | `C61_sym2d_as_symmetric` | Tensor_Thm | D1 D2 FE |
| C61 | proved | `C61_as_std_matrix_2d` | Tensor_Thm | D1 D2 FE |
| C61 | proved | `C61_sym_set_std` | Tensor_Thm | D1 D2 FE |
| C61 | proved | `C61_sym_add_std` | Tensor_Thm | D1 D2 FE |
| C61 | proved | `C61_set_tensor` | Tensor_Thm | D1 D2 FE |
| C61 | proved | `C61_update` | Tensor_Thm | D1 D2 FE |
| C61 | proved | `C61_set_vector` | Tensor_Thm | D1 D2 FE |
| C61 | proved | `C61_clear_new_identity` | Tensor_Thm | D1 D2 FE |
| C61 | proved | `C61_t4_get_std` | Tensor4_Thm | D1 D2 FE |
| C61 | proved | `C61_t4_set_std_array` | Tensor4_Thm | D1 D2 FE |
| C61 | proved | `C61_t4_set_std_matrix` | Tensor4_Thm | D1 D2 FE |
| C61 | proved | `C61_t4_as_std_array` | Tensor4_Thm | D1 D2 FE |
| C61 | proved | `C61_t4_roundtrip` | Tensor4_Thm | D1 D2 FE |
| C61 | proved | `C61_t4_from_std_array_bad` | Tensor4_Thm | D1 D2 FE |
| C61 | proved | `C61_t4_as_std_matrix` | Tensor4_Thm | D1 D2 FE |
| C61 | proved | `C61_t4_matrix_roundtrip` | Tensor4_Thm | D1 D2 FE |
| C61 | proved | `C61_t4_inner_product` | TensorMix_Thm | D1 D2 FE |
| C61 | proved | `C61_sym_set_std_plane_refuted` | Tensor_Thm | D1 D2 FE |
| C61 | proved | `C61_t4_set_std_array_atomic_refuted` | Tensor4_Thm | D1 D2 FE |
| C61 | proved | `C61_t4_to_std_array_stale_refuted` | Tensor4_Thm | D1 D2 FE |
| C62 | proved | `C62_determinant` | Tensor2_Thm | D1 D2 FE |
| C62 | proved | `C62_trace` | Tensor2_Thm | D1 D2 FE |
| C62 | proved | `C62_transpose` | Tensor2_Thm | D1 D2 FE |
| C62 | proved | `C62_squared` | Tensor2_Thm | D1 D2 FE |
| C62 | proved | `C62_add` | Tensor2_Thm | D1 D2 FE |
| C62 | proved | `C62_inverse` | Tensor2_Thm | D1 D2 FE |
| C62 | proved | `C62_inverse_reps` | Tensor2_Thm | D1 D2 FE |
| C62 | proved | `C62_deviator` | Tensor2_Thm | D1 D2 FE |
| C62 | proved | `C62_deviator_norm` | Tensor2_Thm | D1 D2 FE |
| C62 | proved | `C62_deviator_determinant` | Tensor2_Thm | D1 D2 FE |
| C62 | proved | `C62_decompose` | Tensor2_Thm | D1 D2 FE |
| C62 | proved | `C62_axial_vector` | Tensor2_Thm | D1 D2 FE |
| C62 | proved | `C62_cross` | Tensor2_Thm | D1 FE |
| C62 | proved | `C62_dot` | Tensor2_Thm | D1 |
| C62 | proved | `C62_invariants` | Tensor2_Thm | D1 D2 FE |
| C62 | proved | `C62_stress_strain_invariants` | Tensor2_Thm | D1 D2 FE |
| C62 | proved | `C62_q_jj2` | Tensor2_Thm | D1 D2 FE |
| C62 | proved | `C62_lode` | Tensor2_Thm | D1 D2 CL FE |
| C62 | proved | `C62_lode_range` | Tensor2_Thm | D1 D2 CL FE |
| C62 | proved | `C62_octahedral` | Tensor2_Thm | D1 D2 CL FE |
| C62 | proved | `C62_octahedral_range` | Tensor2_Thm | D1 D2 CL FE |
| C62 | proved | `C62_octahedral_alpha` | Tensor2_Thm | D1 D2 CL FE |
| C62 | proved | `C62_inverse_scale_refuted` | Tensor2_Thm | D1 D2 FE |
| C62 | proved | `C62_decompose_stale_refuted` | Tensor2_Thm | D1 D2 FE |
| C62 | proved | `C62_q_general_refuted` | Tensor2_Thm | D1 D2 FE |
| C63 | proved | `C63_t4_set_tensor` | TensorMix_Thm | D1 D2 FE |
| C63 | proved | `C63_t4_update` | TensorMix_Thm | D1 D2 FE |
| C63 | proved | `C63_t4_add` | TensorMix_Thm | D1 D2 FE |
| C63 | proved | `C63_t4_ddot_t4` | TensorMix_Thm | D1 D2 FE |
| C63 | proved | `C63_t4_ddot_t4_update` | TensorMix_Thm | D1 D2 FE |
| C63 | proved | `C63_t4_ddot_t2` | TensorMix_Thm | D1 D2 FE |
| C63 | proved | `C63_t4_ddot_t2_update` | TensorMix_Thm | D1 D2 FE |
| C63 | proved | `C63_t2_ddot_t4` | TensorMix_Thm | D1 D2 FE |
| C63 | proved | `C63_t2_ddot_t4_ddot_t2` | TensorMix_Thm | D1 D2 FE |
| C63 | proved | `C63_t2_dyad_t2` | TensorMix_Thm | D1 D2 FE |
| C63 | proved | `C63_t2_dyad_t2_update` | TensorMix_Thm | D1 D2 FE |
| C63 | proved | `C63_t2_odyad_t2` | TensorMix2_Thm | D1 D2 FE |
| C63 | proved | `C63_t2_udyad_t2` | TensorMix2_Thm | D1 D2 FE |
| C63 | proved | `C63_t2_ssd` | TensorMix2_Thm | D1 D2 FE |
| C63 | proved | `C63_t2_qsd_t2` | TensorMix2_Thm | D1 D2 FE |
| C63 | proved | `C63_t4_ddot_t2_dyad_t2_ddot_t4` | TensorMix3_Thm | D1 D2 FE |
| C63 | proved | `C63_t2_dot_t2` | TensorMix3_Thm | D1 D2 FE |
| C63 | proved | `C63_t2_dot_t1` | TensorMix3_Thm | D1 D2 FE |
| C63 | proved | `C63_t1_dot_t2` | TensorMix3_Thm | D1 D2 FE |
| C63 | proved | `C63_t1_dyad_t1_general` | TensorMix3_Thm | D1 D2 FE |
| C63 | proved | `C63_t1_dyad_t1_symmetric` | TensorMix3_Thm | D1 D2 FE |
| C63 | proved | `C63_t1_dyad_t1_2d` | TensorMix3_Thm | D1 D2 FE |
| C63 | proved | `C63_constants` | TensorMix3_Thm | D1 D2 FE |
| C63 | proved | `C63_projections` | TensorMix3_Thm | D1 FE |
| C63 | proved | `C63_set_pp_symdev` | TensorMix3_Thm | D1 D2 FE |
| C63 | proved | `C63_t4_sym_set_std` | TensorMix3_Thm | D1 D2 FE |
| C63 | proved | `C63_reps` | TensorMix3_Thm | D1 D2 FE |
| C63 | proved | `C63_t1_dyad_t1_2d_refuted` | TensorMix3_Thm | D1 D2 FE |
| C64 | proved | `C64_history` | LinElast_Thm | D1 FE |
| C64 | proved | `C64_hooke` | LinElast_Thm | D1 D2 FE |
| C64 | proved | `C64_plane_stress` | LinElast_Thm | D1 D2 FE |
| C64 | proved | `C64_out_of_plane_error` | LinElast_Thm | D1 FE |
| C64 | proved | `C64_conversions` | LinElast_Thm | D1 FE |
| C64 | proved | `C64_bulk_shear` | LinElast_Thm | D1 D2 FE |
| C64 | proved | `C64_calc_inverse` | LinElast_Thm | D1 FE |
| C64 | proved | `C64_inverse_contraction` | LinElast_Thm | D1 D2 FE |
| C64 | proved | `C64_compliance` | LinElast_Thm | D1 D2 FE |
| C64 | proved | `C64_compliance_plane_stress` | LinElast_Thm | D1 FE |
| C64 | proved | `C64_soft_refuted` | LinElast_Thm | D1 FE |
| C65 | proved | `C65_norm` | TensorDeriv_Thm | D1 D2 CL FE |
| C65 | proved | `C65_jj2` | TensorDeriv_Thm | D1 D2 CL FE |
| C65 | proved | `C65_jj3` | TensorDeriv_Thm | D1 D2 CL FE |
| C65 | proved | `C65_sigma_s` | TensorDeriv_Thm | D1 D2 CL FE |
| C65 | proved | `C65_p` | TensorDeriv_Thm | D1 D2 CL FE |
| C65 | proved | `C65_sigma_t` | TensorDeriv_Thm | D1 D2 CL FE |
| C65 | proved | `C65_q` | TensorDeriv_Thm | D1 D2 CL FE |
| C65 | proved | `C65_lode` | TensorDeriv_Thm | D1 D2 CL FE |
| C65 | proved | `C65_deriv2_jj2` | TensorDeriv2_Thm | D1 D2 CL FE |
| C65 | proved | `C65_aux_new` | TensorDeriv2_Thm | D1 D2 FE |
| C65 | proved | `C65_deriv2_jj3` | TensorDeriv2_Thm | D1 D2 CL FE |
| C65 | proved | `C65_deriv2_c` | TensorDeriv2_Thm | D1 D2 CL FE |
| C65 | proved | `C65_deriv2_sigma_t` | TensorDeriv2_Thm | D1 D2 CL FE |
| C65 | proved | `C65_deriv2_q` | TensorDeriv2_Thm | D1 D2 CL FE |
| C65 | proved | `C65_aux_lode_new` | TensorDeriv2_Thm | D1 D2 FE |
| C65 | proved | `C65_deriv2_lode` | TensorDeriv2_Thm | D1 D2 CL FE |
| C65 | proved | `C65_squared` | TensorDeriv3_Thm | D1 D2 CL FE |
| C65 | proved | `C65_squared_sym` | TensorDeriv3_Thm | D1 D2 CL FE |
| C65 | proved | `C65_inverse` | TensorDeriv3_Thm | D1 D2 CL FE |
| C65 | proved | `C65_inverse_sym` | TensorDeriv3_Thm | D1 D2 CL FE |
| C65 | proved | `C65_reps` | TensorDeriv3_Thm | D1 D2 FE |
| C66 | proved | `C66_path` | Nonlin_Drv_Thm | D1 D2 CL FE |
| C66 | proved | `C66_counts` | Nonlin_Drv_Thm | D1 D2 CL FE |
| C66 | proved | `C66_success` | Nonlin_Drv_Thm | D1 D2 CL FE |
| C66 | proved | `C66_failure` | Nonlin_Drv_Thm | D1 D2 CL FE |
| C66 | proved | `C66_no_panic` | Nonlin_Fixed_Thm | D1 D2 CL FE |
| C66 | proved | `natural_ok` | Nonlin_Drv_Thm | D1 D2 FE |
| C66 | proved | `arclength_ok` | Nonlin_Drv_Thm | D1 D2 FE |
| C66 | proved | `C66_success_unmet_refuted` | Nonlin_Drv_Thm | D1 D2 CL FE |
| C66 | proved | `C66_restore_refuted` | Nonlin_Drv_Thm | D1 D2 CL FE |
| C66 | proved | `C66_terminate_refuted` | Nonlin_Drv_Thm | D1 D2 CL FE |
| C67 | proved | `C67_validate` | Nonlin_Stop_Thm | D1 FE |
| C67 | proved | `C67_now` | Nonlin_Stop_Thm | D1 D2 FE |
| C67 | proved | `C67_initial` | Nonlin_Stop_Thm | D1 FE |
| C67 | proved | `C67_steps` | Nonlin_Stop_Thm | D1 D2 CL FE |
| C67 | proved | `C67_target` | Nonlin_Stop_Thm | D1 D2 CL FE |
| C67 | proved | `C67_target_reached` | Nonlin_Stop_Thm | D1 D2 CL FE |
| C67 | proved | `C67_listed` | Nonlin_Fixed_Thm | D1 D2 CL FE |
| C67 | proved | `C67_precise` | Nonlin_Fixed_Thm | D1 D2 CL FE |
| C67 | proved | `C67_precise_natural` | Nonlin_Fixed_Thm | D1 D2 CL FE |
| C67 | proved | `C67_precise_arclength` | Nonlin_Fixed_Thm | D1 D2 CL FE |
| C67 | proved | `C67_validate_unmet_refuted` | Nonlin_Stop_Thm | D1 D2 FE |
| C67 | proved | `C67_steps_auto_refuted` | Nonlin_Stop_Thm | D1 D2 CL FE |
| C68 | proved | `C68_natural` | Nonlin_Err_Thm | D1 D2 FE |
| C68 | proved | `C68_arclength` | Nonlin_Err_Thm | D1 D2 FE |
| C68 | proved | `C68_run_natural` | Nonlin_Err_Thm | D1 D2 CL FE |
| C68 | proved | `C68_run_arclength` | Nonlin_Err_Thm | D1 D2 CL FE |
| C68 | proved | `C68_natural_failure` | Nonlin_Err_Thm | D1 D2 FE |
| C68 | proved | `C68_arclength_failure` | Nonlin_Err_Thm | D1 D2 FE |
| C68 | proved | `C68_counters` | Nonlin_Err_Thm | D1 D2 FE |
| C68 | proved | `C68_cumulative_refuted` | Nonlin_Err_Thm | D1 D2 FE |
| C68 | proved | `C68_infinite_residual` | Nonlin_Nan_Thm | closed |
| C68 | proved | `C68_nan_residual_refuted` | Nonlin_Nan_Thm | closed |
| C68 | proved | `C68_nan_constraint_refuted` | Nonlin_Nan_Thm | closed |
| C69 | proved | `C69_bordering` | Nonlin_Bord_Thm | D1 FE |
| C69 | proved | `C69_augmented` | Nonlin_Bord_Thm | D1 FE |
| C69 | proved | `C69_small_denominator` | Nonlin_Bord_Thm | D1 FE |
| C69 | proved | `C69_unique` | Nonlin_Bord_Thm | D1 FE |
| C70 | proved | `C70_execute` | Nonlin_Out_Thm | D1 D2 FE |
| C70 | proved | `C70_history` | Nonlin_Out_Thm | D1 D2 FE |
| C70 | proved | `C70_configured` | Nonlin_Out_Thm | D1 D2 FE |
| C70 | proved | `C70_run` | Nonlin_Out_Thm | D1 D2 CL FE |
| C70 | proved | `C70_set_recording_refuted` | Nonlin_Out_Thm | D1 D2 FE |
| C71 | proved | `C71_dense` | Radau_Thm | D1 D2 FE |
| C72 | proved | `C72_collocation` | Radau_Thm | D1 D2 FE |
| C72 | proved | `C72_inverse` | Radau_Thm | D1 FE |
| C72 | proved | `C72_transformation` | Radau_Thm | D1 D2 FE |
| C72 | proved | `C72_eigenvalues` | Radau_Thm | D1 FE |
| C72 | proved | `C72_error_constants` | Radau_Thm | D1 D2 FE |
| C72 | proved | `C72_abscissae` | Radau_Thm | D1 D2 FE |
| C72 | proved | `C72_stage_equations` | Radau_Thm | D1 D2 FE |
| C73 | proved | `C73_refine` | Search_Thm | D1 FE |
| C73 | proved | `C73_difference_inside` | Search_Thm | D1 FE |
| C73 | proved | `C73_zero_slope_refuted` | Search_Thm | D1 FE |
| C74 | proved | `C74_inverse` | SmallMat_Thm | D1 FE |
| C74 | proved | `C74_determinant` | SmallMat_Thm | D1 FE |
| C74 | proved | `C74_total` | SmallMat_Thm | D1 FE |
| C74 | proved | `C74_singular` | SmallMat_Thm | D1 FE |
| C74 | proved | `C74_scale_refuted` | SmallMat_Thm | D1 FE |
| C74 | proved | `C74_block_refuted` | SmallMat_Thm | D1 FE |
| C75 | proved | `C75_solve` | GaussJ_Thm | D1 FE |
| C75 | proved | `C75_inverse` | GaussJ_Thm | D1 FE |
| C75 | proved | `C75_total` | GaussJ_Thm | D1 FE |
| C75 | proved | `C75_singular` | GaussJ_Thm | D1 FE |
| C75 | proved | `C75_solve_lin_sys` | GaussJ_Thm | D1 FE |
| C75 | proved | `C75_error_overwrites_refuted` | GaussJ_Thm | D1 FE |
| C76 | proved | `C76_ratio` | Nonlin_Stop_Thm | D1 D2 CL FE |
| C76 | proved | `C76_no_control` | Nonlin_Stop_Thm | D1 D2 CL FE |
| C76 | proved | `C76_iterations` | Nonlin_Stop_Thm | D1 D2 CL FE |
| C76 | proved | `C76_rejected` | Nonlin_Stop_Thm | D1 D2 CL FE |
| C76 | proved | `C76_accepted` | Nonlin_Stop_Thm | D1 D2 CL FE |
| C76 | proved | `C76_failure_factor_refuted` | Nonlin_Stop_Thm | D1 FE |
| C77 | proved | `C77_initial` | Nonlin_Bord_Thm | D1 D2 FE |
| C77 | proved | `C77_update` | Nonlin_Bord_Thm | D1 D2 FE |
| C77 | proved | `C77_step` | Nonlin_Bord_Thm | D1 D2 FE |
| C78 | proved | `C78_solution` | LinSol_Thm | closed |
| C78 | proved | `C78_solve_refused` | LinSol_Thm | closed |
| C78 | proved | `C78_first_call` | LinSol_Thm | closed |
| C78 | proved | `C78_next_call` | LinSol_Thm | closed |
| C78 | proved | `C78_no_panic` | LinSol_Thm | closed |
| C78 | proved | `C78_compute` | LinSol_Thm | closed |
| C78 | proved | `C78_compute_available` | LinSol_Thm | closed |
| C78 | proved | `C78_singular_reported_refuted` | LinSol_Thm | closed |
| C78 | proved | `C78_determinant_kept_refuted` | LinSol_Thm | closed |
| C78 | proved | `C78_options` | LinSol_Thm | closed |
| C78 | proved | `C78_colamd_refuted` | LinSol_Thm | closed |
| C79 | proved | `C79_solution` | LinSol_Mumps_Thm | closed |
| C79 | proved | `C79_solve_refused` | LinSol_Mumps_Thm | closed |
| C79 | proved | `C79_call_refused` | LinSol_Mumps_Thm | closed |
| C79 | proved | `C79_no_panic` | LinSol_Mumps_Thm | closed |
| C79 | proved | `C79_other_object_refuted` | LinSol_Mumps_Thm | closed |
| C79 | proved | `C79_dropped_object_refuted` | LinSol_Mumps_Thm | closed |
| C79 | proved | `C79_other_positions_refuted` | LinSol_Mumps_Thm | closed |
| C79 | proved | `C79_positive_definite_refuted` | LinSol_Mumps_Thm | closed |
| C79 | proved | `C79_square_refuted` | LinSol_Mumps_Thm | closed |
| C79 | proved | `C79_determinant_kept_refuted` | LinSol_Mumps_Thm | closed |
| C80 | proved | `C80_accepted` | Table_Thm | closed |
| C80 | proved | `C80_columns` | Table_Thm | closed |
| C80 | proved | `C80_empty` | Table_Thm | closed |
| C80 | proved | `C80_default_labels_refuted` | Table_Thm | closed |
| C80 | proved | `C80_missing_labels_refuted` | Table_Thm | closed |
| C80 | proved | `C80_duplicates_refuted` | Table_Thm | closed |
| C81 | proved | `C81_text` | Table_Thm | closed |
| C82 | proved | `C82_new` | Spectral_Thm | D1 |
| C82 | proved | `C82_decompose` | Spectral_Thm | D1 D2 FE |
| C82 | proved | `C82_decompose_refused` | Spectral_Thm | D1 D2 FE |
| C82 | proved | `C82_compose` | Spectral_Thm | D1 D2 FE |
| C82 | proved | `C82_roundtrip` | Spectral_Thm | D1 D2 FE |
| C82 | proved | `C82_octahedral` | Spectral_Thm | D1 D2 FE |
| C83 | proved | `C83_real` | Verify_Thm | D1 FE |
| C83 | proved | `C83_complex` | Verify_Thm | D1 D2 FE |
| C83 | proved | `C83_exact` | Verify_Thm | D1 FE |
| C83 | proved | `C83_worse` | Verify_Thm | D1 FE |
| C83 | proved | `C83_duplicates_refuted` | Verify_Thm | D1 FE |
| C84 | proved | `C84_assign_cases` | Verify_Thm | closed |
| C84 | proved | `C84_add_cases` | Verify_Thm | closed |
| C84 | proved | `C84_assign` | Verify_Thm | closed |
| C84 | proved | `C84_add` | Verify_Thm | closed |
| C84 | proved | `C84_overflow_refuted` | Verify_Thm | closed |
| C85 | proved | `C85_new` | Spc_Thm | D1 D2 CL FE |
| C85 | proved | `C85_collocation` | Spc_Thm | D1 D2 CL FE |
| C85 | proved | `C85_solve` | Spc_Thm | D1 D2 CL FE |
| C85 | proved | `C85_flow` | Spc_Thm | D1 D2 CL FE |
| C85 | proved | `C85_flow_length` | Spc_Thm | D1 D2 CL FE |
| C85 | proved | `C85_flux_only_refuted` | Spc_Thm | D1 D2 CL FE |
| C85 | proved | `C85_all_prescribed_refuted` | Spc_Thm | D1 D2 CL FE |
| C85 | proved | `C85_interval_refuted` | Spc_Thm | D1 D2 CL FE |
| C86 | proved | `C86_new` | Spc2_Thm | D1 D2 CL FE |
| C86 | proved | `C86_collocation` | Spc2_Thm | D1 D2 CL FE |
| C86 | proved | `C86_solve` | Spc2_Thm | D1 D2 CL FE |
| C86 | proved | `C86_flow` | Spc2_Thm | D1 D2 CL FE |
| C86 | proved | `C86_flow_length` | Spc2_Thm | D1 D2 CL FE |
| C86 | proved | `C86_flux_only_refuted` | Spc2_Thm | D1 D2 CL FE |
| C86 | proved | `C86_all_prescribed_refuted` | Spc2_Thm | D1 D2 CL FE |
| C87 | proved | `C87_pn` | Legendre_Thm | D1 D2 CL FE |
| C87 | proved | `C87_pn_unique` | Legendre_Thm | D1 D2 CL FE |
| C87 | proved | `C87_derivatives` | Legendre_Thm | D1 D2 CL FE |
| C87 | proved | `C87_gauss_weights` | Legendre_Thm | D1 D2 CL FE |
| C87 | proved | `C87_lobatto_weights` | Legendre_Thm | D1 D2 CL FE |
| C87 | proved | `C87_gauss_points` | Legendre_Thm | D1 D2 FE |
| C87 | proved | `C87_lobatto_points` | Legendre_Thm | D1 D2 FE |
| C87 | proved | `C87_small_rules` | Legendre_Thm | D1 D2 CL FE |
| C87 | proved | `C87_lobatto_two_refuted` | Legendre_Thm | D1 D2 CL FE |
| C88 | proved | `C88_new` | Tensor3_Thm | D1 D2 FE |
| C88 | proved | `C88_get_std` | Tensor3_Thm | D1 D2 FE |
| C88 | proved | `C88_get_std_range` | Tensor3_Thm | D1 D2 FE |
| C88 | proved | `C88_get_set` | Tensor3_Thm | closed |
| C88 | proved | `C88_set_range_refuted` | Tensor3_Thm | D1 |
| C88 | proved | `C88_isometry` | Tensor3_Thm | D1 D2 FE |
| C88 | proved | `C88_set_std_array` | Tensor3_Thm | D1 D2 FE |
| C88 | proved | `C88_set_std_matrix` | Tensor3_Thm | D1 D2 FE |
| C88 | proved | `C88_as_std_array` | Tensor3_Thm | D1 D2 FE |
| C88 | proved | `C88_roundtrip` | Tensor3_Thm | D1 D2 FE |
| C88 | proved | `C88_from_std_array_bad` | Tensor3_Thm | D1 D2 FE |
| C88 | proved | `C88_as_std_matrix` | Tensor3_Thm | D1 D2 FE |
| C88 | proved | `C88_matrix_roundtrip` | Tensor3_Thm | D1 D2 FE |
| C88 | proved | `C88_from_std_matrix_bad` | Tensor3_Thm | D1 D2 FE |
| C88 | proved | `C88_sym_set_std` | Tensor3_Thm | D1 D2 FE |
| C88 | proved | `C88_update` | Tensor3_Thm | D1 D2 FE |
| C88 | proved | `C88_add` | Tensor3_Thm | D1 D2 FE |
| C88 | proved | `C88_dot_t1` | Tensor3_Thm | D1 D2 FE |
| C88 | proved | `C88_ddot_t2` | Tensor3_Thm | D1 D2 FE |
| C88 | proved | `C88_mismatch_panics` | Tensor3_Thm | D1 |
| C88 | proved | `C88_set_std_array_atomic_refuted` | Tensor3_Thm | D1 D2 FE |
| C88 | proved | `C88_to_std_array_stale_refuted` | Tensor3_Thm | D1 D2 FE |
| C88 | proved | `C88_sym_set_std_out_of_plane_refuted` | Tensor3_Thm | D1 D2 FE |
| C89 | proved | `C89_simple_equation_constant` | OdeSample_Thm | D1 D2 CL FE |
| C89 | proved | `C89_simple_system_with_mass_matrix` | OdeSample_Thm | D1 D2 CL FE |
| C89 | proved | `C89_brusselator_ode` | OdeSample_Thm | D1 D2 CL FE |
| C89 | proved | `C89_hairer_wanner_eq1` | OdeSample_Thm | D1 D2 CL FE |
| C89 | proved | `C89_robertson` | OdeSample_Thm | D1 D2 CL FE |
| C89 | proved | `C89_van_der_pol` | OdeSample_Thm | D1 D2 CL FE |
| C89 | proved | `C89_amplifier1t` | OdeSample_Thm | D1 D2 CL FE |
| C89 | proved | `C89_kreyszig_eq6` | OdeSample_Thm | D1 D2 CL FE |
| C89 | proved | `C89_kreyszig_ex4` | OdeSample_Thm | D1 D2 CL FE |
| C89 | proved | `C89_arenstorf` | OdeSample_Thm | D1 D2 CL FE |
| C89 | proved | `C89_mass_simple` | OdeSample_Thm | D1 D2 CL FE |
| C89 | proved | `C89_mass_amplifier1t` | OdeSample_Thm | D1 D2 FE |
| C89 | proved | `C89_amplifier1t_consistent` | OdeSample_Thm | D1 D2 FE |
| C89 | proved | `C89_solution_simple_constant` | OdeSample_Thm | D1 D2 CL FE |
| C89 | proved | `C89_solution_mass` | OdeSample_Thm | D1 D2 CL FE |
| C89 | proved | `C89_solution_hairer_wanner` | OdeSample_Thm | D1 D2 CL FE |
| C89 | proved | `C89_solution_kreyszig_eq6` | OdeSample_Thm | D1 D2 CL FE |
| C89 | proved | `C89_solution_kreyszig_ex4` | OdeSample_Thm | D1 D2 CL FE |
| C89 | proved | `C89_config` | OdeSample_Thm | closed |
| C89 | proved | `C89_set_jacobian` | OdeSample_Thm | closed |
| C89 | proved | `C89_set_mass` | OdeSample_Thm | closed |
| C89 | proved | `C89_default_nnz` | OdeSample_Thm | D1 D2 FE |
| C89 | proved | `C89_brusselator_pde` | OdeSample_Thm | D1 D2 CL FE |
| C89 | proved | `C89_brusselator_rhs` | OdeSample_Thm | D1 FE |
| C89 | proved | `C89_brusselator_alloc` | OdeSample_Thm | D1 FE |
| C91 | proved | `C91_central5` | NumDeriv_Thm | D1 D2 CL FE |
| C91 | proved | `C91_forward7` | NumDeriv_Thm | D1 D2 CL FE |
| C91 | proved | `C91_backward7` | NumDeriv_Thm | D1 D2 CL FE |
| C91 | proved | `C91_central9` | NumDeriv_Thm | D1 D2 CL FE |
| C91 | proved | `C91_forward8` | NumDeriv_Thm | D1 D2 CL FE |
| C91 | proved | `C91_backward8` | NumDeriv_Thm | D1 D2 CL FE |
| C91 | proved | `C91_exact` | NumDeriv_Thm | D1 D2 CL FE |
| C91 | proved | `C91_check` | NumDeriv_Thm | D1 FE |
| C91 | proved | `C91_check_failing` | NumDeriv_Thm | D1 D2 CL FE |
| C91 | proved | `C91_check_accepts` | NumDeriv_Thm | D1 FE |
| C91 | proved | `C91_errors` | NumDeriv_Thm | D1 D2 CL FE |
| C91 | proved | `C91_vec_deriv1` | VecCheck_Thm | D1 D2 CL FE |
| C91 | proved | `C91_vec_deriv2` | VecCheck_Thm | D1 D2 CL FE |
| C91 | proved | `C91_num_jacobian` | NumDeriv_Thm | D1 D2 CL FE |
| C90 | proved | `C90_simple_linear_problem` | NonlinSample_Thm | D1 D2 CL FE |
| C90 | proved | `C90_cubic_poly_1` | NonlinSample_Thm | D1 D2 CL FE |
| C90 | proved | `C90_cubic_poly_2` | NonlinSample_Thm | D1 D2 CL FE |
| C90 | proved | `C90_two_eq_ref` | NonlinSample_Thm | D1 D2 CL FE |
| C90 | proved | `C90_two_eq_nr_prob_1` | NonlinSample_Thm | D1 D2 CL FE |
| C90 | proved | `C90_two_eq_nr_prob_2` | NonlinSample_Thm | D1 D2 CL FE |
| C90 | proved | `C90_one_eq_with_fold_point` | NonlinSample_Thm | D1 D2 CL FE |
| C90 | proved | `C90_circle_ul` | NonlinSample_Thm | D1 D2 CL FE |
| C90 | proved | `C90_singular_initial_state` | NonlinSample_Thm | D1 D2 CL FE |
| C90 | proved | `C90_simple_linear_root` | NonlinSample_Thm | D1 FE |
| C90 | proved | `C90_cubic_poly_1_points` | NonlinSample_Thm | D1 D2 FE |
| C90 | proved | `C90_cubic_poly_2_root` | NonlinSample_Thm | D1 FE |
| C90 | proved | `C90_two_eq_ref_root` | NonlinSample_Thm | D1 FE |
| C90 | proved | `C90_two_eq_nr_prob_1_root` | NonlinSample_Thm | D1 FE |
| C90 | proved | `C90_two_eq_nr_prob_2_roots` | NonlinSample_Thm | D1 D2 FE |
| C90 | proved | `C90_fold_point` | NonlinSample_Thm | D1 D2 CL FE |
| C90 | proved | `C90_singular_root` | NonlinSample_Thm | D1 D2 CL FE |
| C90 | proved | `C90_circle_root` | NonlinSample_Thm | D1 D2 FE |
| C90 | proved | `C90_new` | NonlinSample_Thm | D1 D2 FE |
| C90 | proved | `C90_mat_approx_eq` | NonlinSample_Thm | D1 FE |
| C90 | proved | `C90_check_ggu` | NonlinSample_Thm | D1 D2 CL FE |
| C90 | proved | `C90_check_ggu_refuted` | NonlinSample_Thm | D1 D2 CL FE |
| C92 | proved | `C92_quadrilateral_2d` | TfSample_Thm | D1 D2 CL FE |
| C92 | proved | `C92_quarter_ring_2d` | TfSample_Thm | D1 D2 CL FE |
| C92 | proved | `C92_half_ring_2d` | TfSample_Thm | D1 D2 CL FE |
| C92 | proved | `C92_quarter_perforated_lozenge_2d` | TfSample_Thm | D1 D2 CL FE |
| C92 | proved | `C92_brick_3d` | TfSample_Thm | D1 D2 CL FE |
| C92 | proved | `C92_quarter_ring_3d` | TfSample_Thm | D1 D2 CL FE |
| C92 | proved | `C92_quarter_ring_region` | TfSample_Thm | D1 D2 CL FE |
| C92 | proved | `C92_half_ring_region` | TfSample_Thm | D1 D2 CL FE |
| C93 | proved | `C93_d1_problem_01` | PdeSample_Thm | D1 D2 CL FE |
| C93 | proved | `C93_d1_problem_02` | PdeSample_Thm | D1 D2 CL FE |
| C93 | proved | `C93_d1_problem_03` | PdeSample_Thm | D1 D2 CL FE |
| C93 | proved | `C93_d1_problem_04a` | PdeSample_Thm | D1 D2 CL FE |
| C93 | proved | `C93_d1_problem_04b` | PdeSample_Thm | D1 D2 CL FE |
| C93 | proved | `C93_d1_problem_05` | PdeSample_Thm | D1 D2 CL FE |
| C93 | proved | `C93_d2_problem_01` | PdeSample_Thm | D1 D2 CL FE |
| C93 | proved | `C93_d2_problem_02` | PdeSample_Thm | D1 D2 CL FE |
| C93 | proved | `C93_d2_problem_03` | PdeSample_Thm | D1 D2 CL FE |
| C93 | proved | `C93_d2_problem_04` | PdeSeries_Thm | D1 D2 CL FE |
| C93 | proved | `C93_d2_problem_04_truncation` | PdeSeries_Thm | D1 D2 CL FE |
| C93 | proved | `C93_d2_problem_05` | PdeSample_Thm | D1 D2 CL FE |
| C93 | proved | `C93_d2_problem_06` | PdeSample_Thm | D1 D2 CL FE |
| C93 | proved | `C93_d2_problem_07` | PdeSample_Thm | D1 D2 CL FE |
| C93 | proved | `C93_d2_problem_08` | PdeSample_Thm | D1 D2 CL FE |
| C93 | proved | `C93_d2_problem_09` | PdeSample_Thm | D1 D2 CL FE |
| C93 | proved | `C93_nsum_refuted` | PdeSeries_Thm | D1 D2 FE |
| C94 | proved | `C94_euler_predictor` | Nonlin_Pred_Thm | D1 FE |
| C94 | proved | `C94_simple_predictor` | Nonlin_Pred_Thm | D1 |
| C94 | proved | `C94_newton_natural` | Nonlin_Pred_Thm | D1 D2 FE |
| C94 | proved | `C94_holds_step` | Nonlin_Pred_Thm | D1 D2 FE |
| C94 | proved | `C94_holds_start` | Nonlin_Pred_Thm | D1 |
| C94 | proved | `C94_arc_predictor` | Nonlin_Pred_Thm | D1 FE |
| C94 | proved | `C94_newton_arc` | Nonlin_Pred_Thm | D1 D2 FE |
| C94 | proved | `C94_recorded_natural` | Nonlin_Rec_Thm | D1 D2 FE |
| C94 | proved | `C94_recorded_arclength` | Nonlin_Rec_Thm | D1 D2 FE |
| C94 | proved | `C94_first_predictor_refuted` | Nonlin_Pred_Thm | D1 FE |
| C95 | proved | `C95_calculate_2d` | Metrics_Thm | D1 FE |
| C95 | proved | `C95_calculate_3d` | Metrics_Thm | D1 FE |
| C95 | proved | `C95_sizes` | Metrics_Thm | D1 FE |
| C95 | proved | `C95_laplacian_2d` | Metrics_Thm | D1 D2 FE |
| C95 | proved | `C95_laplacian_3d` | Metrics_Thm | D1 D2 FE |
| C95 | proved | `C95_small_domain_refuted` | Metrics_Thm | D1 FE |
| C95 | proved | `C95_ell_homogeneous_refuted` | Metrics_Thm | D1 FE |
| C96 | proved | `C96_new` | SpcMap_Thm | D1 D2 CL FE |
| C96 | proved | `C96_true_map` | SpcMap_Thm | D1 FE |
| C96 | proved | `C96_collocation` | SpcMap_Thm | D1 D2 CL FE |
| C96 | proved | `C96_solve` | SpcMap_Thm | D1 D2 CL FE |
| C96 | proved | `C96_flow` | SpcMap_Thm | D1 D2 CL FE |
| C96 | proved | `C96_flow_length` | SpcMap_Thm | D1 D2 CL FE |
| C96 | proved | `C96_normal_flux` | SpcMap_Thm | D1 FE |
| C96 | proved | `C96_orthogonal` | SpcMap_Thm | D1 D2 FE |
| C96 | proved | `C96_oblique_flux_refuted` | SpcMap_Thm | D1 D2 CL FE |
| C96 | proved | `C96_small_domain_refuted` | SpcMap_Thm | D1 D2 CL FE |
| C97 | proved | `C97_mat_mat_mul` | Blas_Thm | closed |
| C97 | proved | `C97_mat_t_mat_mul` | Blas_Thm | closed |
| C97 | proved | `C97_mul_sizes` | Blas_Thm | closed |
| C97 | proved | `C97_mat_vec_mul` | Blas_Thm | closed |
| C97 | proved | `C97_mat_vec_mul_update` | Blas_Thm | closed |
| C97 | proved | `C97_vec_mat_mul` | Blas_Thm | closed |
| C97 | proved | `C97_vec_sizes` | Blas_Thm | closed |
| C97 | proved | `C97_vec_outer` | Blas_Thm | closed |
| C97 | proved | `C97_mat_sym_rank_op` | Blas_Thm | closed |
| C97 | proved | `C97_complex_mat_herm_rank_op` | Blas_Thm | closed |
| C97 | proved | `C97_rank_sizes` | Blas_Thm | closed |
| C97 | proved | `C97_sums` | Blas_Thm | closed |
| C97 | proved | `C97_inner_zero_refuted` | Blas_Thm | D1 FE |
| C97 | proved | `C97_update_zero_refuted` | Blas_Thm | D1 FE |
| C97 | proved | `C97_rank_zero_refuted` | Blas_Thm | D1 |
| C97 | proved | `C97_outer_zero_refuted` | Blas_Thm | D1 |
| C98 | proved | `C98_penrose_unique` | Decomp_Thm | D1 FE |
| C98 | proved | `C98_pseudo_inverse` | Decomp_Thm | D1 FE |
| C98 | proved | `C98_pseudo_inverse_sizes` | Decomp_Thm | D1 FE |
| C98 | proved | `C98_pinv_empty_refuted` | Decomp_Thm | D1 FE |
| C98 | proved | `C98_eigen` | Decomp_Thm | D1 FE |
| C98 | proved | `C98_eigen_lr` | Decomp_Thm | D1 FE |
| C98 | proved | `C98_eigen_sizes` | Decomp_Thm | D1 FE |
| C98 | proved | `C98_eigen_lr_sizes` | Decomp_Thm | D1 FE |
| C99 | proved | `C99_solve_lin_sys` | Lapack_Thm | closed |
| C99 | proved | `C99_solve_sizes` | Lapack_Thm | closed |
| C99 | proved | `C99_cholesky` | Lapack_Thm | closed |
| C99 | proved | `C99_cholesky_sizes` | Lapack_Thm | closed |
| C99 | proved | `C99_eigen_sym` | Lapack_Thm | D1 |
| C99 | proved | `C99_eigen_sym_sizes` | Lapack_Thm | closed |
| C99 | proved | `C99_complex_eigen` | Lapack_Thm | D1 |
| C99 | proved | `C99_complex_eigen_lr` | Lapack_Thm | D1 |
| C99 | proved | `C99_complex_gen_eigen` | Lapack_Thm | D1 FE |
| C99 | proved | `C99_complex_gen_eigen_lr` | Lapack_Thm | D1 FE |
| C99 | proved | `C99_complex_left_refuted` | Lapack_Thm | D1 FE |
| C99 | proved | `C99_complex_sizes` | Lapack_Thm | D1 |
| C99 | proved | `C99_gen_eigen` | Lapack_Thm | D1 FE |
| C99 | proved | `C99_gen_eigen_lr` | Lapack_Thm | D1 FE |
| C99 | proved | `C99_gen_pairs_refuted` | Lapack_Thm | D1 FE |
| C99 | proved | `C99_eigenvalues` | Lapack_Thm | D1 |
| C99 | proved | `C99_real_sizes` | Lapack_Thm | D1 |
| C99 | proved | `C99_complex_svd` | Lapack_Thm | D1 |
| C99 | proved | `C99_complex_svd_sizes` | Lapack_Thm | closed |
| C99 | proved | `C99_complex_inverse` | Lapack_Thm | D1 D2 FE |
| C99 | proved | `C99_complex_inverse_sizes` | Lapack_Thm | D1 D2 FE |
| C100 | proved | `C100_mat_norm` | Norms_Thm | D1 D2 FE |
| C100 | proved | `C100_mat_norm_laws` | Norms_Thm | D1 D2 FE |
| C100 | proved | `C100_vec_ops` | Norms_Thm | closed |
| C100 | proved | `C100_vec_sizes` | Norms_Thm | closed |
| C100 | proved | `C100_mat_ops` | Norms_Thm | closed |
| C100 | proved | `C100_mat_sizes` | Norms_Thm | D1 FE |
| C100 | proved | `C100_mat_max_abs_diff` | Norms_Thm | D1 FE |
| C100 | proved | `C100_vec_norm` | Norms_Thm | D1 D2 FE |
| C100 | proved | `C100_vec_norm_diff` | Norms_Thm | D1 D2 FE |
| C100 | proved | `C100_vec_norm_chunk` | Norms_Thm | D1 D2 FE |
| C100 | proved | `C100_complex_vec_norm` | Norms_Thm | D1 D2 FE |
| C100 | proved | `C100_max_scaled` | Norms_Thm | D1 FE |
| C100 | proved | `C100_max_scaled_diff` | Norms_Thm | D1 FE |
| C100 | proved | `C100_rms_scaled` | Norms_Thm | D1 D2 FE |
| C100 | proved | `C100_rms_scaled_diff` | Norms_Thm | D1 D2 FE |
| C100 | proved | `C100_measure_sizes` | Norms_Thm | D1 D2 FE |
| C100 | proved | `C100_vec_zip` | Norms_Thm | D1 |
| C100 | proved | `C100_mat_zip` | Norms_Thm | D1 |
| C100 | proved | `C100_zip_sizes` | Norms_Thm | closed |
| C101 | proved | `C101_format_scientific` | Text_Thm | closed |
| C101 | proved | `C101_width` | Text_Thm | closed |
| C101 | proved | `C101_write_number` | Text_Thm | closed |
| C101 | proved | `C101_numpy` | Text_Thm | closed |
| C101 | proved | `C101_mathematica` | Text_Thm | closed |
| C101 | proved | `C101_static_matrix` | Text_Thm | closed |
| C101 | proved | `C101_static_vector` | Text_Thm | closed |
| C101 | proved | `C101_empty_matrix_refuted` | Text_Thm | closed |
| C101 | proved | `C101_empty_vector_refuted` | Text_Thm | closed |
| C101 | proved | `C101_mat_display` | Text_Thm | closed |
| C101 | proved | `C101_vec_display` | Text_Thm | closed |
| C101 | proved | `C101_fmt_scientific` | Text_Thm | closed |
| C101 | proved | `C101_fmt_scientific_nan_refuted` | Text_Thm | closed |
| C101 | proved | `C101_empty_display` | Text_Thm | closed |
| C101 | proved | `C101_vismatrix` | Text_Thm | D1 FE |
| C102 | proved | `C102_hankel_form` | Bessel_Thm | D1 D2 CL FE |
| C102 | proved | `C102_j0_even` | Bessel_Thm | D1 D2 FE |
| C102 | proved | `C102_j1_odd` | Bessel_Thm | D1 D2 FE |
| C102 | proved | `C102_j1_odd_refuted` | Bessel_Thm | D1 D2 CL FE |
| C102 | proved | `C102_jn_parity` | Bessel_Thm | D1 D2 CL FE |
| C102 | proved | `C102_jn_reflection` | Bessel_Thm | D1 D2 CL FE |
| C102 | proved | `C102_jn_one` | Bessel_Thm | D1 D2 CL FE |
| C102 | proved | `C102_jn_forward` | Bessel_Thm | D1 D2 CL FE |
| C102 | proved | `C102_jn_backward` | Bessel_Thm | D1 D2 CL FE |
| C102 | proved | `C102_jn_tiny` | Bessel_Thm | D1 D2 CL FE |
| C102 | proved | `C102_large_argument` | Bessel_Thm | D1 D2 CL FE |
| C102 | proved | `C102_yn_forward` | Bessel_Thm | D1 D2 CL FE |
| C102 | proved | `C102_yn_reflection` | Bessel_Thm | D1 D2 CL FE |
| C102 | proved | `C102_special_values` | Bessel_Thm | D1 D2 CL FE |
| C102 | proved | `C102_min_order_refuted` | Bessel_Thm | D1 D2 CL FE |
| C102 | proved | `C102_large_order_refuted` | Bessel_Thm | D1 D2 CL FE |
| C102 | proved | `C102_in_parity` | Bessel_Thm | D1 D2 FE |
| C102 | proved | `C102_in_miller` | Bessel_Thm | D1 D2 FE |
| C102 | proved | `C102_kn` | Bessel_Thm | D1 FE |
| C102 | proved | `C102_x_times_i_pow_n` | Bessel_Thm | D1 FE |
| C102 | proved | `C102_i_pow_n` | Bessel_Thm | D1 FE |
| C102 | proved | `C102_i_pow_min_refuted` | Bessel_Thm | D1 FE |
| C103 | proved | `C103_f_domain` | Elliptic_Thm | D1 D2 FE |
| C103 | proved | `C103_e_domain` | Elliptic_Thm | D1 D2 CL FE |
| C103 | proved | `C103_out_of_domain` | Elliptic_Thm | D1 D2 CL FE |
| C103 | proved | `C103_special_values` | Elliptic_Thm | D1 D2 CL FE |
| C103 | proved | `C103_pi_zero_n` | Elliptic_Thm | D1 D2 CL FE |
| C103 | proved | `C103_f_bounds` | Elliptic_Thm | D1 D2 FE |
| C103 | proved | `C103_rd_bounds` | Elliptic2_Thm | D1 D2 CL FE |
| C103 | proved | `C103_rc_bounds` | Elliptic2_Thm | D1 D2 FE |
| C103 | proved | `C103_rc_negative` | Elliptic2_Thm | D1 D2 FE |
| C103 | proved | `C103_rc_domain` | Elliptic2_Thm | D1 D2 FE |
| C103 | proved | `C103_rj_bounds` | Elliptic2_Thm | D1 D2 CL FE |
| C103 | proved | `C103_e_below_f` | Elliptic2_Thm | D1 D2 CL FE |
| C103 | proved | `C103_pi_versus_f` | Elliptic2_Thm | D1 D2 CL FE |
| C103 | proved | `C103_equal_arguments` | Elliptic2_Thm | D1 D2 CL FE |
| C103 | proved | `C103_rf_symmetric` | Elliptic2_Thm | D1 D2 FE |
| C103 | proved | `C103_rd_symmetric` | Elliptic2_Thm | D1 D2 CL FE |
| C103 | proved | `C103_pi_large_n_refuted` | Elliptic_Thm | D1 D2 CL FE |
| C104 | proved | `C104_approx_eq` | Check_Thm | D1 D2 CL FE |
| C104 | proved | `C104_accepts` | Check_Thm | D1 D2 CL FE |
| C104 | proved | `C104_rejects` | Check_Thm | D1 D2 CL FE |
| C104 | proved | `C104_zero_tol` | Check_Thm | D1 D2 CL FE |
| C104 | proved | `C104_symmetric` | Check_Thm | D1 D2 CL FE |
| C104 | proved | `C104_nan_tol_refuted` | Check_Thm | D1 D2 CL FE |
| C104 | proved | `C104_array_approx_eq` | Check_Thm | D1 D2 CL FE |
| C104 | proved | `C104_vec_approx_eq` | Check_Thm | D1 D2 CL FE |
| C104 | proved | `C104_complex_approx_eq` | Check_Thm | D1 D2 CL FE |
| C104 | proved | `C104_complex_array_approx_eq` | Check_Thm | D1 D2 CL FE |
| C104 | proved | `C104_complex_vec_approx_eq` | Check_Thm | D1 D2 CL FE |
| C104 | proved | `C104_assert_alike` | Check_Thm | closed |
| C104 | proved | `C104_mat_approx_eq` | Check_Thm | D1 D2 CL FE |
| C104 | proved | `C104_complex_mat_approx_eq` | Check_Thm | D1 D2 CL FE |
| C104 | proved | `C104_empty_nested_refuted` | Check_Thm | closed |
| C104 | proved | `C104_ragged_refuted` | Check_Thm | D1 D2 CL FE |
| C105 | proved | `C105_gamma_special` | Gamma_Thm | D1 D2 CL FE |
| C105 | proved | `C105_gamma_recurrence` | Gamma_Thm | D1 D2 CL FE |
| C105 | proved | `C105_gamma_factorial` | Gamma_Thm | D1 D2 CL FE |
| C105 | proved | `C105_gamma_stirling` | Gamma_Thm | D1 D2 CL FE |
| C105 | proved | `C105_gamma_reflection` | Gamma_Thm | D1 D2 CL FE |
| C105 | proved | `C105_beta_identity` | Gamma_Thm | D1 D2 CL FE |
| C105 | proved | `C105_beta_total` | Gamma_Thm | D1 D2 CL FE |
| C105 | proved | `C105_beta_symmetric` | Gamma_Thm | D1 D2 CL FE |
| C105 | proved | `C105_ln_beta_identity` | Gamma_Thm | D1 D2 CL FE |
| C105 | proved | `C105_beta_negative_integer` | Gamma_Thm | D1 D2 CL FE |
| C105 | proved | `C105_beta_pole` | Gamma_Thm | D1 D2 CL FE |
| C105 | proved | `C105_beta_i32_refuted` | Gamma_Thm | D1 D2 CL FE |
| C105 | proved | `C105_beta_symmetry_refuted` | Gamma_Thm | D1 D2 CL FE |
| C105 | proved | `C105_ln_beta_sign_refuted` | Gamma_Thm | D1 D2 CL FE |
| C105 | proved | `C105_ln_beta_small_refuted` | Gamma_Thm | D1 D2 CL FE |
| C106 | proved | `C106_special` | Erf_Thm | D1 D2 FE |
| C106 | proved | `C106_erf_odd` | Erf_Thm | D1 D2 FE |
| C106 | proved | `C106_erfc_reflect` | Erf_Thm | D1 D2 FE |
| C106 | proved | `C106_complement` | Erf_Thm | D1 D2 FE |
| C106 | proved | `C106_range` | Erf_Thm | D1 D2 CL FE |
| C106 | proved | `C106_cut` | Erf_Thm | D1 D2 FE |
| C106 | proved | `C106_erf_inv_domain` | Erf_Thm | D1 D2 CL FE |
| C106 | proved | `C106_inverse_symmetry` | Erf_Thm | D1 D2 CL FE |
| C106 | proved | `C106_erfc_inv_small_refuted` | Erf_Thm | D1 D2 CL FE |
| C107 | proved | `C107_special` | LnGamma_Thm | D1 D2 CL FE |
| C107 | proved | `C107_sin` | LnGamma_Thm | D1 D2 FE |
| C107 | proved | `C107_low_bit` | LnGamma_Thm | D1 D2 CL FE |
| C107 | proved | `C107_sign` | LnGamma_Thm | D1 D2 CL FE |
| C107 | proved | `C107_reflection` | LnGamma_Thm | D1 D2 CL FE |
| C107 | proved | `C107_recurrence` | LnGamma_Thm | D1 D2 CL FE |
| C107 | proved | `C107_denominators` | LnGamma_Thm | D1 FE |
| C107 | proved | `C107_log_sign` | LnGamma_Thm | D1 D2 CL FE |
| C108 | proved | `C108_new` | BsplineD_Thm | D1 FE |
| C108 | proved | `C108_basis` | BsplineD_Thm | D1 FE |
| C108 | proved | `C108_errors` | BsplineD_Thm | D1 FE |
| C108 | proved | `C108_curve` | BsplineD_Thm | D1 FE |
| C108 | proved | `C108_unique` | BsplineD_Thm | D1 FE |
| C108 | proved | `C108_methods_agree` | BsplineD_Thm | D1 FE |
| C108 | proved | `C108_redimension_refuted` | BsplineD_Thm | D1 FE |
| C109 | proved | `C109_chebyshev` | ErrEst_Thm | D1 FE |
| C109 | proved | `C109_chebyshev_errors` | ErrEst_Thm | D1 FE |
| C109 | proved | `C109_chebyshev_polynomial` | ErrEst_Thm | D1 D2 FE |
| C109 | proved | `C109_not_ready` | ErrEst_Thm | D1 FE |
| C109 | proved | `C109_lagrange` | ErrEst_Thm | D1 D2 CL FE |
| C109 | proved | `C109_lagrange_all` | ErrEst_Thm | D1 D2 CL FE |
| C109 | proved | `C109_lagrange_polynomial` | ErrEst_Thm | D1 D2 CL FE |
| C109 | proved | `C109_lagrange_errors` | ErrEst_Thm | D1 D2 CL FE |
| C109 | proved | `C109_lagrange_all_errors` | ErrEst_Thm | D1 D2 CL FE |
| C109 | proved | `C109_nan_refuted` | ErrEst_Thm | D1 FE |
| C109 | proved | `C109_no_station_refuted` | ErrEst_Thm | D1 FE |

## 7. What is modelled

One line per model file (the head comment of the file says more, in particular the simplifications):

* `Bcs_Model.v` – Model of russell_pde/src/essential_bcs_1d.rs, essential_bcs_2d.rs, natural_bcs_1d.rs, natural_bcs_2d.rs
* `Bessel_Model.v` – Model of the Bessel functions of integer order and of the powers of the imaginary unit of russell_lab
* `Blas_Model.v` – Model of the BLAS wrappers of russell_lab (matrix/, matvec/), for real and complex numbers at once
* `BsplineD_Model.v` – russell_lab/src/algo/bspline.rs: derivatives of the basis functions and of the curve (Algorithms A2.3, A3.2, A3.3 and A3.4)
* `Bspline_Model.v` – russell_lab/src/algo/bspline.rs: basis functions and points of B-splines
* `Bwe_Model.v` – Model of russell_ode/src/euler_backward.rs
* `ChebFn_Model.v` – russell_lab/src/math/{chebyshev,chebyshev_u}.rs: Chebyshev polynomials of the first and of the second kind, their derivatives and the Chebyshev-Gauss points
* `Cheb_Model.v` – Chebyshev polynomials and point sets: russell_lab/src/math/chebyshev.rs; f64 read as a real number
* `Check_Model.v` – The assertions russell_lab/src/check/{approx_eq,array_approx_eq,complex_approx_eq,complex_array_approx_eq,assert_alike}.rs, vector/{vec,complex_vec}_approx_eq.rs and matrix/{mat,complex_mat}_approx_eq.rs, over IEEE 754 binary64 numbers (Flocq's [binary_float 53 1024], with one NaN)
* `Decomp_Model.v` – Model of russell_lab: singular value decomposition, pseudo-inverse and eigenvalues of general matrices, over the reals
* `Dense_Model.v` – Model of russell_lab/src/matrix/num_matrix.rs (NumMatrix<T>)
* `Dist_Model.v` – Model of russell_stat/src/distribution_{uniform,gumbel,frechet,lognormal,normal}.rs: constructors, pdf, cdf, mean and variance
* `Elliptic_Model.v` – Model of the elliptic integrals of russell_lab (Carlson's duplication algorithms)
* `Eqs_Model.v` – Model of russell_pde/src/equation_handler.rs
* `Erf_Model.v` – The error functions: russell_lab/src/math/erf.rs and erf_inv.rs, with their coefficients
* `Erk_Model.v` – Model of russell_ode: the explicit Runge-Kutta stepper (explicit_runge_kutta.rs), its dense output (erk_dense_out.rs) and the forward Euler stepper (euler_forward.rs)
* `Erk_Tab_Model.v` – Runge-Kutta tableaux: russell_ode/src/constants.rs, enums.rs and the selection in explicit_runge_kutta.rs
* `ErrEst_Model.v` – Model of the error estimates of the interpolants: russell_lab/src/algo/interp_chebyshev.rs:529-540 and russell_lab/src/algo/interp_lagrange.rs:964-1050
* `Fdm_Model.v` – Model of russell_pde/src/fdm_1d.rs and fdm_2d.rs
* `Fit_Model.v` – russell_lab/src/algo: linear_fitting, solve_cubic
* `Float_Model.v` – russell_lab/src/math: composition.rs, modulo.rs, on the bit patterns of IEEE 754 binary64 numbers
* `Gamma_Model.v` – The gamma and beta functions: russell_lab/src/math/gamma.rs and beta.rs
* `Grid_Model.v` – Model of russell_pde/src/grid_1d.rs and grid_2d.rs
* `Hist_Model.v` – Model of russell_stat/src/histogram.rs (Display is not modelled)
* `InterpCheb_Model.v` – russell_lab/src/algo/interp_chebyshev.rs: Chebyshev interpolation
* `InterpLagrange_Model.v` – Model of russell_lab/src/algo/interp_lagrange.rs over the reals
* `Inverse_Model.v` – Model of russell_lab/src/matrix/mat_inverse.rs over exact real arithmetic
* `Jacobi_Model.v` – russell_lab/src/matrix/mat_eigen_sym_jacobi.rs: eigenpairs of a symmetric matrix by Jacobi rotations
* `LabMat_Model.v` – Model of matrix routines of russell_lab: BLAS band conversion and joint sorting of eigenvalues/eigenvectors
* `LabVec_Model.v` – Model of vector utilities of russell_lab
* `Lapack_Model.v` – Model of the LAPACK drivers of russell_lab that are not in Decomp_Model.v: linear systems, Cholesky factors, symmetric and hermitian eigenproblems, eigenvalues, complex and generalised eigenproblems, the complex singular value decomposition and the complex inverse
* `Legendre_Model.v` – Model of russell_lab/src/math/legendre.rs: Legendre polynomials, their derivatives and the quadrature rules on them
* `LinElast_Model.v` – Model of russell_tensor/src/lin_elasticity.rs and of Tensor4::calc_inverse (default build: feature "heap" off)
* `LinSol_Model.v` – Model of russell_sparse/src/{lin_sol_params,lin_solver,solver_umfpack,complex_solver_umfpack,solver_mumps, complex_solver_mumps}.rs and of the C layers c_code/interface_{umfpack,mumps}.c between them and the libraries
* `LnGamma_Model.v` – The logarithm of the gamma function: russell_lab/src/math/ln_gamma.rs, with its coefficients
* `MM_Model.v` – Model of russell_sparse/src/{write_matrix_market,read_matrix_market}.rs
* `MathFn_Model.v` – Model of russell_lab/src/math/functions.rs (elementary helpers)
* `Metrics_Model.v` – Model of russell_pde/src/metrics.rs: base vectors, metric matrices and Christoffel symbols, over the reals
* `Newton_Model.v` – russell_lab/src/algo/newton_solver.rs: NewtonSolver
* `NonlinSample_Model.v` – Model of russell_nonlin: System::new and System::check_ggu of system.rs and the sample problems of samples.rs; and of russell_lab matrix/mat_approx_eq.rs
* `Nonlin_Model.v` – russell_nonlin: numerical continuation
* `Nonlin_Nan_Model.v` – russell_nonlin/src/iteration_error.rs `analyze_residual`, on the bit patterns of IEEE 754 binary64 numbers (Float_Model), for the numbers that are not finite
* `Norms_Model.v` – Model of the norms, scaled measures and elementwise operations on vectors and matrices of russell_lab
* `NumDeriv_Model.v` – Model of russell_lab: the numerical derivatives of check/deriv{1,2}_*.rs and the dense numerical Jacobian of algo/num_jacobian.rs
* `NumJac_Model.v` – Model of russell_sparse/src/numerical_jacobian.rs (one-sided differences into a COO matrix)
* `OdeSample_Model.v` – Model of russell_ode: the configuration part of system.rs and the sample problems of samples.rs
* `Ode_Base_Model.v` – russell_ode: parameters, statistics, workspace and stiffness detection (params.rs, stats.rs, workspace.rs, detect_stiffness.rs)
* `Ode_Drv_Model.v` – russell_ode: the driver OdeSolver::solve (ode_solver.rs) and the output recorder (output.rs)
* `PdeSample_Model.v` – Model of russell_pde/src/problem_samples.rs: boundary-value problems with known solutions
* `Quad_Model.v` – russell_lab/src/algo/quadrature.rs: adaptive Gaussian quadrature
* `Radau_Model.v` – Model of russell_ode/src/radau5.rs
* `Search_Model.v` – russell_lab/src/algo: RootFinder::brent, MinBracketing::basic, MinSolver::brent, LineSearcher::search
* `SmallMat_Model.v` – Model of russell_lab/src/small: small_mat_inv.rs, num_recipes_gaussj.rs and small_solve_lin_sys.rs, with the element type read as the real numbers
* `Sort_Model.v` – Model of russell_lab/src/base/sort.rs
* `Sparse_Model.v` – Model of russell_sparse/src/{enums,coo_matrix,csc_matrix,csr_matrix}.rs
* `SpcMap_Model.v` – Model of russell_pde/src/spc_map_2d.rs: spectral collocation on a mapped domain, over the reals
* `Spc_Model.v` – Model of russell_pde/src/spc_1d.rs and spc_2d.rs: spectral collocation on Chebyshev-Gauss-Lobatto grids, over the reals
* `Spectral_Model.v` – Model of russell_tensor/src/spectral2.rs (real arithmetic)
* `Stat_Model.v` – Model of russell_stat/src/{statistics,quantile,quartiles,inter_quartile_range,outliers}.rs
* `Table_Model.v` – Model of russell_lab/src/base/read_table.rs and of NumMatrix::from_text_file (russell_lab/src/matrix/num_matrix.rs:545-610)
* `Tensor3_Model.v` – Model of russell_tensor: tensor3.rs and operations_t3.rs (default build: feature "heap" off), with the index tables of constants.rs they use
* `Tensor4_Model.v` – Model of russell_tensor: tensor4.rs, operations_mix1.rs, operations_mix2.rs and operations_t4.rs (default build: feature "heap" off), and of the small-matrix helpers of russell_lab they call (small_mat_add, _update, _mat_mul; the inverse is in SmallMat_Model.v)
* `TensorDeriv_Model.v` – Model of russell_tensor/src/derivatives_t2.rs and derivatives_t4.rs (default build: feature "heap" off)
* `Tensor_Model.v` – Model of russell_tensor: constants.rs, enums.rs, tensor1.rs, tensor2.rs and operations_t2.rs (default build: feature "heap" off)
* `Text_Model.v` – Vectors, matrices and numbers as text: russell_lab/src/base/formatters.rs (format_scientific, format_fortran, write_formatted_number), matrix/mat_to_{numpy,mathematica,static_array}.rs, vector/vec_to_static_array.rs, vector/vec_fmt_scientific.rs, matrix/mat_write_vismatrix.rs and the Display implementations of NumVector and NumMatrix
* `TfSample_Model.v` – Model of russell_pde/src/transfinite_samples.rs: the boundary curves and surfaces of the sample maps and their derivatives, given to the constructors of Transfinite_Model.v
* `Transfinite_Model.v` – Transfinite mappings: russell_pde/src/transfinite_2d.rs and transfinite_3d.rs
* `Util_Model.v` – russell_lab/src/base: find_min_max, find_valleys_and_peaks, generate2d, generate3d, format_nanoseconds
* `VecCheck_Model.v` – Model of russell_lab: the checks of the derivatives of vector functions (vector/vec_deriv1_approx_eq.rs, vector/vec_deriv2_approx_eq.rs) and the operations on small vectors (small/small_vec_add.rs, small/small_vec_update.rs)
* `Verify_Model.v` – Model of russell_sparse/src/verify_lin_sys.rs and russell_sparse/src/complex_coo_matrix.rs

## 8. What is not modelled

Source files that no definition follows (besides `lib.rs`, `mod.rs`, tests, examples and benches):

* `russell_lab/src/base`: macros, stopwatch
* `russell_lab/src/check`: deriv1_approx_eq_bw, deriv1_approx_eq_fw, deriv2_approx_eq_bw, deriv2_approx_eq_fw
* `russell_lab/src/matrix`: aliases
* `russell_lab/src/small`: small_matrix, small_vector
* `russell_lab/src/vector`: aliases, complex_vec_add, complex_vec_minus, complex_vec_plus
* `russell_nonlin/src`: logger
* `russell_ode/src/bin`: amplifier1t, brusselator_pde
* `russell_sparse/src`: aliases, complex_lin_solver, complex_solver_cudss, complex_solver_mumps, complex_solver_umfpack, solver_cudss, stats_lin_sol, stats_lin_sol_mumps
* `russell_sparse/src/bin`: mem_check, solve_matrix_market
* `russell_stat/src`: probability_distribution
* `russell_tensor/src`: samples_tensor2, samples_tensor3, samples_tensor4

Inside the modelled files the functions without a definition are: file and display code (`Display`, `write_*` other than the
MatrixMarket writer, loggers, `summary`), `stats` counters and stop watches unless a property mentions them, and the calls
into BLAS, LAPACK, UMFPACK and MUMPS, which are oracles with the stated contract.
