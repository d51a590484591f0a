{"id": "C01", "title": "Solve is exact", "statement": "After SLIP_LU_analyze and SLIP_LU_factorize return SLIP_OK on a valid n-by-n integer CSC matrix A, SLIP_LU_solve(L,U,A,rhos,S,pinv,b) returns SLIP_OK and a dense rational X with A*X = b exactly in rational arithmetic, for every right-hand side.", "quantifier": "all n>=1, all valid sparse integer matrices A of full rank, all column orderings, all six pivoting schemes, all dense integer b with any number of columns", "why_tests_cant": "exactness must hold for every integer matrix and fill pattern; tests sample a few matrices", "anchors": ["SLIP_LU/Source/SLIP_LU_solve.c:SLIP_LU_solve", "SLIP_LU/Source/SLIP_LU_factorize.c:SLIP_LU_factorize", "SLIP_LU/Source/slip_forward_sub.c:slip_forward_sub", "SLIP_LU/Source/slip_back_sub.c:slip_back_sub"]}
{"id": "C02", "title": "Singular detection is exact", "statement": "SLIP_LU_factorize on a valid square integer matrix returns SLIP_SINGULAR if and only if det(A)=0 and SLIP_OK if and only if det(A)<>0; no other outcome is possible when memory suffices.", "quantifier": "all valid square integer matrices, column orderings and pivoting schemes", "why_tests_cant": "equivalence over all matrices including ones where zeros appear only by exact cancellation", "anchors": ["SLIP_LU/Source/SLIP_LU_factorize.c:SLIP_LU_factorize", "SLIP_LU/Source/slip_get_pivot.c:slip_get_pivot", "SLIP_LU/Source/slip_get_smallest_pivot.c:slip_get_smallest_pivot"]}
{"id": "C03", "title": "Every exact division is exact", "statement": "No division performed by SLIP_LU_factorize (triangular solve), or by the forward and backward substitution of SLIP_LU_solve, ever has a zero divisor or a non-zero remainder, so mpz_divexact is always used inside its contract.", "quantifier": "all valid inputs, every step of the factorization and of both substitutions", "why_tests_cant": "mpz_divexact silently returns garbage on inexact division; exactness depends on a determinant identity for all matrices", "anchors": ["SLIP_LU/Source/slip_ref_triangular_solve.c:slip_ref_triangular_solve", "SLIP_LU/Source/slip_forward_sub.c:slip_forward_sub", "SLIP_LU/Source/slip_back_sub.c:slip_back_sub", "SLIP_LU/Source/SLIP_gmp.c:SLIP_mpz_divexact"]}
{"id": "C04", "title": "No out-of-bounds access in factorization and solve", "statement": "With S produced by SLIP_LU_analyze and A valid, no array access in factorize, reach, depth-first search, pivot search, substitution or permutation is outside its array, and every loop terminates.", "quantifier": "all valid inputs and every step", "why_tests_cant": "memory errors depend on the fill pattern of every possible matrix", "anchors": ["SLIP_LU/Source/SLIP_LU_factorize.c:SLIP_LU_factorize", "SLIP_LU/Source/slip_ref_triangular_solve.c:slip_ref_triangular_solve", "SLIP_LU/Source/slip_dfs.c:slip_dfs", "SLIP_LU/Source/slip_reach.c:slip_reach"]}
{"id": "C05", "title": "Factorization identity", "statement": "On SLIP_OK the factors satisfy P*A*Q = L*D^-1*U, with P the row permutation given by pinv, Q the column permutation S->q, D(k,k)=rhos[k-1]*rhos[k].", "quantifier": "all valid non-singular matrices, orderings, pivoting schemes", "why_tests_cant": "identity over all matrices", "anchors": ["SLIP_LU/Source/SLIP_LU_factorize.c:SLIP_LU_factorize"]}
{"id": "C06", "title": "Shape of the factors", "statement": "On SLIP_OK, L and U are structurally valid CSC matrices (monotone pointers, in-range row indices, no duplicates), L is lower triangular, U is upper triangular, both have diagonal equal to rhos, all rhos are non-zero, and the diagonal entry of U is stored last in each column (which SLIP_LU_solve relies on).", "quantifier": "all valid non-singular matrices", "why_tests_cant": "structural invariant over all fill patterns", "anchors": ["SLIP_LU/Source/SLIP_LU_factorize.c:SLIP_LU_factorize", "SLIP_LU/Source/slip_back_sub.c:slip_back_sub"]}
{"id": "C07", "title": "pinv is a permutation", "statement": "On SLIP_OK the returned pinv is a permutation of 0..n-1 and the internal row order used for storing L and U is its inverse.", "quantifier": "all valid matrices and pivot choices", "why_tests_cant": "invariant over all pivot sequences", "anchors": ["SLIP_LU/Source/SLIP_LU_factorize.c:SLIP_LU_factorize", "SLIP_LU/Source/slip_get_pivot.c:slip_get_pivot"]}
{"id": "C08", "title": "Last pivot is the determinant", "statement": "On SLIP_OK, rhos[k] is the leading (k+1)-by-(k+1) minor of P*A*Q; in particular rhos[n-1] = det(P*A*Q) = +-det(A).", "quantifier": "all valid non-singular matrices", "why_tests_cant": "determinant identity over all matrices", "anchors": ["SLIP_LU/Source/SLIP_LU_factorize.c:SLIP_LU_factorize"]}
{"id": "C09", "title": "Entries of L and U are minors of A (no coefficient explosion)", "statement": "Every value stored in L and U is the determinant of a square submatrix of A, so its size is bounded by a function of the entries of A alone.", "quantifier": "all valid non-singular matrices, every stored entry", "why_tests_cant": "a bound on every intermediate integer for all inputs", "anchors": ["SLIP_LU/Source/SLIP_LU_factorize.c:SLIP_LU_factorize", "SLIP_LU/Source/slip_ref_triangular_solve.c:slip_ref_triangular_solve"]}
{"id": "C10", "title": "Pivot rule: smallest", "statement": "With SLIP_SMALLEST the selected pivot of step k is a row not selected before whose value in the current column is non-zero and of least magnitude among such rows.", "quantifier": "all states of the pivot search", "why_tests_cant": "must hold for every column and candidate set", "anchors": ["SLIP_LU/Source/slip_get_smallest_pivot.c:slip_get_smallest_pivot", "SLIP_LU/Source/slip_get_pivot.c:slip_get_pivot"]}
{"id": "C11", "title": "Pivot rule: largest", "statement": "With SLIP_LARGEST the selected pivot is an eligible row of greatest magnitude.", "quantifier": "all states of the pivot search", "why_tests_cant": "must hold for every column and candidate set", "anchors": ["SLIP_LU/Source/slip_get_largest_pivot.c:slip_get_largest_pivot", "SLIP_LU/Source/slip_get_pivot.c:slip_get_pivot"]}
{"id": "C12", "title": "Pivot rule: diagonal and first non-zero", "statement": "With SLIP_DIAGONAL the diagonal row is selected whenever eligible and otherwise a smallest eligible one; with SLIP_FIRST_NONZERO the first eligible row in pattern order is selected.", "quantifier": "all states of the pivot search", "why_tests_cant": "must hold for every column and candidate set", "anchors": ["SLIP_LU/Source/slip_get_nonzero_pivot.c:slip_get_nonzero_pivot", "SLIP_LU/Source/slip_get_pivot.c:slip_get_pivot"]}
{"id": "C13", "title": "Pivot rule: tolerance with smallest", "statement": "With SLIP_TOL_SMALLEST (the default) the diagonal entry is selected exactly when it is eligible and |smallest|/|diagonal| >= tol; otherwise a smallest eligible entry is selected.", "quantifier": "all states of the pivot search, all tolerances", "why_tests_cant": "must hold for every column and tolerance", "anchors": ["SLIP_LU/Source/slip_get_pivot.c:slip_get_pivot"]}
{"id": "C14", "title": "Pivot rule: tolerance with largest", "statement": "With SLIP_TOL_LARGEST the selected pivot is a largest eligible entry or the eligible diagonal entry; whenever the largest eligible entry is positive, the diagonal is selected exactly when it is eligible and |diagonal|/|largest| >= tol. When the largest entry is negative the comparison is made on a rational with a negative denominator (outside GMP's contract), and the documented rule can be violated.", "quantifier": "all states of the pivot search, all tolerances", "why_tests_cant": "sign-dependent behaviour of the rational comparison (the absolute value is taken of the numerator only)", "anchors": ["SLIP_LU/Source/slip_get_pivot.c:slip_get_pivot"]}
{"id": "C15", "title": "Pivot search reports failure exactly when no candidate exists", "statement": "The pivot search returns SLIP_SINGULAR if and only if the current column has no non-zero entry in a row that has not been selected yet, for every pivoting scheme.", "quantifier": "all states of the pivot search", "why_tests_cant": "must hold for every column and candidate set", "anchors": ["SLIP_LU/Source/slip_get_pivot.c:slip_get_pivot"]}
{"id": "C16", "title": "Symbolic reach is exact", "statement": "The non-zero pattern computed for column k is exactly the set of rows reachable from the rows of A(:,q[k]) through the columns of L computed so far, without duplicates, and listed in increasing pivot order.", "quantifier": "all partially built L, all columns", "why_tests_cant": "graph reachability over all graphs, including shared stack/output space", "anchors": ["SLIP_LU/Source/slip_reach.c:slip_reach", "SLIP_LU/Source/slip_dfs.c:slip_dfs", "SLIP_LU/Source/slip_ref_triangular_solve.c:slip_ref_triangular_solve"]}
{"id": "C17", "title": "Reach restores L", "statement": "The markers that the graph search places in the column pointers of L are all removed again: L is unchanged after the reach.", "quantifier": "all partially built L, all columns", "why_tests_cant": "must hold after every search", "anchors": ["SLIP_LU/Source/slip_reach.c:slip_reach", "SLIP_LU/Source/slip_dfs.c:slip_dfs"]}
{"id": "C18", "title": "Pattern covers all numerical non-zeros", "statement": "Every row whose mathematically exact value in column k of L or U is non-zero is contained in the pattern, so stale values in the workspace are never read as results.", "quantifier": "all matrices, all columns", "why_tests_cant": "stale workspace values differ per history", "anchors": ["SLIP_LU/Source/slip_ref_triangular_solve.c:slip_ref_triangular_solve"]}
{"id": "C19", "title": "Result independent of ordering and pivoting", "statement": "Two successful runs on the same A and b, with any two column orderings, pivoting schemes and tolerances, return identical solutions.", "quantifier": "all pairs of option settings, all non-singular A", "why_tests_cant": "quantifies over pairs of executions", "anchors": ["SLIP_LU/Source/SLIP_LU_solve.c:SLIP_LU_solve", "SLIP_LU/Source/SLIP_backslash.c:SLIP_backslash"]}
{"id": "C20", "title": "Right-hand sides are independent", "statement": "Column c of the solution depends only on column c of b: solving many right-hand sides at once equals solving each alone.", "quantifier": "all b, all columns", "why_tests_cant": "relational property", "anchors": ["SLIP_LU/Source/SLIP_LU_solve.c:SLIP_LU_solve"]}
{"id": "C21", "title": "Factorization can be reused", "statement": "SLIP_LU_solve leaves every object it is given unchanged - b, A, L, U, rhos, pinv and the analysis S - on every path, also when it fails and when arguments are aliased; it creates no object except the returned solution and leaves no temporary behind. So one factorization serves any number of solves in any order, with any right-hand sides and options: each solve returns the exact solution for its right-hand side, and later solves do not disturb earlier results.", "quantifier": "all sequences of solves", "why_tests_cant": "history property", "anchors": ["SLIP_LU/Source/SLIP_LU_solve.c:SLIP_LU_solve"]}
{"id": "C22", "title": "Solution check is sound and complete", "statement": "The internal check run with option->check returns SLIP_OK iff A*x=b exactly, and SLIP_INCORRECT otherwise; it never fires on a solution computed by SLIP_LU_solve.", "quantifier": "all A, x, b", "why_tests_cant": "must accept all right answers and reject all wrong ones", "anchors": ["SLIP_LU/Source/slip_check_solution.c:slip_check_solution", "SLIP_LU/Source/SLIP_LU_solve.c:SLIP_LU_solve"]}
{"id": "C23", "title": "Scale factors are honoured", "statement": "If A represents A/scaleA and b represents b/scaleB then SLIP_LU_solve returns x with (A/scaleA) x = b/scaleB.", "quantifier": "all non-zero scale factors", "why_tests_cant": "must hold for all scalings", "anchors": ["SLIP_LU/Source/SLIP_LU_solve.c:SLIP_LU_solve"]}
{"id": "C24", "title": "Capacity of L and U suffices", "statement": "With the estimates returned by SLIP_LU_analyze, doubling the arrays at most once per column is always enough: no column of L or U is written past the allocated size.", "quantifier": "all matrices and fill patterns", "why_tests_cant": "amortised growth invariant over all histories", "anchors": ["SLIP_LU/Source/SLIP_LU_factorize.c:SLIP_LU_factorize", "SLIP_LU/Source/slip_sparse_realloc.c:slip_sparse_realloc", "SLIP_LU/Source/SLIP_LU_analyze.c:SLIP_LU_analyze"]}
{"id": "C25", "title": "Analyze yields a usable S", "statement": "SLIP_LU_analyze on a valid square matrix with n>=1 returns S with q a permutation of the columns (identity for SLIP_NO_ORDERING) and n <= lnz,unz <= n*n, for each of the three orderings; it rejects non-square and NULL input with SLIP_INCORRECT_INPUT. A failure of the ordering is not noticed: SLIP_OK is returned with uninitialized q (AMD), or with the column pointers as q (COLAMD), when a row index is out of range.", "quantifier": "all matrices, all orderings, all results an ordering library may return", "why_tests_cant": "return codes of the ordering library on rare failure", "anchors": ["SLIP_LU/Source/SLIP_LU_analyze.c:SLIP_LU_analyze"]}
{"id": "C26", "title": "Backslash end to end", "statement": "SLIP_backslash returns SLIP_OK with X the exact solution for SLIP_MPQ output, returns SLIP_SINGULAR iff det(A)=0, rejects output types other than MPQ/FP64/MPFR with SLIP_INCORRECT_INPUT.", "quantifier": "all valid square inputs and options", "why_tests_cant": "composition of all phases over all inputs", "anchors": ["SLIP_LU/Source/SLIP_backslash.c:SLIP_backslash"]}
{"id": "C27", "title": "Shapes accepted by factorize", "statement": "SLIP_LU_factorize on a valid m-by-n integer CSC matrix with m<=n never accesses memory out of bounds and returns SLIP_OK or SLIP_SINGULAR (always SLIP_SINGULAR if m<n). There is no check for m>n: tall matrices can be read and written out of bounds.", "quantifier": "all valid CSC matrices and all S", "why_tests_cant": "needs adversarial shapes", "anchors": ["SLIP_LU/Source/SLIP_LU_factorize.c:SLIP_LU_factorize"]}
{"id": "C28", "title": "Solve handles every dimension n>=1", "statement": "SLIP_LU_solve on factors computed by SLIP_LU_factorize performs no out-of-bounds access for any n>=1; for n=0 it always reads rhos[-1].", "quantifier": "all n>=0", "why_tests_cant": "corner case n=0", "anchors": ["SLIP_LU/Source/SLIP_LU_solve.c:SLIP_LU_solve"]}
{"id": "C29", "title": "Estimates that factorize tolerates", "statement": "SLIP_LU_factorize never writes out of bounds whatever estimate unz and whatever estimate lnz with 2*max(lnz,1) >= n the (user writable) SLIP_LU_analysis carries. The bound is sharp: with a smaller lnz it overruns L whenever the first column is full.", "quantifier": "all S", "why_tests_cant": "needs adversarial estimates", "anchors": ["SLIP_LU/Source/SLIP_LU_factorize.c:SLIP_LU_factorize", "SLIP_LU/Source/slip_sparse_realloc.c:slip_sparse_realloc"]}
{"id": "C30", "title": "Matrix check accepts exactly valid CSC matrices", "statement": "SLIP_matrix_check on a CSC matrix returns SLIP_OK iff pointers start at 0, are monotone, end at nnz, all row indices are in range and no column has a duplicate.", "quantifier": "all CSC matrices whose arrays have the allocated sizes", "why_tests_cant": "soundness and completeness over all arrays", "anchors": ["SLIP_LU/Source/SLIP_matrix_check.c:SLIP_matrix_check"]}
{"id": "C31", "title": "Matrix check accepts exactly valid triplet matrices", "statement": "SLIP_matrix_check on a triplet matrix returns SLIP_OK iff all indices are in range and no (i,j) occurs twice.", "quantifier": "all triplet matrices", "why_tests_cant": "soundness and completeness over all arrays", "anchors": ["SLIP_LU/Source/SLIP_matrix_check.c:SLIP_matrix_check"]}
{"id": "C32", "title": "Matrix check is memory safe on well-allocated matrices", "statement": "SLIP_matrix_check on a matrix with arbitrary contents, whose arrays are as long as its header promises (n+1 pointers, nzmax indices and nnz<=nzmax), never reads out of bounds and returns SLIP_OK or SLIP_INCORRECT_INPUT. nnz is not compared with nzmax: a header with nz>nzmax makes it read past the arrays.", "quantifier": "all matrix headers and contents", "why_tests_cant": "validity checker must cope with hostile contents", "anchors": ["SLIP_LU/Source/SLIP_matrix_check.c:SLIP_matrix_check"]}
{"id": "C33", "title": "Copy preserves the matrix: triplet to CSC", "statement": "SLIP_matrix_copy from triplet to CSC yields a CSC matrix holding exactly the same (row, column, value) entries, same-column order preserved.", "quantifier": "all triplet matrices", "why_tests_cant": "permutation property over all entry orders", "anchors": ["SLIP_LU/Source/SLIP_matrix_copy.c:SLIP_matrix_copy", "SLIP_LU/Source/slip_cumsum.c:slip_cumsum"]}
{"id": "C34", "title": "Copy preserves the matrix: dense to CSC", "statement": "SLIP_matrix_copy from dense to CSC stores exactly the non-zero entries at their positions.", "quantifier": "all dense matrices", "why_tests_cant": "over all zero patterns", "anchors": ["SLIP_LU/Source/SLIP_matrix_copy.c:SLIP_matrix_copy"]}
{"id": "C35", "title": "Copy preserves the matrix: CSC or triplet to dense", "statement": "SLIP_matrix_copy from CSC or triplet to dense yields the dense matrix with the same entries and zeros elsewhere, for all types but MPFR; for MPFR the other entries are NaN instead of zero.", "quantifier": "all valid CSC / triplet matrices", "why_tests_cant": "over all patterns", "anchors": ["SLIP_LU/Source/SLIP_matrix_copy.c:SLIP_matrix_copy"]}
{"id": "C36", "title": "Copy preserves the matrix: CSC to triplet", "statement": "SLIP_matrix_copy from CSC to triplet lists exactly the entries of the CSC matrix.", "quantifier": "all valid CSC matrices", "why_tests_cant": "over all patterns", "anchors": ["SLIP_LU/Source/SLIP_matrix_copy.c:SLIP_matrix_copy"]}
{"id": "C37", "title": "Copy preserves the matrix: dense to triplet", "statement": "SLIP_matrix_copy from dense to triplet lists exactly the non-zero entries of the matrix, but sets nz = m*n; the result is a valid triplet matrix iff the matrix has no zero. Otherwise nz exceeds the allocated size nzmax and SLIP_matrix_check on the result reads out of bounds.", "quantifier": "all dense matrices", "why_tests_cant": "fails only when zeros are present", "anchors": ["SLIP_LU/Source/SLIP_matrix_copy.c:SLIP_matrix_copy"]}
{"id": "C38", "title": "Kind conversion and the scale", "statement": "SLIP_matrix_copy keeps the scale factor of the converted values when the type changes, when the kind is unchanged, and from CSC to triplet. Every other change of kind that keeps the type sets the scale to 1, so an MPZ matrix with scale<>1 changes its value.", "quantifier": "all MPZ matrices, all scale factors", "why_tests_cant": "only visible with scale <> 1", "anchors": ["SLIP_LU/Source/slip_cast_matrix.c:slip_cast_matrix", "SLIP_LU/Source/SLIP_matrix_copy.c:SLIP_matrix_copy"]}
{"id": "C39", "title": "Rational to integer conversion is exact", "statement": "Converting a non-empty MPQ matrix to MPZ yields integers z and a scale s>=1 with z[i] = s*x[i] for all i, and s divides every other such scale (lcm of denominators). For a matrix without entries the scale becomes 0.", "quantifier": "all rational arrays", "why_tests_cant": "for all denominators", "anchors": ["SLIP_LU/Source/slip_expand_mpq_array.c:slip_expand_mpq_array"]}
{"id": "C40", "title": "Integer to rational conversion inverts it", "statement": "Converting MPZ with scale s to MPQ gives z[i]/s; MPQ -> MPZ -> MPQ is the identity on values.", "quantifier": "all arrays", "why_tests_cant": "round trip over all values", "anchors": ["SLIP_LU/Source/slip_cast_array.c:slip_cast_array"]}
{"id": "C41", "title": "Int64, double and MPFR to rational conversion", "statement": "Converting INT64 to MPZ, and finite FP64 or MPFR numbers to MPQ, yields the same numbers (an MPFR NaN or infinity becomes 0). Converting INT64 to MPQ yields x[k] divided by the address of the result, so every non-zero entry changes.", "quantifier": "all int64 arrays", "why_tests_cant": "value corruption depends on an address passed as denominator", "anchors": ["SLIP_LU/Source/slip_cast_array.c:slip_cast_array", "SLIP_LU/Source/SLIP_gmp.c:SLIP_mpq_set_si"]}
{"id": "C42", "title": "Double to integer conversion", "statement": "Converting an FP64 matrix to MPZ (precision >= 93) yields integers and a scale s with z[i]/s = x[i] whenever all entries are multiples of 10^-17 and not all are zero; z has no common factor. Other entries are rounded to a multiple of 10^-17, NaN and Inf become 0, and a zero matrix gets the scale 0, with which SLIP_LU_solve divides by zero.", "quantifier": "all arrays of finite doubles", "why_tests_cant": "tiny, huge and all-zero arrays", "anchors": ["SLIP_LU/Source/slip_expand_double_array.c:slip_expand_double_array"]}
{"id": "C43", "title": "MPFR to integer conversion", "statement": "Converting an MPFR matrix to MPZ yields integers and a scale s with z[i]/s = x[i] whenever all entries are multiples of 2^-prec and not all are zero; z has no common factor. Other entries are rounded to a multiple of 2^-prec, and a zero matrix gets the scale 0.", "quantifier": "all arrays of finite MPFR numbers, all precisions", "why_tests_cant": "tiny and all-zero arrays", "anchors": ["SLIP_LU/Source/slip_expand_mpfr_array.c:slip_expand_mpfr_array"]}
{"id": "C44", "title": "Double to int64 conversion", "statement": "Converting FP64 to INT64 gives 0 for NaN, saturates out-of-range values and truncates otherwise, for every double but 2^63; for 2^63 the conversion is undefined behaviour.", "quantifier": "all doubles", "why_tests_cant": "2^64 values incl. boundary 2^63", "anchors": ["SLIP_LU/Source/slip_internal.h:slip_cast_double_to_int64"]}
{"id": "C45", "title": "Number of entries", "statement": "SLIP_matrix_nnz returns the number of stored entries of a well-formed matrix of each kind, and -1 for NULL, for a CSC matrix without pointers, for negative dimensions (CSC, dense), for an unknown kind, and before initialization; it trusts the length of the column pointers.", "quantifier": "all matrices", "why_tests_cant": "over all inputs", "anchors": ["SLIP_LU/Source/SLIP_matrix_nnz.c:SLIP_matrix_nnz"]}
{"id": "C46", "title": "Allocation establishes a valid matrix", "statement": "SLIP_matrix_allocate returns SLIP_OK with a matrix of the requested kind, type and dimensions whose arrays have the documented sizes and which owns exactly the blocks allocated by the call, or an error, *A NULL and nothing leaked; bad arguments give SLIP_INCORRECT_INPUT. SLIP_OK implies that no allocation failed. Exhaustion is reported as SLIP_OUT_OF_MEMORY if the header or the scale cannot be allocated, but as SLIP_INCORRECT_INPUT if one of the arrays cannot.", "quantifier": "all arguments, every allocation failure point", "why_tests_cant": "failure at every allocation point", "anchors": ["SLIP_LU/Source/SLIP_matrix_allocate.c:SLIP_matrix_allocate", "SLIP_LU/Source/SLIP_matrix_free.c:SLIP_matrix_free"]}
{"id": "C47", "title": "Library state machine", "statement": "After any history of calls, the library is open exactly when the last accepted initialize came after the last accepted finalize; initialize when open and finalize when closed give SLIP_PANIC and change nothing. When it is closed, SLIP_malloc and SLIP_calloc return NULL, SLIP_realloc fails, SLIP_free does nothing, SLIP_matrix_nnz returns -1, and SLIP_matrix_check, SLIP_matrix_copy, SLIP_LU_analyze, SLIP_LU_factorize, SLIP_LU_solve and SLIP_backslash return SLIP_PANIC without touching their output. The memory functions given to SLIP_initialize_expert stay in use after finalize. The GMP wrappers do not check: after finalize, clearing a GMP object frees nothing, and a GMP call that needs memory returns SLIP_OUT_OF_MEMORY.", "quantifier": "all call sequences", "why_tests_cant": "history property", "anchors": ["SLIP_LU/Source/SLIP_initialize.c:SLIP_initialize", "SLIP_LU/Source/SLIP_finalize.c:SLIP_finalize", "SLIP_LU/Source/SLIP_initialize_expert.c:SLIP_initialize_expert"]}
{"id": "C48", "title": "GMP out-of-memory is recovered", "statement": "GMP is never handed a NULL block. At every point of a wrapped call its allocation function gives a new block of the size asked for, its reallocation function a new block that begins with the contents of the old one, which is freed, and its free function frees the block; no other block changes. If any allocation inside a wrapped GMP call fails, the wrapper returns SLIP_OUT_OF_MEMORY (and only then), no block allocated by the call survives, no block is freed twice, the registered object has no dangling pointer, blocks and objects that the call does not touch are unchanged, and the library is ready for further calls. Two gaps: an object that is not registered (SLIP_gmp_fscanf) can be left with a dangling pointer, and an old block that GMP had already detached from the object but not yet freed is leaked.", "quantifier": "all allocation/free/realloc traces of a GMP call and every failure point", "why_tests_cant": "every failure point of every trace", "anchors": ["SLIP_LU/Source/SLIP_gmp.c:slip_gmp_allocate", "SLIP_LU/Source/SLIP_gmp.c:slip_gmp_failure", "SLIP_LU/Source/SLIP_gmp.h"]}
{"id": "C49", "title": "GMP block list is accurate on success", "statement": "While a wrapped GMP call runs, the recorded list is exactly the set of live blocks allocated by that call, and it is emptied on return.", "quantifier": "all traces", "why_tests_cant": "history property", "anchors": ["SLIP_LU/Source/SLIP_gmp.c:slip_gmp_allocate", "SLIP_LU/Source/SLIP_gmp.c:slip_gmp_free", "SLIP_LU/Source/SLIP_gmp.c:slip_gmp_reallocate"]}
{"id": "C50", "title": "Realloc keeps data", "statement": "SLIP_realloc preserves the common prefix of the block on success, returns the old block unchanged with ok=false on failure, and fails only when growing (or for 2^53 items or more); SLIP_malloc and SLIP_calloc return a fresh block of the requested size (zeroed for calloc) or NULL; no other block is affected. A request whose size in bytes overflows is never served; one that fits is never refused for its size if both factors are below 2^53.", "quantifier": "all sizes and failure behaviours of the allocator", "why_tests_cant": "failure paths", "anchors": ["SuiteSparse_config/SuiteSparse_config.c:SuiteSparse_realloc", "SLIP_LU/Source/SLIP_realloc.c:SLIP_realloc"]}
{"id": "C51", "title": "Cumulative sum", "statement": "slip_cumsum (used in kind conversion) turns counts c into pointers p with p[i]=sum of c[0..i-1], leaves a copy of the starts in c and returns the total.", "quantifier": "all count vectors", "why_tests_cant": "induction over length", "anchors": ["SLIP_LU/Source/slip_cumsum.c:slip_cumsum"]}
{"id": "C52", "title": "Drivers are transactions", "statement": "SLIP_LU_analyze, SLIP_LU_factorize, SLIP_LU_solve and SLIP_backslash leave their input objects unchanged and never free a block twice or use a freed one. On an error return after the argument checks every output handle is NULL and every block allocated inside has been freed; on SLIP_OK exactly the blocks of the output objects remain. What the handles held before is overwritten, not freed.", "quantifier": "all error positions", "why_tests_cant": "every early return", "anchors": ["SLIP_LU/Source/SLIP_LU_factorize.c:SLIP_LU_factorize", "SLIP_LU/Source/SLIP_LU_solve.c:SLIP_LU_solve", "SLIP_LU/Source/SLIP_backslash.c:SLIP_backslash"]}
{"id": "C53", "title": "Memory exhaustion anywhere in the drivers", "statement": "If an allocation fails at any point of SLIP_matrix_allocate, SLIP_LU_analyze, SLIP_LU_factorize, SLIP_LU_solve or SLIP_backslash, the routine returns an error and the heap is exactly as before. Exceptions: with SLIP_AMD a failed allocation inside the ordering goes unnoticed and SLIP_OK is returned; a block that GMP had detached from its object before running out of memory is leaked; and the error code may be SLIP_INCORRECT_INPUT instead of SLIP_OUT_OF_MEMORY.", "quantifier": "every allocation failure point", "why_tests_cant": "every failure point", "anchors": ["SLIP_LU/Source/SLIP_LU_factorize.c:SLIP_LU_factorize", "SLIP_LU/Source/SLIP_LU_solve.c:SLIP_LU_solve", "SLIP_LU/Source/SLIP_LU_analyze.c:SLIP_LU_analyze", "SLIP_LU/Source/SLIP_backslash.c:SLIP_backslash"]}
{"id": "C54", "title": "Default options", "statement": "A NULL option behaves exactly like the documented defaults (COLAMD, tolerance 1, TOL_SMALLEST, no check, precision 128).", "quantifier": "all calls with NULL option", "why_tests_cant": "relational property", "anchors": ["SLIP_LU/Source/slip_internal.h:SLIP_OPTION", "SLIP_LU/Source/SLIP_create_default_options.c:SLIP_create_default_options"]}
{"id": "C55", "title": "Conversion to MPFR is correctly rounded", "statement": "SLIP_matrix_copy to MPFR of a matrix of any type stores for every entry (divided by the scale, for MPZ) a number with at most prec binary digits that is the correct rounding in the mode of the options, ties to even when rounding to nearest; NaN and infinities are kept.", "quantifier": "all matrices of all five types, all precisions >= 1, all five rounding modes", "why_tests_cant": "correct rounding over all rationals", "anchors": ["SLIP_LU/Source/SLIP_matrix_copy.c:SLIP_matrix_copy", "SLIP_LU/Source/slip_cast_array.c:slip_cast_array"]}
{"id": "C56", "title": "Conversion to double is correctly rounded", "statement": "SLIP_matrix_copy to FP64 stores for every entry the correctly rounded IEEE double, subnormal numbers and overflow included: truncation for an MPZ (divided by the scale) or MPQ matrix, with overflow to infinity; for MPFR the rounding in the mode of the options, where overflow gives an infinity or the largest double as the mode says (NaN and infinities are kept); for INT64 the nearest double.", "quantifier": "all matrices", "why_tests_cant": "correct rounding over all rationals", "anchors": ["SLIP_LU/Source/SLIP_matrix_copy.c:SLIP_matrix_copy", "SLIP_LU/Source/slip_cast_array.c:slip_cast_array"]}
{"id": "C57", "title": "Floating-point output of backslash is the rounded exact solution", "statement": "SLIP_backslash with FP64 or MPFR output returns, for every entry, the exact solution of the system correctly rounded: truncated to an IEEE double for FP64 (subnormal numbers included, infinity on overflow); to the precision and in the mode of the options for MPFR. So an entry of the MPFR result is within 2^(1-prec) of the exact one, relatively, in every rounding mode, and exact if it has at most prec digits; a double below 2^1024 is finite, never larger in magnitude than the exact entry, exact if that is a double, and within 2^-52 relatively (2^-1074 absolutely in the subnormal range).", "quantifier": "all non-singular systems, options", "why_tests_cant": "error bound over all systems, independent of conditioning", "anchors": ["SLIP_LU/Source/SLIP_backslash.c:SLIP_backslash", "SLIP_LU/Source/SLIP_matrix_copy.c:SLIP_matrix_copy"]}
{"id": "C58", "title": "Copy depends only on rounding mode and precision", "statement": "The result of SLIP_matrix_copy depends on no option other than round and prec; a NULL option means precision 128 and rounding to nearest.", "quantifier": "all pairs of options, all matrices", "why_tests_cant": "relational property", "anchors": ["SLIP_LU/Source/SLIP_matrix_copy.c:SLIP_matrix_copy"]}
{"id": "C59", "title": "Conversion to int64", "statement": "MPZ with scale 1 to INT64 is exact in range, and otherwise keeps only the low 63 bits (no saturation). MPQ, and MPZ divided by a scale other than 1, go through a truncated double: numbers below 2^53 give their integer part, larger integers may change, the result saturates - except that numbers in [2^63, 2^63+2^11) make the conversion undefined. MPFR is rounded in the mode of the options (ties to even when to nearest) and saturates.", "quantifier": "all matrices", "why_tests_cant": "overflow boundary", "anchors": ["SLIP_LU/Source/SLIP_matrix_copy.c:SLIP_matrix_copy", "SLIP_LU/Source/slip_cast_array.c:slip_cast_array"]}
{"id": "C60", "title": "Destruction", "statement": "SLIP_matrix_free and SLIP_LU_analysis_free free every block of the object exactly once and no other block, set the handle to NULL, and do nothing when called again; the components of a shallow matrix are not freed.", "quantifier": "all matrices, all heaps", "why_tests_cant": "every ownership pattern, double free", "anchors": ["SLIP_LU/Source/SLIP_matrix_free.c:SLIP_matrix_free", "SLIP_LU/Source/SLIP_LU_analysis_free.c:SLIP_LU_analysis_free"]}
{"id": "C61", "title": "Matrix copy under memory exhaustion", "statement": "SLIP_matrix_copy, for every pair of kinds and types, leaves A unchanged and either returns an error with *C NULL and the heap as before, or SLIP_OK with exactly the blocks of C added. SLIP_OK implies that no allocation failed if the kind is kept or changed from CSC to triplet and the values are not converted from MPFR or FP64 to MPZ; in the other cases the status of setting C->scale is ignored, and a failure there returns SLIP_OK.", "quantifier": "all matrices, kinds, types and failure points", "why_tests_cant": "every failure point", "anchors": ["SLIP_LU/Source/SLIP_matrix_copy.c:SLIP_matrix_copy", "SLIP_LU/Source/slip_cast_matrix.c:slip_cast_matrix", "SLIP_LU/Source/slip_cast_array.c:slip_cast_array"]}
{"id": "C62", "title": "No history of calls leaks or frees twice", "statement": "After any sequence of SLIP_matrix_allocate, SLIP_matrix_copy, SLIP_LU_analyze, SLIP_LU_factorize, SLIP_LU_solve, SLIP_backslash and of the destructors, whatever each of them returns, the heap consists of exactly the blocks of the objects the program holds (and blocks GMP gave up); after all are freed nothing is left.", "quantifier": "all programs, all failure points", "why_tests_cant": "history property", "anchors": ["SLIP_LU/Source/SLIP_LU_factorize.c:SLIP_LU_factorize", "SLIP_LU/Source/SLIP_LU_solve.c:SLIP_LU_solve", "SLIP_LU/Source/SLIP_backslash.c:SLIP_backslash", "SLIP_LU/Source/SLIP_matrix_free.c:SLIP_matrix_free"]}
{"id": "C63", "title": "Copies that keep the kind", "statement": "SLIP_matrix_copy to the same kind, from any type to any type, keeps the dimensions, the column pointers (CSC), the row and column indices of the entries and their number (triplet); if the type is kept too, the call succeeds and the numbers are the same (rounded to the precision of the options for MPFR) and an MPZ matrix keeps its scale.", "quantifier": "all matrices, all pairs of types", "why_tests_cant": "all patterns and types", "anchors": ["SLIP_LU/Source/SLIP_matrix_copy.c:SLIP_matrix_copy", "SLIP_LU/Source/slip_cast_array.c:slip_cast_array"]}
{"id": "C64", "title": "Rejected arguments", "statement": "Before SLIP_initialize, SLIP_LU_factorize, SLIP_LU_solve, SLIP_matrix_copy and SLIP_matrix_check return SLIP_PANIC. They return SLIP_INCORRECT_INPUT, without touching the output handles, if a required pointer is NULL or a matrix has the wrong kind or type (and for solve if the compared dimensions disagree); in all other cases factorize and solve assign their output handles (to the result, or NULL on an error). SLIP_matrix_copy of a matrix that is otherwise in order but has no array of values returns SLIP_INCORRECT_INPUT, unless it copies to another kind with the same type: then it reads through the NULL pointer (CSC to triplet excepted).", "quantifier": "all combinations of arguments", "why_tests_cant": "every combination of invalid arguments", "anchors": ["SLIP_LU/Source/SLIP_LU_factorize.c:SLIP_LU_factorize", "SLIP_LU/Source/SLIP_LU_solve.c:SLIP_LU_solve", "SLIP_LU/Source/SLIP_matrix_copy.c:SLIP_matrix_copy", "SLIP_LU/Source/SLIP_matrix_check.c:SLIP_matrix_check"]}
{"id": "C65", "title": "Cramer rule and the size of the solution", "statement": "Every entry of the solution satisfies x(i,r) * det(A) = det(A with column i replaced by column r of b) * scale(A)/scale(b). So for integer systems (scales 1) the denominator of every entry divides det(A), its numerator divides the Cramer determinant, a unimodular A gives an integer solution, and the square of the denominator is at most the product of the squared Euclidean norms of the rows of A (for the numerator: of the rows of A with column i replaced by column r of b).", "quantifier": "all non-singular systems, all entries", "why_tests_cant": "identity over all systems", "anchors": ["SLIP_LU/Source/SLIP_LU_solve.c:SLIP_LU_solve", "SLIP_LU/Source/SLIP_LU_factorize.c:SLIP_LU_factorize"]}
{"id": "C66", "title": "Hadamard bound on the factors", "statement": "The square of every integer stored in L, U and rhos is at most the product of the squared Euclidean norms of the rows of A, and at most that of the columns; with at most g entries per column, each at most s in magnitude, it is at most (g*s^2)^n (the word-length bound of the papers on SLIP LU).", "quantifier": "all non-singular matrices, orderings, pivoting schemes, every stored integer", "why_tests_cant": "bound on every stored integer over all matrices", "anchors": ["SLIP_LU/Source/SLIP_LU_factorize.c:SLIP_LU_factorize"]}
{"id": "C67", "title": "What the library returns passes its own check", "statement": "For n>=1, SLIP_matrix_check accepts the factors L, U, rhos of every successful factorization, every solution returned by SLIP_LU_solve, and every copy (any type, any kind except dense to triplet, see C37) of a matrix that it accepts.", "quantifier": "all inputs, kinds and types", "why_tests_cant": "all structures produced", "anchors": ["SLIP_LU/Source/SLIP_LU_factorize.c:SLIP_LU_factorize", "SLIP_LU/Source/SLIP_LU_solve.c:SLIP_LU_solve", "SLIP_LU/Source/SLIP_matrix_copy.c:SLIP_matrix_copy", "SLIP_LU/Source/SLIP_matrix_check.c:SLIP_matrix_check"]}
{"id": "C68", "title": "Storage growth of the factorization is bounded", "statement": "At every step of SLIP_LU_factorize the capacity of L (and of U) is at most the estimate of the analysis or twice the entries in use plus 2n, and at most max(estimate, 2n^2); for n < 2^30 and estimates below 2^61 no size computation overflows int64.", "quantifier": "all matrices (even invalid ones), all steps", "why_tests_cant": "bound at every step", "anchors": ["SLIP_LU/Source/SLIP_LU_factorize.c:SLIP_LU_factorize", "SLIP_LU/Source/slip_sparse_realloc.c:slip_sparse_realloc"]}
{"id": "C69", "title": "Programs over GMP numbers survive memory exhaustion", "statement": "In any program that computes with mpz, mpq and mpfr numbers through the SLIP_mpz_*, SLIP_mpq_* and SLIP_mpfr_* functions and SLIP_MP*_CLEAR, with memory running out at any allocation: every call returns SLIP_OK or SLIP_OUT_OF_MEMORY, never touches freed memory, and changes only the number it writes; after every call, failed or not, every number can be cleared or used again, and when all are cleared no block is left. For this every function calls the GMP or MPFR function of its name, (but SLIP_gmp_fscanf) registers exactly the number that function writes, with the macro for its type, and hands over its parameters in order (but SLIP_mpq_set_si, which passes the address of its result x in place of the denominator z).", "quantifier": "all programs, all histories of failures, all 65 wrapper functions", "why_tests_cant": "history property over every failure point", "anchors": ["SLIP_LU/Source/SLIP_gmp.c", "SLIP_LU/Source/SLIP_gmp.h", "SLIP_LU/Source/slip_internal.h:SLIP_MPZ_CLEAR"]}
{"id": "C70", "title": "The default column ordering is a permutation", "statement": "COLAMD, the ordering used by SLIP_LU_analyze and SLIP_backslash by default, on every pattern without duplicates (any shape, row indices in any order, empty rows and columns), any dense row and column thresholds, with or without aggressive absorption, and whatever its uninitialized workspace contains, terminates, stays inside its arrays - also in the smallest workspace it accepts - and returns a permutation of the columns. It reports failure, staying in bounds, when a row index is out of range, the column pointers decrease or do not start at 0, or the workspace is too small. Duplicates, which SLIP_LU_analyze does not check for, can make it leave its arrays.", "quantifier": "all patterns, thresholds and workspace contents", "why_tests_cant": "termination and memory safety of a graph algorithm with in-place garbage collection, over all patterns and uninitialized memory", "anchors": ["COLAMD/Source/colamd.c:COLAMD_MAIN", "SLIP_LU/Source/SLIP_LU_analyze.c:SLIP_LU_analyze"]}
{"id": "C71", "title": "Reading a matrix from a triplet file", "statement": "SLIP_tripread turns every well-formed triplet file (\"m n nz\", then nz lines \"i j value\", numbers separated by any white space, values of any size, at least two entries or text after the single one) into exactly the listed m-by-n integer matrix of scale 1: column c holds the entries listed for column c+1 in the order of the file, with 0-based rows; repeated positions are kept and add up; without repetitions the result is a valid matrix for all library functions. A file that ends after a single entry is always rejected; a last line that is cut off or a column index that is too large causes an out-of-bounds access; a negative number of entries returns SLIP_OK with a NULL matrix; a row index that is too large yields an invalid matrix.", "quantifier": "all files, all matrices, all layouts of white space and signs", "why_tests_cant": "every file layout", "anchors": ["SLIP_LU/Demo/demos.c:SLIP_tripread"]}
{"id": "C72", "title": "Reading a dense matrix from a file", "statement": "SLIP_read_dense turns every file \"m n\" followed by m*n integers (m,n>=1) into the m-by-n integer matrix of scale 1 whose entry (i,j) is number i*n+j of the list. If numbers are missing at the end it returns SLIP_INCORRECT_INPUT and does not touch the handle. Text that is not a number is not noticed: from there on every entry is 0 and SLIP_OK is returned.", "quantifier": "all files", "why_tests_cant": "every file layout and truncation point", "anchors": ["SLIP_LU/Demo/demos.c:SLIP_read_dense"]}
{"id": "C73", "title": "The reader for floating-point triplet files rejects every file", "statement": "SLIP_tripread_double returns SLIP_INCORRECT_INPUT for every file that begins with \"m n nz\" and the indices of a first entry, whatever follows (it takes the number of items read for the status).", "quantifier": "all files, all behaviours of %lf", "why_tests_cant": "all files", "anchors": ["SLIP_LU/Demo/demos.c:SLIP_tripread_double"]}
{"id": "C74", "title": "Command line of the demo program", "statement": "Every sequence of allowed settings (help, p/piv, q/col, t/tol, o/out, f/file with their values) is accepted and selects the last value given for each, else the default; a pivot number outside 0..5 selects 0, an order outside 0..2 selects COLAMD. Whatever the command line, accepted options satisfy pivot in 0..5, order in 0..2, tolerance not 0 and not negative. If no word has more than nine characters the result is SLIP_OK or SLIP_INCORRECT_INPUT. The documented settings \"o 0\" and \"c\", and the tolerance 0, are rejected; the tolerance NaN is accepted.", "quantifier": "all command lines", "why_tests_cant": "all sequences of words", "anchors": ["SLIP_LU/Demo/demos.c:SLIP_process_command_line"]}
{"id": "C75", "title": "The demo program solves the system in its files", "statement": "SLIPLU, run on a well-formed triplet file of an n-by-n integer matrix without repeated positions and a file of n-by-k right-hand sides, with any accepted command line, computes the exact rational solution of the system given by the files if the matrix is non-singular, and stops with SLIP_SINGULAR if it is singular. A file with a negative number of entries makes it use a NULL pointer.", "quantifier": "all files, command lines, systems", "why_tests_cant": "end-to-end over all files and options", "anchors": ["SLIP_LU/Demo/SLIPLU.c:main", "SLIP_LU/Demo/demos.c:SLIP_tripread", "SLIP_LU/Demo/demos.c:SLIP_read_dense"]}
{"id": "C76", "title": "Options of the MATLAB interface", "statement": "SLIP_mex_soln takes every options struct whose fields have documented values (or are absent) with exactly the documented meaning: the named ordering and pivoting scheme, a tolerance in (0,1] for the two schemes that use it (by default the double nearest to 0.1), the named form of the solution, 2..2^29 digits, a print level truncated and clamped to 0..3. Strings are read up to the first character 0, at most 255 characters. Conversely every accepted struct is of this form, and every error message names an option that is not - except that a tolerance NaN is accepted. A print level beyond the range of int, and a \"solution\" that is not a string when no earlier string option was read, are undefined behaviour.", "quantifier": "all options structs", "why_tests_cant": "all combinations of fields, strings and floating-point values", "anchors": ["SLIP_LU/MATLAB/Source/slip_get_matlab_options.c:slip_get_matlab_options", "SLIP_LU/MATLAB/SLIP_backslash.m"]}
{"id": "C77", "title": "Doubles read from MATLAB", "statement": "The numbers that the MATLAB interface hands to the library are the entries of A and b rounded to the nearest multiple of 10^-17; so integers (of any size) and all multiples of 10^-17 are kept exactly, whichever of the two reading paths (int64 or double) is taken. The first infinity or NaN stops the call with its message; so do a matrix that is not square and a right-hand side of another height. An entry 2^63, with only 64-bit integers before it, passes the check for such integers and the cast to int64 is then undefined.", "quantifier": "all sparse and full double matrices", "why_tests_cant": "all matrices and floating-point values, boundary of the integer range", "anchors": ["SLIP_LU/MATLAB/Source/slip_mex_get_A_and_b.c:slip_mex_get_A_and_b", "SLIP_LU/MATLAB/Source/slip_mex_check_for_inf.c:slip_mex_check_for_inf"]}
{"id": "C78", "title": "The MATLAB function returns the exact solution", "statement": "x = SLIP_mex_soln (A,b,option) on a real sparse n-by-n matrix and real full right-hand sides, whose entries are multiples of 10^-17, with any documented options, returns the exact solution: as fractions in lowest terms in decimal (\"char\", \"vpa\"), or every entry truncated to a double (\"double\"); it reports an error exactly if A is singular. Other entries are rounded first, so that a nonsingular A can be reported as singular, and a non-zero right-hand side of numbers below 5*10^-18 leads to a division by zero. Wrong numbers of arguments, complex inputs, a full A and a sparse b are refused with their messages. With two arguments the form of the answer depends on an uninitialized variable.", "quantifier": "all matrices, right-hand sides, options", "why_tests_cant": "end-to-end over all inputs", "anchors": ["SLIP_LU/MATLAB/SLIP_mex_soln.c:mexFunction", "SLIP_LU/MATLAB/Source/slip_mex_get_A_and_b.c:slip_mex_get_A_and_b", "SLIP_LU/MATLAB/Source/slip_get_matlab_options.c:slip_get_matlab_options"]}
{"id": "C79", "title": "The AMD ordering is a permutation", "statement": "AMD, the ordering used with SLIP_AMD, on every square pattern (row indices of a column in any order, with or without duplicates, empty rows and columns), any dense row threshold, with or without aggressive absorption, whatever its output array and workspace contain on entry, terminates, stays inside its arrays and returns a permutation and an estimate of the number of entries of L below the diagonal that lies between 0 and n(n-1)/2. The graph it orders is that of A+A' without the diagonal, whatever the order of the entries and however often they are repeated. It reports failure, staying in bounds, when a row index is out of range, the column pointers do not start at 0, or the number of entries is negative. Limits: column pointers that decrease later can make its validity check read row indices out of bounds, and for the empty matrix it computes nothing, so that SLIP_LU_analyze returns SLIP_OK with lnz = unz = -1.", "quantifier": "all square patterns and thresholds", "why_tests_cant": "termination and memory safety of a graph algorithm with in-place compression, over all patterns", "anchors": ["AMD/Source/amd_order.c:AMD_order", "AMD/Source/amd_2.c:AMD_2", "AMD/Source/amd_1.c:AMD_1", "AMD/Source/amd_aat.c:AMD_aat", "AMD/Source/amd_valid.c:AMD_valid", "AMD/Source/amd_preprocess.c:AMD_preprocess", "AMD/Source/amd_postorder.c:AMD_postorder", "AMD/Source/amd_post_tree.c:AMD_post_tree", "SLIP_LU/Source/SLIP_LU_analyze.c:SLIP_LU_analyze"]}
{"id": "C80", "title": "The AMD ordering does not depend on the arrangement of the entries", "statement": "With SLIP_AMD, two matrices with the same positions of entries give the same analysis S, however the entries are arranged within the columns and however often they are repeated, if the columns of both are strictly increasing or those of neither are; the contents of the workspace do not matter either. (Sorting all columns can change the ordering and the estimate lnz.)", "quantifier": "all pairs of storage arrangements", "why_tests_cant": "relational property over all arrangements", "anchors": ["AMD/Source/amd_order.c:AMD_order", "AMD/Source/amd_preprocess.c:AMD_preprocess", "SLIP_LU/Source/SLIP_LU_analyze.c:SLIP_LU_analyze"]}
{"id": "C81", "title": "Results do not depend on uninitialised memory", "statement": "SLIP_LU_factorize returns the same status and, on success, the same L, U, rhos and pinv whatever malloc and realloc leave in its workspace (the reach stack, the history vector, the two row permutations, the pivot flags) and in the cells by which L and U grow; this holds for every argument, also for invalid ones. SLIP_LU_analyze with any of the three orderings returns on every valid non-empty matrix the same column order and the same estimates whatever malloc leaves in S and in the workspace of the ordering (with SLIP_AMD the last of the n+1 cells of q, which is not part of the order, is not set). So an analysis followed by a factorization always gives identical factors.", "quantifier": "all inputs, all contents of fresh memory", "why_tests_cant": "relational property over all contents of memory", "anchors": ["SLIP_LU/Source/SLIP_LU_factorize.c:SLIP_LU_factorize", "SLIP_LU/Source/slip_sparse_realloc.c:slip_sparse_realloc", "SLIP_LU/Source/slip_get_pivot.c:slip_get_pivot", "SLIP_LU/Source/slip_ref_triangular_solve.c:slip_ref_triangular_solve"]}
{"id": "C82", "title": "The example programs solve their systems", "statement": "example2, run on a well-formed triplet file of an n-by-n integer matrix without repeated positions and a file of n-by-k right-hand sides (the first two words of the command line, otherwise the default names), computes the exact rational solution if the matrix is non-singular and stops with SLIP_SINGULAR if it is singular; a missing file, sizes that do not match and a truncated right-hand side are reported. example, which draws an n-by-n matrix and a right-hand side with rand, computes for every outcome of the draws the exact solution of the drawn system truncated to doubles, or stops with SLIP_SINGULAR - except that a right-hand side of zeros makes it divide by zero.", "quantifier": "all files, command lines and sequences of random numbers", "why_tests_cant": "all files and all sequences", "anchors": ["SLIP_LU/Demo/example2.c:main", "SLIP_LU/Demo/example.c:main", "SLIP_LU/Source/SLIP_backslash.c:SLIP_backslash"]}
{"id": "C83", "title": "No 64-bit overflow", "statement": "On a valid n-by-n matrix with n <= 2^26, an array of at most 2^61 entries and k right-hand sides with n*k <= 2^61, no computation with int64_t in SLIP_LU_analyze, SLIP_LU_factorize and SLIP_LU_solve (indices, flipped column pointers, loop counters, doubled array sizes, estimates) overflows, the estimates computed in double are exact, and the three calls give the exact solution or SLIP_SINGULAR. For factorize and solve alone n <= 2^30 is enough. The same holds for SLIP_backslash, whatever the output type. SLIP_matrix_copy and SLIP_matrix_check, on matrices whose dimensions, entries and index arrays are at most 2^61 (m*n too if a dense matrix is involved, fewer than 2^60 triplets for the check, column indices in range from triplet to dense), compute the same with int64_t as with unbounded integers. SLIP_matrix_allocate is correct when m*n and n+1 fit into an int64_t; it does not check this: a dense matrix of 2^32 by 2^32 overflows (undefined), and with wrapping arithmetic it is created, with SLIP_OK, with a single cell. So does copying to dense a 2^32-by-2^32 triplet matrix with one entry, which SLIP_matrix_check accepts.", "quantifier": "all matrices, right-hand sides and options up to the given sizes", "why_tests_cant": "sizes that no test can reach", "anchors": ["SLIP_LU/Source/SLIP_LU_analyze.c:SLIP_LU_analyze", "SLIP_LU/Source/SLIP_LU_factorize.c:SLIP_LU_factorize", "SLIP_LU/Source/SLIP_LU_solve.c:SLIP_LU_solve", "SLIP_LU/Source/SLIP_matrix_allocate.c:SLIP_matrix_allocate", "SLIP_LU/Source/slip_sparse_realloc.c:slip_sparse_realloc", "SLIP_LU/Source/slip_dfs.c:slip_dfs"]}
{"id": "C84", "title": "SLIP_backslash in MATLAB", "statement": "x = SLIP_backslash (A,b,option) on a real n-by-n double matrix A, sparse or full, and real full right-hand sides b, with any documented options, returns the exact solution of the system whose numbers are those of A and b rounded to multiples of 10^-17: as doubles, truncated (the default), as fractions in lowest terms (\"char\"), or those fractions passed to vpa with the given number of digits (\"vpa\"); it reports an error exactly if that system is singular. x = SLIP_backslash (A,b) uses the default options and, unlike SLIP_mex_soln (A,b), does not depend on uninitialized memory. Arguments that are not numeric, full matrices of another class, complex arguments and sparse right-hand sides are rejected. A solution \"vpa\" followed by a character 0 is accepted, but gives strings.", "quantifier": "all matrices, right-hand sides, options", "why_tests_cant": "end-to-end over all systems, storage forms and options", "anchors": ["SLIP_LU/MATLAB/SLIP_backslash.m:SLIP_backslash", "SLIP_LU/MATLAB/SLIP_mex_soln.c:mexFunction"]}
{"id": "C85", "title": "The factors depend on the matrix, not on its storage", "statement": "SLIP_LU_factorize, called with the same analysis and options on two CSC integer matrices whose columns list the same rows with the same values (stored zeros included) in any order and in arrays of any size, returns the same status and identical L, U, rhos and pinv; SLIP_backslash returns identical rational solutions for any two valid matrices with equal entries and scale. A column that lists a row more than once, which the user guide forbids and the call does not check, is factorized as if it held only the last of these values: no crash, SLIP_SINGULAR exactly if the determinant of that matrix is zero, and SLIP_LU_solve without the final check returns the exact solution of that system (SLIP_matrix_check reports such a matrix, and the final check, which adds the duplicates up, may report SLIP_INCORRECT).", "quantifier": "all square integer matrices, all arrangements and repetitions of the entries within the columns, all column permutations, all pivoting schemes and options, all right-hand sides", "why_tests_cant": "the number of arrangements of the entries is exponential; a dependence on the order would show only for certain patterns and pivots", "anchors": ["SLIP_LU/Source/SLIP_LU_factorize.c:SLIP_LU_factorize", "SLIP_LU/Source/slip_ref_triangular_solve.c:slip_ref_triangular_solve", "SLIP_LU/Source/slip_reach.c:slip_reach", "SLIP_LU/Source/slip_dfs.c:slip_dfs", "SLIP_LU/Source/SLIP_LU_solve.c:SLIP_LU_solve", "SLIP_LU/Source/SLIP_backslash.c:SLIP_backslash"]}
{"id": "C86", "title": "A checked solution is right whatever the factors are", "statement": "If SLIP_LU_solve with the option check returns SLIP_OK, the X it returns is the exact rational solution of A X = B for the A and B passed to it, in lowest terms, whatever objects are passed as L, U, rhos, S and pinv: factors of another matrix, factors computed before A was changed, damaged factors, arrays that are not permutations. For a non-singular A it is therefore the very matrix that SLIP_backslash returns. Without the check, which is off by default, factors of another matrix give SLIP_OK and a wrong solution.", "quantifier": "all valid A and B with nonzero scales, all L, U, rhos, S and pinv of any content", "why_tests_cant": "the factors range over arbitrary, also inconsistent, objects", "anchors": ["SLIP_LU/Source/SLIP_LU_solve.c:SLIP_LU_solve", "SLIP_LU/Source/slip_check_solution.c:slip_check_solution", "SLIP_LU/Source/SLIP_backslash.c:SLIP_backslash"]}
{"id": "C87", "title": "The solution follows transformations of the system", "statement": "SLIP_backslash, called on a system and on a transformed system, with any options in the two calls: exchanging the equations and multiplying each by a nonzero number leaves the returned X unchanged; exchanging the unknowns and scaling the columns of A exchanges and divides the rows of X accordingly; right-hand sides that are linear combinations of others (repeated, selected, added columns) have the same combinations of the solutions; in general, if A' = M A N and B' = M B K with invertible M and N then N X' = X K. SLIP_SINGULAR is returned for both systems or for neither. The solution for the identity matrix is the inverse of A on both sides. If B = A*Y for a rational Y in lowest terms and A is not singular, exactly Y is returned. A solution can be copied to a dense SLIP_MPZ matrix without loss and used as a right-hand side: A2\\(A1\\B) is (A1*A2)\\B.", "quantifier": "all systems, all permutations, scalings, invertible transformations and combinations, all options", "why_tests_cant": "relational property over pairs of inputs of any size", "anchors": ["SLIP_LU/Source/SLIP_backslash.c:SLIP_backslash", "SLIP_LU/Source/SLIP_LU_factorize.c:SLIP_LU_factorize", "SLIP_LU/Source/SLIP_LU_solve.c:SLIP_LU_solve"]}
{"id": "C88", "title": "What SLIP_matrix_check prints", "statement": "SLIP_matrix_check returns the same status at every print level, provided the strings for printing can be allocated and there are values to print. At level 0 it prints nothing; at level 1 nothing for an accepted matrix and exactly one message for a rejected one; at level 2 at most 30 lines besides the header, and for an accepted matrix with more lines exactly the first 30 followed by dots; at level 3 and above (and at level 2 if there are at most 30 lines) it prints, for an accepted matrix, the header with its dimensions, number of entries, kind, type and scale, and then every entry with its indices and value, column by column (triplets in their order), and nothing else. From level 1 on a rejection ends with a message, and the matrix has the defect that the message names (the indices given in it included). With values present, printing stays inside the arrays. Limits: a dense matrix without values and nzmax = 0 is accepted at levels 0 and 1 and dereferenced at level 2 (undefined), and a valid matrix is reported as out of memory or incorrect if a string cannot be allocated.", "quantifier": "all matrices of every kind and type, all print levels, all outcomes of the string allocations", "why_tests_cant": "the output depends on every entry; the interplay of checks, line limit and levels is too large to enumerate", "anchors": ["SLIP_LU/Source/SLIP_matrix_check.c:SLIP_matrix_check", "SLIP_LU/Source/slip_internal.h:SLIP_PR1"]}
{"id": "C89", "title": "SYMAMD orders symmetric matrices", "statement": "symamd_l, the ordering for symmetric matrices of the bundled COLAMD library, on every n-by-n pattern (rows of a column in any order, repeated at will), any dense threshold, whatever its output array contains, terminates, stays inside its arrays and returns TRUE and a permutation. The permutation depends only on the entries below the diagonal, in the order of their first occurrence in each column: the diagonal, the entries above it and repetitions are ignored. For any other arguments whose row array is as long as every column pointer says, and whichever of its allocations fail, it returns FALSE, with an error code and details in stats that are true of the arguments. In every case it releases what it has allocated, once. The workspace it asks for (colamd_l_recommended) is computed in size_t without undetected overflow: the exact number, or 0. Limit: column pointers that decrease are noticed only when their column is reached, after A may have been read past its end.", "quantifier": "all square patterns, all thresholds, all failures of the allocator", "why_tests_cant": "termination and bounds of the ordering for all patterns; independence of the result from ignored entries; every failure point", "anchors": ["COLAMD/Source/colamd.c:SYMAMD_MAIN", "COLAMD/Source/colamd.c:COLAMD_recommended", "COLAMD/Source/colamd.c:t_add", "COLAMD/Source/colamd.c:t_mult", "COLAMD/Include/colamd.h:symamd_l"]}
{"id": "C90", "title": "AMD running out of memory", "statement": "SLIP_LU_analyze with SLIP_AMD on a valid square matrix with n>=1 returns SLIP_OK whichever of the allocations inside AMD fail. If those needed for the matrix succeed, S is the analysis it always is. If one fails, this is not reported: S->lnz and S->unz are n-1, and S->q is what malloc left in it, or positions of entries of A when the last allocation fails. SLIP_LU_factorize, called with any S whose q holds column indices in range (a permutation or not) and whose lnz is at least n/2, is safe: it returns factors exactly if q is a permutation and A is non-singular, otherwise SLIP_SINGULAR; so such a failure never leads to wrong factors, and SLIP_backslash then returns what it would have returned with enough memory, or SLIP_SINGULAR. But it can lead to SLIP_SINGULAR for a non-singular matrix, and, when entries of q are out of range, to reads outside the arrays of A - for the 2-by-2 full matrix always when the last allocation fails.", "quantifier": "all valid matrices, all patterns of failing allocations, all contents of fresh memory, all column orders in range", "why_tests_cant": "every allocation may fail, fresh memory is arbitrary", "anchors": ["SLIP_LU/Source/SLIP_LU_analyze.c:SLIP_LU_analyze", "SLIP_LU/Source/SLIP_backslash.c:SLIP_backslash", "AMD/Source/amd_order.c:AMD_order", "AMD/Source/amd_aat.c:AMD_aat", "SLIP_LU/Source/SLIP_LU_factorize.c:SLIP_LU_factorize"]}
{"id": "C91", "title": "Systems of rational numbers", "statement": "A square SLIP_MPQ matrix A in compressed-column, triplet or dense form (entries in lowest terms, no position twice) and a dense SLIP_MPQ matrix B, copied by SLIP_matrix_copy to SLIP_MPZ (A to compressed-column form) and passed to SLIP_backslash: the copies succeed; if the rational matrix A has an inverse, SLIP_OK and the exact solution of the rational system are returned; if not (also if A has no entries at all), SLIP_SINGULAR.", "quantifier": "all rational matrices and right-hand sides, all dimensions n>=1 and numbers of right-hand sides, all options", "why_tests_cant": "end-to-end exactness over all rational inputs, common denominators of any size", "anchors": ["SLIP_LU/Source/SLIP_matrix_copy.c:SLIP_matrix_copy", "SLIP_LU/Source/slip_expand_mpq_array.c:slip_expand_mpq_array", "SLIP_LU/Source/SLIP_backslash.c:SLIP_backslash"]}
