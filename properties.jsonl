{"id": "C01", "title": "COO insert/at behaves like a map where the last insert wins", "statement": "Starting from an empty M x N COO matrix, after any sequence of in-range insert(i,j,v) calls, at(i,j) returns the value of the last insert at (i,j), or 0 if there was none; no access is out of bounds, get_nnz() is the number of inserts.", "quantifier": "all matrix sizes, all finite insert histories, all query positions, all scalar values (including NaN/-0)", "why_tests_cant": "The history is unbounded and the storage is reallocated at data-dependent points (2n+1 growth); a test fixes one history.", "anchors": ["src/utils/at_insert_sort/at_insert_sort_coo.cpp: COO::insert, COO::at", "include/monolish/common/monolish_coo.hpp: resize"]}
{"id": "C02", "title": "COO insert/at reject out-of-range positions", "statement": "insert(i,j,v) on an M x N COO matrix is rejected (assert) whenever i>=M or j>=N, so no stored entry is ever outside the matrix.", "quantifier": "all sizes and all positions", "why_tests_cant": "The guard has to be right at every boundary value of every size.", "anchors": ["src/utils/at_insert_sort/at_insert_sort_coo.cpp: COO::insert, COO::at"]}
{"id": "C03", "title": "COO sort orders the entries and keeps exactly the same multiset", "statement": "sort(false) terminates without out-of-range access for every COO matrix, leaves the (row,col,value) triples a permutation of what they were, and makes them non-decreasing in (row,col).", "quantifier": "all COO matrices, any length, any duplicates, any initial order", "why_tests_cant": "The hand-written in-place quicksort on three parallel arrays has data-dependent control flow; only an invariant covers every input permutation.", "anchors": ["src/utils/at_insert_sort/at_insert_sort_coo.cpp: COO::_q_sort, COO::sort"]}
{"id": "C04", "title": "COO sort(true) merges duplicates without changing the matrix", "statement": "After sort(true) positions are strictly increasing (one entry per position) and at(i,j) is unchanged for every (i,j).", "quantifier": "all COO matrices, incl. empty ones and ones with repeated positions", "why_tests_cant": "Needs the value kept for every repeated position under every input order.", "anchors": ["src/utils/at_insert_sort/at_insert_sort_coo.cpp: COO::sort"]}
{"id": "C05", "title": "COO transpose is exact transposition", "statement": "After transpose() (and after B.transpose(A)) at(i,j) equals the former at(j,i) for all i,j, dimensions are exchanged; transposing twice restores the matrix.", "quantifier": "all COO matrices and positions", "why_tests_cant": "Universally quantified over matrices, including unsorted ones with duplicates and spare capacity.", "anchors": ["src/utils/transpose/transpose_coo.cpp: COO::transpose"]}
{"id": "C06", "title": "COO row/col/diag extraction agrees with at", "statement": "A.row(r,v), A.col(c,v), A.diag(v) fill v with at(r,j), at(i,c), at(i,i) for every index, whatever v held before, and abort if v has the wrong length.", "quantifier": "all COO matrices with in-range entries, all r/c, all prior contents of v", "why_tests_cant": "Last-wins on duplicates has to agree between two different scans (forward overwrite vs backward search) for all entry orders.", "anchors": ["src/utils/getvec/coo_getvec.cpp: COO::row, COO::col, COO::diag"]}
{"id": "C07", "title": "Dense/COO conversions preserve every element", "statement": "Dense.convert(COO) yields at(i,j) at every position; COO.convert(Dense) stores exactly the non-zero elements, in row-major order, and converting back gives the original matrix (zeros compare equal to 0).", "quantifier": "all matrices, all sizes, arbitrary scalar values", "why_tests_cant": "All shapes and sparsity patterns; -0 and NaN included.", "anchors": ["src/utils/convert/convert_coo.cpp: COO::convert(Dense)", "src/utils/convert/convert_dense.cpp: Dense::convert(COO)"]}
{"id": "C08", "title": "COO -> CRS conversion represents the same matrix and round-trips", "statement": "For a COO matrix whose entries are sorted by row, CRS.convert(COO) stores in row i exactly the (col,val) pairs of row i in order; COO.convert(CRS) gives back the same triples.", "quantifier": "all row-sorted COO matrices, including empty rows anywhere and spare capacity", "why_tests_cant": "row_ptr construction has separate cases for runs, gaps, leading and trailing empty rows; tests sample a few patterns.", "anchors": ["src/utils/convert/convert_crs.cpp: CRS::convert(COO)", "src/utils/convert/convert_coo.cpp: COO::convert(CRS)"]}
{"id": "C09", "title": "CRS produced by conversion is a valid CRS", "statement": "After CRS.convert(COO) row_ptr starts at 0, is non-decreasing and ends at nnz, and has no dependence on what the object held before.", "quantifier": "all row-sorted COO matrices, all previous contents of the CRS object", "why_tests_cant": "Depends on stale state of a re-used object and on trailing empty rows.", "anchors": ["src/utils/convert/convert_crs.cpp: CRS::convert(COO)"]}
{"id": "C10", "title": "COO/CRS operator== is equality of matrices' stored data", "statement": "A==B returns true exactly when dimensions, number of entries, positions and values agree, and it never reads outside the arrays.", "quantifier": "all pairs of matrices", "why_tests_cant": "Pairs with equal prefixes but different lengths have to be told apart for every size.", "anchors": ["src/utils/compare/compare_coo.cpp: COO::equal", "src/utils/compare/compare_crs.cpp: CRS::equal"]}
{"id": "C11", "title": "CRS matvec computes A*x", "statement": "matvec(A,x,y) leaves y[i] = sum over the stored entries of row i, in storage order starting from 0, of value*x[col] - hence y = A*x in exact arithmetic; x and A unchanged; sizes checked; no dependence on old y or on thread schedule.", "quantifier": "all valid CRS matrices, all vectors, any scalar arithmetic (bit-exact), every OpenMP schedule", "why_tests_cant": "All sparsity patterns, empty rows, duplicates, rectangular shapes; interleavings of threads.", "anchors": ["src/blas/matrix/matvec/crs_matvec.hpp: Dmatvec_core"]}
{"id": "C12", "title": "CRS matvec_T computes A^T*x and is the adjoint of matvec", "statement": "matvec_T(A,x,y) leaves y = A^T*x; <A x, y> = <x, A^T y> for all x,y; and matvec_T(A,x) equals matvec(transpose(A),x) bit for bit.", "quantifier": "all valid CRS matrices and vectors; bit-exact equality for any scalar arithmetic", "why_tests_cant": "Bitwise agreement of two algorithms with different loop nests for every pattern.", "anchors": ["src/blas/matrix/matvec/crs_matvec.hpp: Dmatvec_core (transA)", "src/utils/transpose/transpose_crs.cpp"]}
{"id": "C13", "title": "matvec(a,A,x,b,y) computes y = a*A*x + b*y for CRS", "statement": "The scaled overload for CRS matrices honours a and b: y[i] becomes a*(A x)[i] + b*y[i].", "quantifier": "all a, b, A, x, y", "why_tests_cant": "All scalar values.", "anchors": ["src/blas/matrix/matvec/crs_matvec.hpp", "src/blas/matrix/matvec/matvec_blas.cpp"]}
{"id": "C14", "title": "CRS transpose is exact transposition and keeps CRS valid", "statement": "transpose() / transpose(B): the result is a valid CRS whose entries in row c are exactly the (row,value) pairs of column c of the input in row order; transposing twice gives a matrix with the same rows sorted by column.", "quantifier": "all valid CRS matrices", "why_tests_cant": "Counting-sort scatter with in-place cursor in row_ptr; all patterns.", "anchors": ["src/utils/transpose/transpose_crs.cpp: CRS::transpose"]}
{"id": "C15", "title": "CRS row/col/diag extraction", "statement": "A.row(r,v), A.col(c,v), A.diag(v) accept a vector of the row length / column length / min and fill it with the matrix elements.", "quantifier": "all CRS matrices incl. rectangular, all r/c", "why_tests_cant": "Rectangular shapes in both directions.", "anchors": ["src/utils/getvec/crs_getvec.cpp"]}
{"id": "C16", "title": "Structure hash / is_same_structure identifies sparsity patterns", "statement": "is_same_structure(A,B) for CRS is true only if A and B have the same pattern; the hash does not depend on the number of threads.", "quantifier": "all pairs of CRS matrices, all OpenMP schedules", "why_tests_cant": "Collision freedom and schedule independence are universal claims.", "anchors": ["src/utils/hash.cpp", "src/internal/math/integer_math.cpp: vhash", "src/utils/compare/compare_crs.cpp: is_same_structure"]}
{"id": "C17", "title": "CRS matadd/matsub add matrices", "statement": "When A, B, C pass the structure check, after matadd(A,B,C) (matsub) every element of C is the sum (difference) of the elements of A and B.", "quantifier": "all triples of CRS matrices accepted by the check", "why_tests_cant": "Soundness of the guard over all accepted inputs.", "anchors": ["src/blas/matrix/mataddsub/crs_mataddsub.hpp"]}
{"id": "C18", "title": "CRS*Dense matmul computes C = a*A*B + b*C on the scalar and the AVX path", "statement": "matmul(a,A,B,b,C) with CRS A and Dense B: C[i][j] = a*sum_k A[i][k]*B[k][j] + b*C[i][j]; the vectorised path gives the same result in exact arithmetic for every number of columns (vector blocks and remainder cover each column exactly once).", "quantifier": "all shapes, all vector widths remainders, all scalars a, b", "why_tests_cant": "Remainder loops depend on N mod 32 / mod 8 / mod 4; all N must be covered.", "anchors": ["src/blas/matrix/matmul/crs-dense_matmul.hpp"]}
{"id": "C19", "title": "CRS scal/times act on the represented matrix", "statement": "scal(a,A), times(a,A,B), times_row, times_col multiply each element by a, x[col], x[row]; single-row/column variants change only that row/column.", "quantifier": "all CRS matrices, vectors, scalars", "why_tests_cant": "Frame condition for all other rows/columns.", "anchors": ["src/blas/matrix/times/crs_times.hpp", "src/blas/matrix/times/crs_line_times.hpp", "src/blas/matrix/scal/crs_scal.hpp"]}
{"id": "C20", "title": "CRS/Dense diag_add/sub/mul/div change exactly the diagonal", "statement": "diag_op(alpha) and diag_op(vec) update each stored diagonal element once and change nothing else.", "quantifier": "all shapes (rectangular too) and all patterns without duplicate diagonal entries", "why_tests_cant": "Frame condition and rectangular bounds.", "anchors": ["src/blas/matrix/diag_op/crs_diag_op.hpp", "src/blas/matrix/diag_op/dense_diag_op.hpp"]}
{"id": "C21", "title": "Dense transpose (in place, square and rectangular, and out of place)", "statement": "After transpose() at(i,j) is the former at(j,i) and dimensions are exchanged, memory accesses stay in range; B.transpose(A) likewise leaves A unchanged.", "quantifier": "all Dense matrices", "why_tests_cant": "In-place swap over all i<j for all sizes; index decode by division for rectangles.", "anchors": ["src/utils/transpose/transpose_dense.cpp"]}
{"id": "C22", "title": "Dense element access is row-major and reshape preserves the data order", "statement": "insert(i,j,v) changes exactly element (i,j); reshape keeps the row-major sequence and is accepted iff the element count matches.", "quantifier": "all sizes and positions", "why_tests_cant": "Injectivity of the index map for all shapes.", "anchors": ["src/utils/at_insert_sort/at_insert_sort_dense.cpp", "src/utils/reshape/reshape_dense.cpp"]}
{"id": "C23", "title": "vector push_back/resize behave like a sequence", "statement": "Any sequence of push_back/resize/element writes on an owning vector behaves like the same operations on a mathematical sequence, across reallocations, with no out-of-range access.", "quantifier": "all operation histories", "why_tests_cant": "Unbounded histories with amortised reallocation.", "anchors": ["include/monolish/common/monolish_vector.hpp: push_back, resize, operator[]"]}
{"id": "C24", "title": "view1D is a window onto its target", "statement": "Reading/writing element k of a view1D(first,last) is reading/writing element first+k of its target; writes (fill, assignment, BLAS) through the view change nothing outside [first,last); nested views compose offsets.", "quantifier": "all targets, windows, nested windows and writes", "why_tests_cant": "Frame condition for all offsets.", "anchors": ["include/monolish/common/monolish_view1D.hpp", "src/utils/copy/copy_view1D.cpp", "src/utils/fill/fill_view1D.cpp"]}
{"id": "C25", "title": "Vector BLAS-1 / VML element-wise kernels", "statement": "axpy, axpyz, xpay, scal, vecadd, vecsub, times, copy, vml add/sub/mul/div/max/min compute element i of the output from element i of the inputs only, also when output aliases an input, bit-exactly and for every thread schedule.", "quantifier": "all lengths, values, aliasing choices, schedules", "why_tests_cant": "Thread interleavings are not controllable by tests.", "anchors": ["src/blas/vector/*.hpp", "src/internal/arithmetic/double_arithmetic.cpp"]}
{"id": "C26", "title": "Reductions (dot, sum, asum, nrm1, nrm2, vmax, vmin) do not depend on the thread schedule", "statement": "The result of a reduction is the mathematical sum/max whatever the number of threads and order of combination - exactly in exact arithmetic; in IEEE arithmetic the result is independent of the schedule.", "quantifier": "all vectors, all partitions of iterations over threads, all combination orders", "why_tests_cant": "Schedules cannot be enumerated by tests.", "anchors": ["src/blas/vector/dot.hpp", "src/blas/vector/sum.hpp", "src/blas/vector/nrm1.hpp", "src/blas/vector/nrm2.hpp", "src/blas/vector/asum.hpp", "src/internal/math/double_math.cpp: vmax, vmin"]}
{"id": "C27", "title": "Tensor index encoding is a bijection", "statement": "get_index(pos) (row-major flattening) and get_index(flat) are mutually inverse for in-range positions, flat index < product of dimensions, and insert changes exactly one element.", "quantifier": "all ranks and shapes with positive dimensions", "why_tests_cant": "All ranks/shapes.", "anchors": ["include/monolish/common/monolish_tensor_dense.hpp: get_index"]}
{"id": "C28", "title": "tensor_COO insert/at/sort", "statement": "tensor_COO insert/at refine a map with last-wins; sort orders by flat index and preserves the multiset of entries; converting tensor_Dense<->tensor_COO preserves every element.", "quantifier": "all ranks, shapes and insert histories", "why_tests_cant": "Unbounded histories, data-dependent quicksort.", "anchors": ["src/utils/at_insert_sort/at_insert_sort_tensor_coo.cpp", "src/utils/convert/convert_tensor_coo.cpp", "src/utils/convert/convert_tensor_dense.cpp"]}
{"id": "C29", "title": "tensor_Dense diag_op touches exactly the elements with equal indices", "statement": "diag_add/sub/mul/div on a tensor_Dense update the elements A[i][i]...[i] and no others.", "quantifier": "all ranks and shapes", "why_tests_cant": "Non-cubic shapes.", "anchors": ["src/blas/tensor/diag_op/tensor_dense_diag_op.hpp"]}
{"id": "C30", "title": "Failed reshape leaves the tensor unchanged", "statement": "tensor_Dense.reshape either succeeds with the requested shape and same data, or throws and leaves the tensor as it was.", "quantifier": "all shapes and requested shapes incl. -1 and 0 dimensions", "why_tests_cant": "Exception paths over all argument vectors.", "anchors": ["src/utils/reshape/reshape_tensor_dense.cpp"]}
{"id": "C31", "title": "MatrixMarket write/read round-trips", "statement": "input_mm of the file written by output_mm gives back the same dimensions, positions and values; comment lines are skipped; malformed banners are rejected.", "quantifier": "all COO matrices with at least one column; all comment blocks", "why_tests_cant": "All matrices; text format parse for all integers.", "anchors": ["src/utils/IO/IO_coo.cpp: COO::output_mm, COO::input_mm"]}
{"id": "C32", "title": "Matrix generators produce the documented matrices", "statement": "eye, frank_matrix, tridiagonal_toeplitz_matrix, laplacian_matrix_1D/2D_5p, band_matrix return matrices whose every element is given by the documented formula.", "quantifier": "all sizes and parameters", "why_tests_cant": "All sizes incl. the boundary rows of each stencil.", "anchors": ["src/utils/create_matrix/*.cpp"]}
{"id": "C33", "title": "LinearOperator algebra", "statement": "Operators built by blas::matadd/matsub/matmul and vml::add/sub/mul/div (with an operator or a scalar) apply the corresponding combination of the operand operators to every vector; convert_to_Dense yields the matrix whose columns are the images of the unit vectors; converting a matrix to an operator and back preserves it.", "quantifier": "all operators (all user functions, all matrices, all compositions), all vectors, all later states of the captured objects", "why_tests_cant": "Higher-order values: all functions.", "anchors": ["src/blas/matrix/*/linearoperator*.hpp", "src/utils/convert/convert_linearoperator.cpp"]}
{"id": "C34", "title": "CG/BiCGSTAB maintain the true residual and report honestly", "statement": "In exact arithmetic, CG and BiCGSTAB on a square system return SUCCESS only if the returned x satisfies ||b-Ax||<tol after at least miniter iterations, MAXITER only after exactly maxiter iterations, NaN/BREAKDOWN codes only for those events, and get_final_residual() is ||b-Ax|| of the returned x, whatever the preconditioner computes. (In binary64 the recurrence residual can differ from the true one: shown by counterexample.)", "quantifier": "all matrices, right-hand sides, initial guesses, preconditioners, tol/miniter/maxiter, any number of iterations", "why_tests_cant": "Loop invariant over unbounded iteration counts.", "anchors": ["src/equation/cg.cpp", "src/equation/bicgstab.cpp"]}
{"id": "C35", "title": "Jacobi/SOR report honestly", "statement": "On SUCCESS the x returned by Jacobi/SOR satisfies the tolerance and get_final_residual() is the residual norm of the returned x.", "quantifier": "all systems and parameters", "why_tests_cant": "All systems.", "anchors": ["src/equation/jacobi.cpp", "src/equation/sor.cpp"]}
{"id": "C36", "title": "SOR kernels solve the triangular system", "statement": "sor_kernel_lower(A,d,x,b) computes x with x[i] = d[i]*(b[i]-sum_{j<i} A[i][j]*x[j]); the SOR preconditioner stays in bounds.", "quantifier": "all CRS/Dense matrices", "why_tests_cant": "All patterns, incl. unsorted rows.", "anchors": ["src/equation/kernel/sor_kernel.hpp"]}
{"id": "C37", "title": "solver_check distinguishes success from failure", "statement": "util::solver_check(err) tells a SUCCESS code apart from the error codes.", "quantifier": "all error codes", "why_tests_cant": "Finite but claimed for every code.", "anchors": ["src/utils/equation_utils.cpp: solver_check"]}
{"id": "C38", "title": "Logger call stack stays balanced", "statement": "After any API call returns the logger's call stack is as before, so every log line's path names exactly the active calls.", "quantifier": "all sequences of API calls and all return paths (incl. early return and exceptions)", "why_tests_cant": "All control-flow paths.", "anchors": ["src/utils/system/logger_utils.cpp", "src/utils/compare/compare_tensor_dense.cpp"]}
{"id": "C39", "title": "Every OpenMP parallel-for kernel is race free", "statement": "For every interleaving of the iterations' memory accesses the final memory equals that of the sequential loop.", "quantifier": "all interleavings at memory-access granularity, all sizes", "why_tests_cant": "Interleavings cannot be enumerated by tests.", "anchors": ["src/blas/**", "src/internal/arithmetic/*.cpp", "src/utils/getvec/linearoperator_getvec.cpp"]}
{"id": "C40", "title": "Copying/initialising from an existing sparse matrix never overruns memory", "statement": "CRS(mat), CRS(mat,value), CRS.convert(CRS), COO(mat) allocate enough memory for every source matrix reachable through the API and copy it exactly.", "quantifier": "all reachable source matrices, incl. CRS converted from a COO with spare capacity", "why_tests_cant": "Depends on the construction history of the source.", "anchors": ["src/utils/crs_constructor.cpp", "src/utils/convert/convert_crs.cpp", "src/utils/coo_constructor.cpp"]}
{"id": "C41", "title": "Dense row/col broadcast operations", "statement": "times_row/times_col/adds_row/adds_col combine A[i][j] with x[j] / x[i]; single row/column variants change only that row/column.", "quantifier": "all Dense matrices, vectors", "why_tests_cant": "Frame condition for all sizes.", "anchors": ["src/blas/matrix/times/dense_times.hpp", "src/blas/matrix/adds/dense_adds.hpp", "src/blas/matrix/*/dense_line_*.hpp"]}
{"id": "C42", "title": "Tensor products equal their matrix unfoldings", "statement": "tensvec, tensmat, mattens, tensmul contract the last index of A with the first of B: C[..i..][..j..] = a*sum_k A[..i..][k]*B[k][..j..] + b*C.", "quantifier": "all ranks and shapes", "why_tests_cant": "All ranks/shapes.", "anchors": ["src/blas/tensor/tensvec/tensor_dense_tensvec.hpp", "src/blas/tensor/tensmat/*.hpp", "src/blas/tensor/tensmul/*.hpp", "src/utils/move/move_dense.cpp"]}
{"id": "C43", "title": "Shape-inferring move (tensor as matrix) shares storage and infers the missing dimension", "statement": "Dense.move(tensor,rowN,colN) with one -1 yields a matrix over the same memory with rowN*colN equal to the element count, and rejects inconsistent shapes.", "quantifier": "all shapes and arguments", "why_tests_cant": "All shapes incl. 0 and -1.", "anchors": ["src/utils/move/move_dense.cpp", "src/utils/move/move_view_dense.cpp"]}
{"id": "C44", "title": "vml::alo is alpha*x on positive and beta*x on other elements", "statement": "y[i] = alpha*x[i] if x[i]>0 else beta*x[i] (alpha*max(x,0)+beta*min(x,0)), in exact arithmetic, for every thread schedule and with y aliasing x.", "quantifier": "all vectors, coefficients, schedules", "why_tests_cant": "Unbounded vectors and schedules.", "anchors": ["src/internal/math/double_math.cpp: valo", "src/vml/vector/math_2op/vecalo.hpp"]}
{"id": "C45", "title": "vector copy, assignment, fill and comparison", "statement": "Copying a vector gives an independent object with the same elements; x=y copies all elements; fill sets all; == is true iff sizes agree and all elements compare equal.", "quantifier": "all vectors and schedules", "why_tests_cant": "All lengths and schedules; independence of the copy is a frame property.", "anchors": ["src/utils/vector_constructor.cpp", "src/utils/copy/copy_vector.cpp", "src/utils/fill/fill_vector.cpp", "src/utils/compare/compare_vector.cpp"]}
{"id": "C46", "title": "Dense matvec, matvec_T and matmul", "statement": "y = A*x, y = A^T*x, y = a*A*x + b*y, C = A*B, C = a*A*B + b*C for row-major Dense and view_Dense arguments of any rectangular shape; wrong sizes are rejected; nothing but the output changes.", "quantifier": "all shapes, values, windows", "why_tests_cant": "All rectangular shapes, leading dimensions and offsets; exact-arithmetic identity for all values.", "anchors": ["src/blas/matrix/matvec/dense_matvec.hpp", "src/blas/matrix/matmul/dense-dense_matmul.hpp"]}
{"id": "C47", "title": "Dense element-wise matrix operations", "statement": "matadd, matsub, mscal, times(alpha,..), adds(alpha,..), copy, fill compute element (i,j) of the output from element (i,j) of the inputs, bit-exactly, under every thread schedule and also when the output is an input; wrong sizes are rejected.", "quantifier": "all shapes, values, aliasing choices, schedules", "why_tests_cant": "Thread interleavings and all shapes.", "anchors": ["src/blas/matrix/mataddsub/dense_mataddsub.hpp", "src/blas/matrix/scal/dense_scal.hpp", "src/blas/matrix/times/dense_times.hpp", "src/blas/matrix/adds/dense_adds.hpp", "src/blas/matrix/copy/dense_copy.hpp", "src/utils/fill/fill_dense.cpp"]}
{"id": "C48", "title": "Dense diag/row/col extraction", "statement": "A.diag(x), A.row(r,x), A.col(c,x) set x[i] to A(i,i), A(r,i), A(i,c) for every in-range r,c, change nothing else, and reject an x of the wrong size or an r,c out of range; x may be a vector or a view.", "quantifier": "all shapes, r, c, targets", "why_tests_cant": "All shapes and frame condition.", "anchors": ["src/utils/getvec/dense_getvec.cpp"]}
{"id": "C49", "title": "Starting at, or hitting, the exact solution does no damage", "statement": "If b-A*x is exactly zero at the start or becomes exactly zero during the iteration, solve keeps x at (or moves it to) the solution and returns SUCCESS.", "quantifier": "all systems, all solvers, all iteration numbers at which the residual vanishes", "why_tests_cant": "The event depends on the data and can happen at any iteration.", "anchors": ["src/equation/cg.cpp", "src/equation/bicgstab.cpp", "src/equation/jacobi.cpp", "src/equation/sor.cpp"]}
{"id": "C50", "title": "CG terminates with the solution in at most n steps", "statement": "In exact field arithmetic with a symmetric definite A and no preconditioner, CG.solve returns SUCCESS within max(1, n, miniter) iterations and the returned x meets the tolerance.", "quantifier": "all n, all symmetric definite matrices, all b and initial x", "why_tests_cant": "Holds for every dimension; needs the conjugacy invariant over the whole history.", "anchors": ["src/equation/cg.cpp"]}
{"id": "C51", "title": "set_maxiter only cuts a run short", "statement": "If a run with limit m stops at iteration k for another reason than the limit, then every limit >= k gives the very same x, code, iteration count and residual, and every smaller limit gives MAXITER; also in floating point.", "quantifier": "all systems, arithmetics, solvers (CG, BiCGSTAB, Jacobi, SOR) and limits", "why_tests_cant": "Relates runs with different limits, for all limits.", "anchors": ["src/equation/cg.cpp", "src/equation/bicgstab.cpp", "src/equation/jacobi.cpp", "src/equation/sor.cpp"]}
{"id": "C52", "title": "Preconditioners compute what they say", "statement": "precondition none gives z=r, Jacobi z[i]=r[i]/A(i,i), SOR a forward and a backward triangular substitution with D[i]=1/(omega*A(i,i)); creating them for a non-square matrix throws.", "quantifier": "all square matrices (Dense and CRS), omega, vectors", "why_tests_cant": "All matrices and sizes.", "anchors": ["src/equation/none.cpp", "src/equation/jacobi.cpp: create_precond, apply_precond", "src/equation/sor.cpp: create_precond, apply_precond", "src/equation/kernel/sor_kernel.hpp"]}
{"id": "C53", "title": "tensor_Dense rejects invalid positions and value lists", "statement": "at/insert on a tensor_Dense accept exactly the positions inside the shape and reject all others without touching memory outside the tensor; constructing a tensor from a value list of the wrong length is rejected.", "quantifier": "all shapes, positions and value lists", "why_tests_cant": "All ranks, shapes and positions, including those whose row-major number lands inside the tensor.", "anchors": ["src/utils/at_insert_sort/at_insert_sort_tensor_dense.cpp", "include/monolish/common/monolish_tensor_dense.hpp: get_index", "src/utils/tensor_dense_constructor.cpp"]}
{"id": "C54", "title": "tensor_Dense operator== is equality of shape and elements", "statement": "a == b holds exactly when the shapes are equal and every element of a equals the element of b at the same position, also for tensors that are windows into a bigger buffer.", "quantifier": "all pairs of tensors", "why_tests_cant": "All shapes, contents and offsets.", "anchors": ["src/utils/compare/compare_tensor_dense.cpp"]}
{"id": "C55", "title": "Tensor row/col broadcast operations", "statement": "times_row/adds_row on tensors combine A[..,j] with x[j], times_col/adds_col combine A[i,..] with x[i]; the variants with a line number change only that row/column of the matrix unfolding; wrong shapes, lengths and line numbers are rejected.", "quantifier": "all ranks, shapes, vectors, line numbers, aliasing C=A", "why_tests_cant": "All ranks and shapes, every schedule.", "anchors": ["src/blas/tensor/times/tensor_dense_times.hpp", "src/blas/tensor/times/tensor_dense_line_times.hpp", "src/blas/tensor/adds"]}
{"id": "C56", "title": "Element-wise operations on tensors", "statement": "tensadd, tenssub, times/adds with a scalar, scal, tensor_copy/operator= and fill compute C[pos] from A[pos] (and B[pos]) at every position, change nothing else, work in place, and reject different shapes.", "quantifier": "all ranks, shapes, values, windows", "why_tests_cant": "All shapes, every schedule.", "anchors": ["src/blas/tensor/tensaddsub", "src/blas/tensor/scal", "src/blas/tensor/copy", "src/utils/fill/fill_tensor_dense.cpp", "src/utils/copy/copy_tensor_dense.cpp"]}
{"id": "C57", "title": "The exact-eigenvalue functions agree with the generated matrices", "statement": "tridiagonal_toeplitz_matrix_eigenvalue, laplacian_matrix_1D_eigenvalue, frank_matrix_eigenvalue and toeplitz_plus_hankel_matrix_eigenvalue return, up to rounding, the Nth smallest eigenvalue of the matrix (for the last, of the generalized problem Ax = lBx with the two matrices) built by the generator of the same name with the same parameters.", "quantifier": "all dimensions M, all valid N, all matrix parameters", "why_tests_cant": "An eigenvalue claim for every dimension and parameter; tests compare a few sizes.", "anchors": ["src/utils/create_matrix/tridiagonal_toeplitz.cpp: tridiagonal_toeplitz_matrix_eigenvalue", "src/utils/create_matrix/laplacian.cpp: laplacian_matrix_1D_eigenvalue", "src/utils/create_matrix/frank.cpp: frank_matrix_eigenvalue", "src/utils/create_matrix/toeplitz_plus_hankel.cpp: toeplitz_plus_hankel_matrix_eigenvalue"]}
{"id": "C58", "title": "Conversions to tensor_CRS preserve the tensor", "statement": "Converting a tensor_COO or a CRS matrix to a tensor_CRS, or copying a tensor_CRS, gives an object with the same shape in which every row of every slice lists exactly the stored entries of that row.", "quantifier": "all ranks >= 2, shapes, entry lists (empty rows, duplicates), previous contents of the target object", "why_tests_cant": "A statement about every entry list and every previous state of the target; tests convert sorted tensors into new objects.", "anchors": ["src/utils/convert/convert_tensor_crs.cpp: tensor_CRS::convert", "include/monolish/common/monolish_tensor_crs.hpp: copy constructor, resize"]}
{"id": "C59", "title": "Sparse tensor times vector", "statement": "tensvec(A, x, C) on a tensor_CRS A writes C[p,i] = sum_k A[p,i,k] x[k] to every element of C and changes nothing else; shapes that do not fit are rejected.", "quantifier": "all shapes of rank >= 2, sparsity patterns and values", "why_tests_cant": "All ranks, shapes and patterns; tests use one rank-3 pattern.", "anchors": ["src/blas/tensor/tensvec/tensor_crs_tensvec.hpp", "src/blas/tensor/tensvec/tensvec_blas.cpp"]}
{"id": "C60", "title": "Sparse tensor times matrix and tensor", "statement": "tensmat(A, B, C) and tensmul(A, B, C) on a tensor_CRS A write C[p,i,j] = sum_k A[p,i,k] B[k,j] (B a matrix or a tensor contracted over its first index) in every compiled variant; shapes that do not fit are rejected.", "quantifier": "all shapes, patterns, values and SIMD variants", "why_tests_cant": "All shapes and all SIMD block/remainder splits; tests run one build on a few sizes.", "anchors": ["src/blas/tensor/tensmat/tensor_crs-dense_tensmat.hpp", "src/blas/tensor/tensmul/tensor_crs-tensor_dense_tensmul.hpp", "src/blas/tensor/mattens/crs-tensor_dense_mattens.hpp"]}
{"id": "C61", "title": "Element-wise operations and comparison of tensor_CRS objects", "statement": "times, times_row, tscal, fill, copy, tensadd and tenssub on tensor_CRS objects apply the operation to the stored values at equal positions, reject arguments with different structure, and == holds exactly for equal tensors.", "quantifier": "all structures and values, all ways of building the arguments", "why_tests_cant": "The claim is over every pair of structures, including unequal ones that collide in the hash; tests use identical structures.", "anchors": ["src/blas/tensor/times/tensor_crs_times.hpp", "src/blas/tensor/tensaddsub/tensor_crs_tensaddsub.hpp", "src/blas/tensor/scal/tensor_crs_scal.hpp", "src/blas/tensor/copy/tensor_crs_copy.hpp", "src/utils/compare/compare_tensor_crs.cpp", "src/utils/hash.cpp"]}
{"id": "C62", "title": "Host/device data protocol", "statement": "In the GPU build send, recv, nonfree_recv, device_free, constructors, copies, moves, assignments, destructors and kernels on vectors, dense and sparse matrices and tensors behave like a machine with one host copy and at most one device copy per object: send copies host to device, recv copies device to host and frees, nonfree_recv copies back and keeps, device_free frees without copying, kernels work on the side the operands are on; no transfer or kernel touches memory that is not mapped, nothing is mapped twice, and mixing sides stops at an assertion.", "quantifier": "all programs (sequences of calls) over any number of objects and views, all sizes and values", "why_tests_cant": "The claim is over every history of calls; a wrong order of send/copy/move/resize corrupts data silently, and no GPU is available in the test environment.", "anchors": ["src/utils/system/gpu_comm.cpp", "include/monolish/common/monolish_vector.hpp", "include/monolish/common/monolish_dense.hpp", "include/monolish/common/monolish_crs.hpp", "include/monolish/common/monolish_tensor_crs.hpp", "src/utils/vector_constructor.cpp", "src/utils/move/move_vector.cpp", "src/utils/copy/copy_vector.cpp", "src/blas/vector/axpy.hpp"]}
{"id": "C63", "title": "The GPU build gives the results of the CPU build", "statement": "A program written for the GPU build (with send and recv) gives, compiled for the CPU where send and recv do nothing, the same outputs and the same final contents of every object.", "quantifier": "all programs and all values", "why_tests_cant": "Quantifies over every program; the two builds are never run against each other in one test.", "anchors": ["src/utils/system/gpu_comm.cpp", "src/utils/transpose/transpose_dense.cpp", "src/utils/copy/copy_dense.cpp"]}
{"id": "C64", "title": "Device memory is released", "statement": "When every object has been destroyed no device memory is left allocated, and at any time device memory is held only for objects that are on the device.", "quantifier": "all programs", "why_tests_cant": "Leaks depend on the order of move, send and destruction; tests do not measure device memory.", "anchors": ["src/utils/system/gpu_comm.cpp", "include/monolish/common/monolish_vector.hpp", "src/utils/move/move_vector.cpp"]}
{"id": "C65", "title": "Host access is refused while data is on the device", "statement": "While an object is on the device, element access, insertion, push_back and resize throw and change nothing; on the host the same calls work.", "quantifier": "all reachable states, all objects, indices and sizes", "why_tests_cant": "Must hold in every reachable state; tests try one object.", "anchors": ["include/monolish/common/monolish_vector.hpp", "include/monolish/common/monolish_dense.hpp", "include/monolish/common/monolish_crs.hpp"]}
{"id": "C66", "title": "The outcome of an MPI program does not depend on the schedule", "statement": "A program that uses the communicator class (point-to-point without wildcards, collectives, waiting) has exactly one outcome: it ends in one final state, or blocks in one state, or is erroneous, whatever the relative speed of the ranks and of the network and whichever messages the library buffers in time; no schedule runs for ever.", "quantifier": "all programs of all ranks, any number of ranks, all interleavings of ranks, transmissions and matches, all buffering policies", "why_tests_cant": "Schedules of a distributed program cannot be enumerated; tests run one.", "anchors": ["src/mpi/monolish_mpi.cpp", "src/mpi/send_recv.hpp", "src/mpi/isend_irecv.hpp", "src/mpi/allreduce.hpp", "src/mpi/Bcast.hpp"]}
{"id": "C67", "title": "Blocking messages arrive unaltered and in order", "statement": "comm::Send / comm::Recv transfer scalars, std::vector and monolish::vector objects: the receiver's variable becomes the sender's value, messages on one channel arrive in the order of sending, each once, and nothing else changes; a message that does not fit is an error.", "quantifier": "all programs and schedules, any number of messages, all values and lengths", "why_tests_cant": "Order and loss depend on the schedule; tests send one message.", "anchors": ["src/mpi/send_recv.hpp", "src/mpi/monolish_mpi.cpp"]}
{"id": "C68", "title": "Non-blocking messages", "statement": "After Irecv, Isend and Waitall on every rank the received variables hold the sent values, nobody is blocked, and the program may use its variables again, for scalars, std::vector and monolish::vector.", "quantifier": "all schedules, any number of ranks, any permutation of partners, all values", "why_tests_cant": "The buffers are shared with the library while the requests are outstanding: depends on timing.", "anchors": ["src/mpi/isend_irecv.hpp", "src/mpi/monolish_mpi.cpp"]}
{"id": "C69", "title": "Broadcast, all-reduce and barrier", "statement": "After Bcast every rank holds the root's value; Allreduce returns the sum (product, maximum, minimum) over all ranks on every rank; no rank leaves Barrier before all have entered it.", "quantifier": "any number of ranks, any root, all values, all schedules", "why_tests_cant": "Any number of ranks and any interleaving.", "anchors": ["src/mpi/Bcast.hpp", "src/mpi/allreduce.hpp", "src/mpi/monolish_mpi.cpp"]}
{"id": "C70", "title": "Gather and Scatter", "statement": "After Gather the root's receive vector holds the send vectors of all ranks in rank order; after Scatter every rank's receive vector holds its part of the root's vector.", "quantifier": "any number of ranks, any root, all vectors", "why_tests_cant": "Any number of ranks and sizes.", "anchors": ["src/mpi/Gather.hpp", "src/mpi/Scatter.hpp", "src/mpi/monolish_mpi.cpp"]}
{"id": "C71", "title": "Reductions of a distributed vector", "statement": "In a build with MPI, dot, nrm2, asum, nrm1 and sum called on every rank with its part of a vector return on every rank the value for the whole distributed vector.", "quantifier": "any number of ranks and any distribution, all values, all schedules and reduction orders", "why_tests_cant": "Any number of ranks, any distribution and any order of summation.", "anchors": ["src/blas/vector/dot.hpp", "src/blas/vector/nrm2.hpp", "src/blas/vector/asum.hpp", "src/blas/vector/nrm1.hpp", "src/blas/vector/sum.hpp", "src/mpi/allreduce.hpp"]}
{"id": "C72", "title": "Start-up of the communicator", "statement": "Init makes every rank ready to communicate on MPI_COMM_WORLD and leaves the variables alone; get_rank and get_size report rank and number of ranks; Initialized tells whether Init has been called; a second Init is an error.", "quantifier": "all programs, any number of ranks", "why_tests_cant": "Any state of the program before the call.", "anchors": ["src/mpi/monolish_mpi.cpp", "include/monolish/mpi/monolish_mpi_core.hpp"]}
{"id": "C73", "title": "LOBPCG reports honestly", "statement": "standard_eigen::LOBPCG without a preconditioner: SUCCESS means that every returned pair (l_i, x_i) has a residual norm |A x_i - l_i x_i| below the tolerance and that more than miniter steps were made; get_final_residual is the largest of these norms (for MAXITER too); the code, get_final_iter and the limits agree; and with A symmetric every l_i is within the tolerance of a true eigenvalue.", "quantifier": "all matrices, starting vectors, numbers of pairs, limits and tolerances; exact arithmetic; any behaviour of LAPACK (for the eigenvalue distance: LAPACK as documented)", "why_tests_cant": "Depends on all iterates of a run on any matrix.", "anchors": ["src/eigen/lobpcg_standard.cpp", "include/monolish_standard_eigen.hpp"]}
{"id": "C74", "title": "LOBPCG returns Ritz pairs from above", "statement": "With A symmetric, if LAPACK solved the small dense problem of the last step, the returned values are in ascending order, the returned vectors are orthonormal and A-orthogonal, l_i is the Rayleigh quotient of x_i, and l_i is never below the i-th smallest eigenvalue of A, whether or not the call converged.", "quantifier": "all symmetric matrices, starting vectors, numbers of pairs and limits; exact arithmetic; LAPACK as documented", "why_tests_cant": "A statement about all matrices and the whole spectrum.", "anchors": ["src/eigen/lobpcg_standard.cpp", "include/monolish_standard_eigen.hpp"]}
{"id": "C75", "title": "More LOBPCG steps never worsen a value", "statement": "Raising the iteration limit by one never increases any of the returned values l_i, if LAPACK solved the small dense problems of the last steps.", "quantifier": "all symmetric matrices, starting vectors, numbers of pairs and limits; exact arithmetic; LAPACK as documented", "why_tests_cant": "Relates two runs of any length.", "anchors": ["src/eigen/lobpcg_standard.cpp", "include/monolish_standard_eigen.hpp"]}
{"id": "C76", "title": "LOBPCG returns", "statement": "A call of LOBPCG::solve returns after finitely many steps, bounded by the iteration limit.", "quantifier": "all matrices, starting vectors, limits and behaviours of LAPACK", "why_tests_cant": "Non-termination cannot be observed by a test; depends on the starting vectors.", "anchors": ["src/eigen/lobpcg_standard.cpp", "include/monolish_standard_eigen.hpp", "src/eigen/lobpcg_generalized.cpp", "include/monolish_generalized_eigen.hpp"]}
{"id": "C77", "title": "LOBPCG notices a failed inner problem", "statement": "If LAPACK reports that the small dense eigenproblem of the last step was not solved, LOBPCG::solve does not report SUCCESS.", "quantifier": "all matrices, starting vectors and LAPACK results", "why_tests_cant": "The failure depends on the starting vectors and on LAPACK.", "anchors": ["src/eigen/lobpcg_standard.cpp", "include/monolish_standard_eigen.hpp"]}
{"id": "C78", "title": "LOBPCG with a preconditioner reports honestly", "statement": "With a preconditioner too, SUCCESS means that the residual norm |A x_i - l_i x_i| of every returned pair is below the tolerance.", "quantifier": "all matrices, preconditioners, starting vectors and tolerances; exact arithmetic", "why_tests_cant": "The gap between the two residuals depends on the matrix.", "anchors": ["src/eigen/lobpcg_standard.cpp", "include/monolish_standard_eigen.hpp", "src/equation/jacobi.cpp"]}
{"id": "C79", "title": "Generalized LOBPCG reports honestly", "statement": "generalized_eigen::LOBPCG: SUCCESS means that every returned pair has |A x_i - l_i B x_i| below the tolerance.", "quantifier": "all matrix pairs, starting vectors and tolerances; exact arithmetic", "why_tests_cant": "Must hold for every B.", "anchors": ["src/eigen/lobpcg_generalized.cpp", "include/monolish_generalized_eigen.hpp"]}
{"id": "C80", "title": "Generalized LOBPCG returns Ritz pairs from above", "statement": "With A and B symmetric, if LAPACK solved the small dense problem of the last step, the returned values are in ascending order, the vectors are A- and B-orthogonal to each other, l_i is the generalized Rayleigh quotient of x_i, and l_i is never below the i-th smallest eigenvalue of A x = lambda B x.", "quantifier": "all symmetric A, all symmetric B with a B-orthonormal eigenbasis, starting vectors, numbers of pairs and limits; exact arithmetic; LAPACK as documented", "why_tests_cant": "A statement about all matrix pairs and the whole spectrum.", "anchors": ["src/eigen/lobpcg_generalized.cpp", "include/monolish_generalized_eigen.hpp"]}
{"id": "C81", "title": "LOBPCG is memory safe and checks its arguments", "statement": "LOBPCG::solve (standard and generalized) never reads or writes out of bounds and never aborts; it throws only if the sizes of A, l and x do not fit or LAPACK reports failure, and always if the sizes do not fit; with a library number other than 0 it changes nothing.", "quantifier": "all matrices, starting vectors, numbers of pairs, limits, values and LAPACK results; exact arithmetic", "why_tests_cant": "Every execution of an iteration of unbounded length.", "anchors": ["src/eigen/lobpcg_standard.cpp", "include/monolish_standard_eigen.hpp", "src/eigen/lobpcg_generalized.cpp", "include/monolish_generalized_eigen.hpp"]}
{"id": "C82", "title": "LU solves every non-singular dense system", "statement": "equation::LU::solve(A, x, b) and solve(A, XB) on a square Dense matrix return SUCCESS exactly when A is non-singular, and then x is the unique solution of A x = b (not of A^T x = b); for a singular A they return BREAKDOWN. set_lib has no influence. A longer vector keeps its other elements. (LAPACK behaves as documented; exact arithmetic.)", "quantifier": "all orders n >= 1, all matrices and right-hand sides, any LAPACK that meets its documentation", "why_tests_cant": "The row-major to column-major detour and the two info codes must be right for every matrix and order.", "anchors": ["src/equation/lu/lu.cpp", "src/internal/lapack/getrf/dense_double_getrf.cpp", "src/internal/lapack/getrs/dense_double_getrs.cpp", "equation::LU::solve"]}
{"id": "C83", "title": "Direct solvers reject sizes that do not fit", "statement": "LU and Cholesky report an error, and touch no memory outside their arguments, when the matrix is not square or empty or the vectors do not have the matrix's size.", "quantifier": "all matrix shapes and vector lengths", "why_tests_cant": "Out-of-bounds behaviour over all shapes; the exception objects in the sources are built but never thrown.", "anchors": ["src/equation/lu/lu.cpp", "src/internal/lapack/getrf/dense_double_getrf.cpp", "src/internal/lapack/getrs/dense_double_getrs.cpp", "equation::LU::solve", "src/equation/cholesky/cholesky.cpp", "src/internal/lapack/sytrf/dense_double_sytrf.cpp", "src/internal/lapack/sytrs/dense_double_sytrs.cpp", "equation::Cholesky::solve"]}
{"id": "C84", "title": "A direct solve leaves the matrix usable", "statement": "After a direct solve A still represents the same linear system, so that a second solve with another right-hand side is right.", "quantifier": "all matrices and sequences of solves", "why_tests_cant": "A property of histories of calls.", "anchors": ["src/equation/lu/lu.cpp", "src/internal/lapack/getrf/dense_double_getrf.cpp", "src/internal/lapack/getrs/dense_double_getrs.cpp", "equation::LU::solve", "src/equation/cholesky/cholesky.cpp", "src/internal/lapack/sytrf/dense_double_sytrf.cpp", "src/internal/lapack/sytrs/dense_double_sytrs.cpp", "equation::Cholesky::solve"]}
{"id": "C85", "title": "Cholesky solves every non-singular symmetric system", "statement": "equation::Cholesky::solve on a symmetric Dense matrix, positive definite or not, returns SUCCESS exactly when A is non-singular, and then A x = b; BREAKDOWN exactly when A is singular.", "quantifier": "all orders n >= 1, symmetric matrices, right-hand sides, any LAPACK that meets its documentation", "why_tests_cant": "Must hold for all symmetric matrices, including indefinite ones.", "anchors": ["src/equation/cholesky/cholesky.cpp", "src/internal/lapack/sytrf/dense_double_sytrf.cpp", "src/internal/lapack/sytrs/dense_double_sytrs.cpp", "equation::Cholesky::solve"]}
{"id": "C86", "title": "Cholesky never reports success on a wrong answer", "statement": "If Cholesky::solve returns SUCCESS then A x = b, also when A is not symmetric.", "quantifier": "all square matrices", "why_tests_cant": "Wrong answers with a success code for arbitrary input.", "anchors": ["src/equation/cholesky/cholesky.cpp", "src/internal/lapack/sytrf/dense_double_sytrf.cpp", "src/internal/lapack/sytrs/dense_double_sytrs.cpp", "equation::Cholesky::solve"]}
{"id": "C87", "title": "Dense DC returns the complete eigendecomposition", "statement": "standard_eigen::DC::solve on a symmetric Dense matrix returns SUCCESS or BREAKDOWN; with SUCCESS lambda is ascending, row i of A is an eigenvector of the old A for lambda(i), the rows are orthonormal, every eigenvalue of A occurs in lambda, and elements of lambda behind n are untouched.", "quantifier": "all orders n >= 1, symmetric matrices, lengths of lambda >= n, any LAPACK result its documentation allows", "why_tests_cant": "All matrices; the eigenvectors come back as rows only because of the storage orders.", "anchors": ["src/eigen/DC.cpp", "src/internal/lapack/syev/dense_double_syev.cpp", "standard_eigen::DC::solve"]}
{"id": "C88", "title": "Generalized DC solves the three problem types", "statement": "generalized_eigen::DC::solve with itype 1, 2, 3 solves A z = l B z, A B z = l z, B A z = l z: with SUCCESS the rows of A are the eigenvectors, normalised by B (by its inverse for itype 3), lambda is ascending and contains every eigenvalue, and B was positive definite.", "quantifier": "all orders, symmetric matrix pairs, the three types, any LAPACK result its documentation allows", "why_tests_cant": "All matrix pairs; completeness of the spectrum.", "anchors": ["src/eigen/DC.cpp", "src/internal/lapack/sygv/dense_double_sygv.cpp", "generalized_eigen::DC::solve"]}
{"id": "C89", "title": "The DC solvers check their arguments", "statement": "DC::solve reports an error for an unknown library number or problem type, for a lambda or B that is too short, for a matrix that is not square, and for one that is not symmetric; SUCCESS means that the problem was solved.", "quantifier": "all arguments", "why_tests_cant": "Memory safety and truth of the return code over all argument shapes.", "anchors": ["src/eigen/DC.cpp", "src/internal/lapack/syev/dense_double_syev.cpp", "standard_eigen::DC::solve", "src/eigen/DC.cpp", "src/internal/lapack/sygv/dense_double_sygv.cpp", "generalized_eigen::DC::solve"]}
{"id": "C90", "title": "Elementwise functions of Dense matrices", "statement": "Every vml function of one or two Dense matrices or Dense views (arithmetic with a matrix or a scalar, pow, elementwise max/min, sqrt, the trigonometric and hyperbolic functions, ceil, floor, sign, reciprocal, alo, ...) sets C(i,j) to the named function of A(i,j) (and B(i,j) or the scalar, in that order) and writes nothing else, under every OpenMP schedule, also when C is A or B; matrices of different sizes are refused.", "quantifier": "all sizes, element values, placements of the operands (identical or disjoint), schedules, all scalar types", "why_tests_cant": "One formula per element under every distribution of the loop over threads, and every aliasing.", "anchors": ["src/vml/matrix/matrix_vml.cpp", "include/monolish/vml/monolish_dense_vml.hpp", "include/monolish/vml/monolish_crs_vml.hpp", "vml::add/sub/mul/div/pow/max/min/sin/.../alo"]}
{"id": "C91", "title": "Elementwise functions of Dense tensors", "statement": "The same for tensor_Dense and its view, for tensors of any rank.", "quantifier": "all shapes of any rank, element values, placements, schedules, scalar types", "why_tests_cant": "Any rank and shape, every schedule and aliasing.", "anchors": ["src/vml/tensor/tensor_vml.cpp", "include/monolish/vml/monolish_tensor_dense_vml.hpp", "include/monolish/vml/monolish_tensor_crs_vml.hpp", "vml::add/sub/mul/div/pow/max/min/sin/.../alo"]}
{"id": "C92", "title": "Elementwise functions of CRS matrices", "statement": "On CRS matrices of the same structure every vml function replaces each stored value by the named function of the stored values and keeps the structure, in place or not; positions that are not stored stay 0. Matrices of another structure are refused.", "quantifier": "all CRS matrices (unsorted rows, repeated and explicit zero entries included), scalars, functions", "why_tests_cant": "Holds for every sparsity pattern; the structure check differs between the overloads.", "anchors": ["src/vml/matrix/matrix_vml.cpp", "include/monolish/vml/monolish_dense_vml.hpp", "include/monolish/vml/monolish_crs_vml.hpp", "vml::add/sub/mul/div/pow/max/min/sin/.../alo"]}
{"id": "C93", "title": "Elementwise functions of tensor_CRS", "statement": "The same for tensor_CRS: every stored entry of every slice is replaced by the function of the stored entries.", "quantifier": "all tensors, shapes, structures, scalars, functions", "why_tests_cant": "Holds for every pattern in every slice.", "anchors": ["src/vml/tensor/tensor_vml.cpp", "include/monolish/vml/monolish_tensor_dense_vml.hpp", "include/monolish/vml/monolish_tensor_crs_vml.hpp", "vml::add/sub/mul/div/pow/max/min/sin/.../alo"]}
{"id": "C94", "title": "Maximum and minimum of a matrix or tensor", "statement": "vml::max(A) / vml::min(A) return an element of A that no other element exceeds / is below, for Dense matrices, tensors, views and sparse classes (for these: of the stored values), under every schedule.", "quantifier": "all sizes, element values (NaN excluded), schedules", "why_tests_cant": "The reduction must be right for every order of combination, and for all-negative or all-positive data.", "anchors": ["src/vml/matrix/matrix_vml.cpp", "include/monolish/vml/monolish_dense_vml.hpp", "include/monolish/vml/monolish_crs_vml.hpp", "vml::add/sub/mul/div/pow/max/min/sin/.../alo", "src/vml/tensor/tensor_vml.cpp", "include/monolish/vml/monolish_tensor_dense_vml.hpp", "include/monolish/vml/monolish_tensor_crs_vml.hpp", "vml::add/sub/mul/div/pow/max/min/sin/.../alo"]}
{"id": "C95", "title": "Rounding error of the reductions", "statement": "For float and double, a finite result of sum, nrm1, asum, dot or nrm2 differs from the exact real value by at most (1+u)^k - 1 (about k*u, u the unit roundoff, k the number of operations on an element) times the sum of the absolute values (plus an underflow term for products), whatever the number of threads and the order of combination; the result is finite whenever the data are and the sum of absolute values stays below the overflow threshold; two runs differ by at most twice the bound.", "quantifier": "all vectors and views of any length with any bit patterns, every distribution of the iterations over threads and every order of combining the partial results, every binary format (float and double are instances)", "why_tests_cant": "a test compares a few sums with a tolerance; the bound must hold for every data and every schedule", "anchors": ["src/blas/vector/sum.hpp", "src/blas/vector/nrm1.hpp", "src/blas/vector/asum.hpp", "src/blas/vector/dot.hpp", "src/blas/vector/nrm2.hpp"]}
{"id": "C96", "title": "Rounding error of sparse matrix-vector products", "statement": "For float and double, each finite element of the result of CRS matvec and of matvec_T differs from that of the real matrix-vector product by at most ((1+u)^k - 1) |A| |x| plus an underflow term, k the number of stored entries of that row (column); the element is finite whenever the data are and |A||x| stays below the overflow threshold.", "quantifier": "all CRS matrices, vectors, bit patterns, binary formats", "why_tests_cant": "a test uses a few matrices and one tolerance; the componentwise bound must hold for all", "anchors": ["src/blas/matrix/matvec/crs_matvec.hpp:matvec_core"]}
{"id": "C97", "title": "Integer data are computed exactly", "statement": "When all data are integers and the sums of the absolute values of the terms do not exceed 2^p (p the mantissa bits: 24 for float, 53 for double), sum, dot, CRS matvec and matvec_T return the exact integers, the same for every number of threads and every schedule.", "quantifier": "all integer data with |terms| summing to at most 2^p, every schedule", "why_tests_cant": "schedules and data cannot be enumerated", "anchors": ["src/blas/vector/sum.hpp", "src/blas/vector/dot.hpp", "src/blas/matrix/matvec/crs_matvec.hpp:matvec_core"]}
{"id": "C98", "title": "Jacobi converges on diagonally dominant systems", "statement": "In exact real arithmetic, for a strictly diagonally dominant matrix (each row: sum of the absolute values off the diagonal <= q times that on the diagonal, q < 1), a right hand side that is not zero and a positive tolerance, equation::Jacobi returns SUCCESS after finitely many iterations if the iteration limit allows, with an outcome that no longer depends on the limit; each iteration shrinks the largest error of a component by the factor q or more, and after SUCCESS the error of x is at most q/(1-q) times the reported residual.", "quantifier": "all dominant matrices of every size (Dense and CRS), start vectors, right hand sides other than 0, tolerances, iteration limits, preconditioners", "why_tests_cant": "Convergence is a statement about all iteration counts and all dominant matrices.", "anchors": ["src/equation/jacobi.cpp:monolish_Jacobi", "src/equation/sor.cpp:monolish_SOR", "include/monolish_equation.hpp"]}
{"id": "C99", "title": "SOR converges on diagonally dominant systems", "statement": "In exact real arithmetic, for a strictly diagonally dominant matrix (factor q) and a relaxation factor 0 < w < 2/(1+q), a right hand side that is not zero and a positive tolerance, equation::SOR returns SUCCESS after finitely many iterations; each iteration shrinks the largest error of a component by |1-w| + w q or more.", "quantifier": "all dominant matrices of every size (Dense and CRS), relaxation factors, start vectors, right hand sides other than 0, tolerances, limits", "why_tests_cant": "Convergence is a statement about all iteration counts, all dominant matrices and relaxation factors.", "anchors": ["src/equation/jacobi.cpp:monolish_Jacobi", "src/equation/sor.cpp:monolish_SOR", "include/monolish_equation.hpp"]}
{"id": "C100", "title": "Preconditioned CG reaches the solution within n iterations", "statement": "In exact arithmetic, for a symmetric positive definite n x n matrix, equation::CG with the Jacobi preconditioner (Dense or CRS), with the SOR preconditioner (CRS, omega > 0), or with any preconditioner that is a symmetric definite linear map returns SUCCESS after at most max(n, miniter, 1) iterations, if the iteration limit allows that many, and the residual of the x it returns is below the tolerance.", "quantifier": "all symmetric positive definite matrices of every size, start vectors, right hand sides, tolerances, limits, preconditioners of that kind, any ordered field", "why_tests_cant": "Termination within n steps is a theorem about all matrices and all start vectors; a preconditioner that is slightly wrong (not symmetric) still converges on small tests.", "anchors": ["src/equation/cg.cpp:monolish_CG", "src/equation/jacobi.cpp:create_precond/apply_precond", "src/equation/sor.cpp:create_precond/apply_precond", "src/equation/kernel/sor_kernel.hpp:sor_kernel_precond"]}
{"id": "C101", "title": "Dense::operator== is equality of matrices", "statement": "A == B is true exactly if both Dense matrices have the same number of rows and columns and equal elements at every position; A != B is its negation; the comparison reads no element outside the matrices.", "quantifier": "all Dense matrices of all sizes and contents, with any offset", "why_tests_cant": "Equality must hold for every pair of matrices; tests compare a handful.", "anchors": ["src/utils/compare/compare_dense.cpp:Dense::equal", "src/utils/compare/compare_dense.cpp:operator==", "src/utils/compare/compare_dense.cpp:operator!="]}
{"id": "C102", "title": "Tensors built from arrays or from other objects hold exactly what was given", "statement": "tensor_COO(shape, index, value) has the given entries in the given order; tensor_Dense built or converted from a Dense matrix or another tensor_Dense has its elements; tensor_CRS built from arrays, or assigned with set_ptr, has exactly the rows the arrays describe; arrays of inconsistent lengths are refused.", "quantifier": "all shapes, ranks, arrays, source objects", "why_tests_cant": "A constructor is tested on one shape; the claim is about all ranks and array lengths.", "anchors": ["src/utils/tensor_coo_constructor.cpp:tensor_COO", "src/utils/tensor_crs_constructor.cpp:tensor_CRS", "src/utils/convert/convert_tensor_dense.cpp:tensor_Dense::convert", "src/utils/copy/copy_tensor_crs.cpp:set_ptr"]}
{"id": "C103", "title": "view_Dense and view_tensor_Dense are windows onto their target", "statement": "view_Dense(x, start, row, col): at(i,j), operator[](i*col+j) and a matrix that is assigned from the view see element start + i*col + j of x; insert, operator[] on the left, fill and operator= change exactly the elements they name and nothing else of x; indices outside the view are refused; resize keeps the start and refuses what does not fit; a view of a view adds the starts; end() - begin() = size(). The same for view_tensor_Dense with row-major positions of any rank. Any program of such calls acts as on a matrix of its own.", "quantifier": "all targets (vector, Dense, tensor_Dense, views), starts, sizes, shapes, indices, values, programs", "why_tests_cant": "The mapping must hold for every window and index and for every sequence of calls; tests use start 0 or one window.", "anchors": ["include/monolish/common/monolish_view_dense.hpp", "include/monolish/common/monolish_view_tensor_dense.hpp", "src/utils/fill/fill_view_dense.cpp", "src/utils/fill/fill_view_tensor_dense.cpp", "src/utils/copy/copy_view_dense.cpp", "src/utils/copy/copy_view_tensor_dense.cpp"]}
{"id": "C104", "title": "print_all prints exactly the elements of the object", "statement": "print_all of vector, view1D, Dense, view_Dense, COO, CRS, tensor_Dense, view_tensor_Dense, tensor_COO and tensor_CRS prints one line per element (dense classes: all elements in row-major order; sparse classes: the stored entries in storage order): its indices counted from 1, then the value of that very element; nothing is omitted, repeated or read from outside the object, also for windows into another object's buffer.", "quantifier": "all objects, sizes, shapes, ranks, stored structures, values", "why_tests_cant": "One line per element in order for every shape, rank and structure; tests print a few fixed objects.", "anchors": ["src/utils/IO/IO_vector.cpp", "src/utils/IO/IO_view1D.cpp", "src/utils/IO/IO_dense.cpp", "src/utils/IO/IO_view_dense.cpp", "src/utils/IO/IO_coo.cpp", "src/utils/IO/IO_crs.cpp", "src/utils/IO/IO_tensor_dense.cpp", "src/utils/IO/IO_view_tensor_dense.cpp", "src/utils/IO/IO_tensor_coo.cpp", "src/utils/IO/IO_tensor_crs.cpp"]}
{"id": "C105", "title": "MatrixMarket files are read whatever their layout", "statement": "Reading a MatrixMarket file whose first line has the five banner words, followed by any comment lines, a line with the three sizes and one line per entry, gives exactly the stated sizes and entries in order: whatever white space separates the fields (blanks, tabs, carriage returns of CR LF files), with leading zeros or plus signs in the numbers, with text behind the fields, with more text behind the last entry, and with or without a newline at the end of the file. Numbers that do not fit are rejected.", "quantifier": "all files of that form (texts of any length), all sizes, entries, comments, white space", "why_tests_cant": "The file is an arbitrary string; tests read a few fixed files.", "anchors": ["src/utils/IO/IO_coo.cpp", "include/monolish/common/monolish_coo.hpp"]}
{"id": "C106", "title": "Creating, assigning and negating a vector", "statement": "vector(N, value), vector(start, end), vector(N, min, max[, seed]) and random_vector hold exactly the N elements they name (the random ones N successive results of the generator, inside [min, max]; the same seed gives the same vector) and touch nothing else; assigning a std::vector makes the vector hold it; -x holds the negatives bit for bit and leaves x alone; vml::sin ... vml::exp and vml::pow store the function of each element, under every schedule.", "quantifier": "all sizes, values, memories, generators, element values (NaN, infinities included), all schedules, vectors with and without an own buffer", "why_tests_cant": "All sizes, generators, bit patterns and schedules; and the failure needs a vector that came from move().", "anchors": ["src/utils/vector_constructor.cpp", "src/utils/copy/copy_vector.cpp", "src/utils/minus/vector_minus.cpp", "src/vml/vector/math_2op/vecsin.hpp", "src/vml/vector/math_1_3op/vecpow.hpp"]}
{"id": "C107", "title": "Setting, filling, assigning and comparing sparse objects", "statement": "set_ptr makes a COO, CRS or tensor_COO hold exactly the given entries in the given order, whatever it held before; fill(v) changes every stored value to v and nothing else; copies and (object, value) copies hold the same positions; A = B leaves A holding B's entries or stops the program; == is true exactly when shape, positions and values agree; is_same_structure exactly when shape and positions agree.", "quantifier": "all matrices and tensors, previous contents, index arrays, values, lengths", "why_tests_cant": "All contents and previous states; the failures need objects with different numbers of entries, equal sizes but different patterns, or an offset.", "anchors": ["src/utils/copy/copy_coo.cpp", "src/utils/copy/copy_crs.cpp", "src/utils/copy/copy_tensor_coo.cpp", "src/utils/fill/fill_coo.cpp", "src/utils/fill/fill_crs.cpp", "src/utils/fill/fill_tensor_coo.cpp", "src/utils/compare/compare_tensor_coo.cpp", "src/utils/tensor_coo_constructor.cpp"]}
{"id": "C108", "title": "Constructors hold exactly what they are given", "statement": "Dense(M,N,array / vector / list / value / min,max), Dense(mat,value), COO(..., origin), CRS(M,N,NNZ), CRS(M,N,NNZ,arrays[,origin]), CRS(M,N,vectors), tensor_Dense(shape,min,max), tensor_Dense(tens,value) and tensor_Dense::convert(vector) give an object of the stated dimensions whose elements are exactly the given ones (row-major; zero where a list is too short; shifted by the origin), in its own buffer.", "quantifier": "all dimensions, arrays, lists, vectors with and without an offset, origins, generators", "why_tests_cant": "All sizes and contents; the failures need arguments that are too short or too long, or a vector with an offset.", "anchors": ["src/utils/dense_constructor.cpp", "src/utils/coo_constructor.cpp", "src/utils/crs_constructor.cpp", "src/utils/tensor_dense_constructor.cpp", "src/utils/convert/convert_tensor_dense.cpp"]}
{"id": "C109", "title": "Rounding error of element-wise operations and of the CRS-Dense product", "statement": "In float and double, every finite element computed by vector add, sub, times, div (vector-vector and vector-scalar), scal, sqrt, axpy, xpay and axpyz is within one (axpy family: one rounding of the first and two of the product term) rounding of the exact result of its inputs, whatever the thread schedule; every finite element of a*A*B + b*C for a CRS matrix A with k stored entries in the row is within ((1+u)^(k+2)-1)*(|a||A||B| + |b||C|) plus an explicit underflow term of the exact value, with and without AVX, so the two builds agree up to these bounds. Finite inputs that stay below the overflow threshold give finite results, and a finite result means that the inputs were finite.", "quantifier": "all lengths and matrices, all finite/infinite/NaN data of every IEEE format (binary32, binary64), all schedules, both builds", "why_tests_cant": "rounding errors depend on the data; the bound is over all of the 2^64 values per element and all shapes, tests compare with a tolerance on random data", "anchors": ["src/blas/vector/axpy.hpp: Daxpy_core, Saxpy_core", "src/blas/vector/xpay.hpp", "src/blas/vector/axpyz.hpp", "src/blas/vector/scal.hpp", "src/vml/vector/vector_vml.cpp: add, sub, mul, div, sqrt", "src/blas/matrix/matmul/crs-dense_matmul.hpp: CRS_Dense_Dmatmul_core, CRS_Dense_Smatmul_core"]}
{"id": "C110", "title": "Sizes beyond the range of int", "statement": "The results of the vector operations (axpy, scal, copy, copy construction, assignment, dot, asum, nrm2) and of the CRS-Dense product do not depend on the sizes of the objects fitting a 32-bit int: for every length and every shape whose objects exist, the documented result is computed.", "quantifier": "all vector lengths (below, at and above 2^31 and 2^32), all CRS and Dense shapes, all builds (scalar, AVX double, AVX float), all data, all thread schedules", "why_tests_cant": "an object with 2^31 elements needs 8 to 16 GiB, so no unit test reaches the boundary, and the claim ranges over all lengths", "anchors": ["src/blas/vector/axpy.hpp: Daxpy_core", "src/blas/vector/scal.hpp", "src/blas/vector/dot.hpp", "src/blas/vector/asum.hpp", "src/blas/vector/nrm2.hpp", "src/internal/arithmetic/double_arithmetic.cpp: vcopy", "src/utils/vector_constructor.cpp", "src/blas/matrix/matmul/crs-dense_matmul.hpp: CRS_Dense_Dmatmul_core, CRS_Dense_Smatmul_core"]}
{"id": "C111", "title": "Sparse products of the MKL and NVIDIA builds", "statement": "The products of a CRS matrix with a vector (plain, transposed, scaled) and with a Dense matrix give the same result in the plain, MKL and NVIDIA builds, for every CRS object that the plain build accepts, and release every library object they create.", "quantifier": "all CRS matrices (including those converted from COO), all vectors, all scalar factors, all call sequences, three builds", "why_tests_cant": "the vendor builds need other hardware and libraries than the plain one, so a test run sees one build only; the claim compares builds on all matrices", "anchors": ["src/blas/matrix/matvec/crs_matvec.hpp: Dmatvec_core, Smatvec_core", "src/blas/matrix/matmul/crs-dense_matmul.hpp: CRS_Dense_Dmatmul_core, CRS_Dense_Smatmul_core"]}
{"id": "C112", "title": "Calls whose result is also an operand", "statement": "A call whose result object is, or overlaps, one of its operands - matvec(A,x,x), matvec_T(A,x,x), matmul(A,B,B), A.transpose(A), products on overlapping windows of one vector - either gives the result of the same call with separate objects, or is rejected.", "quantifier": "all CRS matrices, all vectors and windows (overlapping in any way), all Dense matrices, all COO matrices, all distributions of the loop iterations over threads and all interleavings", "why_tests_cant": "the outcome depends on how the arguments share memory and on the thread schedule; a test that always passes separate objects never sees it", "anchors": ["src/blas/matrix/matvec/crs_matvec.hpp: Dmatvec_core, Smatvec_core", "src/blas/matrix/matmul/crs-dense_matmul.hpp: CRS_Dense_Dmatmul_core", "src/utils/transpose/transpose_crs.cpp: CRS::transpose(const CRS&)", "src/utils/transpose/transpose_dense.cpp: Dense::transpose(const Dense&)", "src/utils/transpose/transpose_coo.cpp: COO::transpose(const COO&)"]}
{"id": "C113", "title": "The MPI life cycle, in every build", "statement": "Init() starts MPI once and Finalize() ends it once; in between get_rank(), get_size() and Barrier() refer to MPI_COMM_WORLD or to the communicator set last; Initialized() tells whether Init() was called; without MPI the calls do nothing and the process is rank 0 of 1. None of this depends on whether the library was compiled with assertions (NDEBUG).", "quantifier": "all sequences of calls of Init, Initialized, Finalize, get_rank, get_size, get_comm, set_comm and Barrier of any length, all communicators, builds with and without MPI, with and without assertions", "why_tests_cant": "a test runs in one build, makes one Init/Finalize pair and never the other orders; the dependence on NDEBUG is invisible in a debug build", "anchors": ["src/mpi/monolish_mpi.cpp: comm::Init, comm::Initialized, comm::Finalize, comm::get_rank, comm::get_size, comm::Barrier, comm::set_comm", "include/monolish/mpi/monolish_mpi_core.hpp: comm"]}
{"id": "C114", "title": "SOR converges on symmetric positive semidefinite systems", "statement": "In exact arithmetic, for a symmetric positive semidefinite matrix with positive diagonal (Dense, or CRS with sorted rows and no duplicates), a consistent right-hand side that is not zero, any start vector and any relaxation factor strictly between 0 and 2, SOR returns MONOLISH_SOLVER_SUCCESS for every tolerance > 0 once maxiter is large enough, with one and the same outcome for all such limits; the energy norm of the error never grows, whatever the outcome; with factor 2 it stays exactly the same.", "quantifier": "all dimensions, matrices, right-hand sides, start vectors, tolerances, minimum and maximum iteration counts, relaxation factors in (0,2)", "why_tests_cant": "a test runs a few matrices; the theorem of Ostrowski and Reich, and that the program stops, must hold for every one", "anchors": ["src/equation/sor.cpp: SOR::monolish_SOR, SOR::solve", "src/equation/kernel/sor_kernel.hpp"]}
{"id": "C115", "title": "A larger iteration limit never gives a worse answer (CG, SOR)", "statement": "In exact arithmetic, for a symmetric positive semidefinite matrix and a consistent system: CG with any preconditioner whatever, and SOR with relaxation factor in (0,2] and positive diagonal, run with limit m2 >= m1 end with a vector whose error in the energy norm is not larger than that of the run with m1, and never larger than that of the start vector - whatever the return codes, tolerance and minimum iteration count. Without a preconditioner one CG iteration is strictly better than the start unless the start solves the system.", "quantifier": "all dimensions, matrices, right-hand sides, start vectors, preconditioners (also useless ones), tolerances, pairs of limits", "why_tests_cant": "compares all pairs of limits and all preconditioners; a test compares a few runs", "anchors": ["src/equation/cg.cpp: CG::monolish_CG, CG::solve", "src/equation/sor.cpp: SOR::monolish_SOR, SOR::solve"]}
{"id": "C116", "title": "Jacobi converges on symmetric systems whose matrix A and 2D-A are positive (semi)definite", "statement": "For a symmetric positive semidefinite A with nonzero diagonal D, 2D-A positive definite, and a consistent system with b different from zero, Jacobi::solve returns SUCCESS with one and the same outcome for every maxiter from some number on, for every starting x, every positive tolerance, every minimum iteration count and every preconditioner that completes, in Dense and CRS format and in exact real arithmetic, also when A is not diagonally dominant. Whatever the outcome, the error in the energy norm is never larger than at the start (2D-A semidefinite suffices). Positive definiteness of A alone is not enough: on a concrete symmetric positive definite 3x3 matrix the solver reports MAXITER for every limit.", "quantifier": "all n, matrices, right hand sides, starting vectors, tolerances, iteration limits and minimum iteration counts", "why_tests_cant": "convergence is a statement about all iteration limits and all matrices of a class; a test runs one matrix with one limit", "anchors": ["src/equation/jacobi.cpp: monolish_Jacobi, Jacobi::solve", "include/monolish/monolish_equation.hpp: Jacobi"]}
{"id": "C117", "title": "The printed residual history is accurate", "statement": "With print_rhistory on, a solve of CG, BiCGSTAB, Jacobi or SOR prints lines numbered 1, 2, 3, ... without gaps; their number agrees with get_final_iter (SUCCESS, NAN: final_iter lines; MAXITER: maxiter lines; BREAKDOWN: one less than final_iter); no line but the last meets the stopping test, and the last one does exactly when the code says so. Printing changes nothing else; with the flag off, or with a library number other than 0, nothing is printed. A run with a smaller iteration limit prints a beginning of the history of a run with a larger one. The value of line k is the residual of the k-th iterate, and the last line is what get_final_residual reports.", "quantifier": "all matrices, preconditioners (also failing ones), vectors, tolerances, limits, miniter, arithmetic (also floating point; the meaning of the values in exact arithmetic)", "why_tests_cant": "relates whole histories of all runs and all pairs of limits; a test prints one run and nobody compares it", "anchors": ["src/equation/cg.cpp: CG::monolish_CG", "src/equation/bicgstab.cpp: BiCGSTAB::monolish_BiCGSTAB", "src/equation/jacobi.cpp: Jacobi::monolish_Jacobi", "src/equation/sor.cpp: SOR::monolish_SOR", "include/monolish_solver.hpp: set_print_rhistory, get_final_residual"]}
{"id": "C118", "title": "The residual history goes where it was asked to go, and its output streams are handled safely", "statement": "After set_print_rhistory(true) the history of every later solve of that solver object goes to standard output, or to the file given to set_rhistory_filename, and nowhere else; a solve of an object whose flag is off prints nothing. For every program - any number of solver objects, the setters called in any order and any number of times, failing file names, copies, destruction in any order - no stream is used uninitialised, after deletion or deleted twice, and every stream is closed when its solver is destroyed.", "quantifier": "all programs (finite sequences of constructions, setter calls, solves, copies, assignments and destructions) over any number of solver objects", "why_tests_cant": "object lifetimes and call orders form an unbounded set of histories; leaks and double deletions show only in particular orders", "anchors": ["include/monolish_solver.hpp: solver, ~solver, set_print_rhistory, set_rhistory_filename", "src/equation/cg.cpp: CG::monolish_CG"]}
{"id": "C119", "title": "A preconditioner object may be reused and shared: every solve uses it for its own matrix", "statement": "After set_create_precond(p) and set_apply_precond(p) with the same living object p, solve(A, x, b) gives the result of the method preconditioned by p's class made for the present contents of A and the present parameters - whatever p was used for before: solves of this or other solvers, with other matrices of other sizes, direct create_precond calls, matrices changed or destroyed since, solver objects copied. A solver that was never bound runs unpreconditioned. A preconditioner created by hand keeps its matrix's data until it is created again. Binding only one of the two functions, binding them to two objects, or letting p end before the solver, should not silently give something else.", "quantifier": "all histories of operations (construction, parameter setting, binding, solving, direct create/apply calls, copying, destruction, creation, change and destruction of matrices) on any number of solver, preconditioner and matrix objects; all CRS and Dense matrices", "why_tests_cant": "a test binds one fresh preconditioner and solves once; the property is about every history of shared, stale and destroyed objects before the solve", "anchors": ["src/equation/precond.cpp: solver::set_create_precond, set_apply_precond", "include/monolish_solver.hpp: class precondition", "src/equation/jacobi.cpp: Jacobi::create_precond, apply_precond", "src/equation/sor.cpp: SOR::create_precond, apply_precond", "src/equation/none.cpp: none::create_precond, apply_precond", "src/utils/getvec/crs_getvec.cpp: CRS::diag", "src/utils/getvec/dense_getvec.cpp: Dense::diag"]}
{"id": "C120", "title": "Storage lives as long as somebody holds it, and views show their target while it stays in place", "statement": "The storage of vectors and tensors is freed exactly when the last object holding it (through move) is destroyed or reallocates, never earlier; so every in-range call on a living object is defined, whatever it shares storage with and in whatever order others are destroyed, resized or grown. A view shows its target and writes to it as long as the target's storage stays in place; two objects sharing storage by move show each other's writes until one of them reallocates. A view should never silently stop being a view of its target, and sharing should never silently end or overwrite elements.", "quantifier": "all histories of construction, copying, assignment, move-sharing, resize, push_back, element access, destruction, view creation, resize, fill and access on any number of vectors and one-dimensional tensors", "why_tests_cant": "tests use one view of one vector right after making it; the property is about every interleaving of destruction, growth and sharing", "anchors": ["include/monolish/common/monolish_view1D.hpp: view1D constructors, resize, operator[]", "src/utils/fill/fill_view1D.cpp: view1D::fill", "src/utils/copy/copy_vector.cpp: vector::operator=", "include/monolish/common/monolish_vector.hpp: resize, push_back, operator[]", "include/monolish/common/monolish_tensor_dense.hpp: resize, operator[]", "src/utils/move/move_vector.cpp: vector::move", "src/utils/move/move_tensor_dense.cpp: tensor_Dense::move"]}
