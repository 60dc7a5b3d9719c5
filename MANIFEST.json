{
 "claims": [
  {
   "property": "C01",
   "status": "proved",
   "theorems": [
    "C01_coo_insert_at",
    "C01_last_wins_spec"
   ],
   "note": "For every sequence of in-range inserts, any scalar type."
  },
  {
   "property": "C02",
   "status": "partial",
   "theorems": [
    "C02_coo_insert_bounds_refuted",
    "C02_coo_insert_bounds_partial"
   ],
   "note": "FALSE of the code: asserts use <= (at_insert_sort_coo.cpp:30-51), so i==M / j==N is accepted. Proved: strictly larger positions abort."
  },
  {
   "property": "C03",
   "status": "proved",
   "theorems": [
    "C03_coo_sort"
   ],
   "note": "Termination, no out-of-range access, permutation and order, for every COO object."
  },
  {
   "property": "C04",
   "status": "partial",
   "theorems": [
    "C04_coo_sort_merge_refuted",
    "C04_coo_sort_merge_empty_refuted",
    "C04_coo_sort_merge_partial"
   ],
   "note": "FALSE of the code: unstable quicksort loses last-wins for repeated positions, and an empty matrix gets nnz=1. Proved: everything else, and at() unchanged when repeated positions carry equal values."
  },
  {
   "property": "C05",
   "status": "proved",
   "theorems": [
    "C05_coo_transpose",
    "C05_coo_transpose_from",
    "C05_coo_transpose_alias_refuted"
   ],
   "note": "In place and from a distinct object; for A.transpose(A) (aliasing) the refutation theorem shows it is false."
  },
  {
   "property": "C06",
   "status": "proved",
   "theorems": [
    "C06_coo_row_col_diag"
   ],
   "note": ""
  },
  {
   "property": "C07",
   "status": "proved",
   "theorems": [
    "C07_dense_of_coo",
    "C07_coo_of_dense",
    "C07_dense_coo_dense",
    "C07_dense_copy"
   ],
   "note": "Target Dense must not be a view at non-zero offset."
  },
  {
   "property": "C08",
   "status": "partial",
   "theorems": [
    "C08_coo_crs_coo",
    "C08_crs_to_coo",
    "C08_coo_crs_reuse_refuted"
   ],
   "note": "Fully proved for a newly constructed CRS object (incl. CRS(COO)), any empty rows; FALSE of the code when the CRS object was used before (stale row_ptr)."
  },
  {
   "property": "C09",
   "status": "partial",
   "theorems": [
    "C09_crs_valid_refuted",
    "C09_crs_valid_partial"
   ],
   "note": "FALSE of the code for empty last rows and for re-used objects with an empty first row. Proved in all other cases."
  },
  {
   "property": "C10",
   "status": "partial",
   "theorems": [
    "C10_coo_equal_refuted",
    "C10_coo_equal_oob_refuted",
    "C10_coo_equal_partial",
    "C10_crs_equal_oob_refuted",
    "C10_crs_equal_refuted",
    "C10_crs_equal_partial"
   ],
   "note": "FALSE of the code: COO for different nnz; CRS compares nnz elements of row_ptr (overrun or missed tail)."
  },
  {
   "property": "C100",
   "status": "proved",
   "theorems": [
    "C100_pcg_terminates",
    "C100_jacobi",
    "C100_sor",
    "C100_example"
   ],
   "note": "Exact arithmetic in an ordered field (reals, rationals). SOR preconditioner on Dense matrices: see C36_sor_precond_dense_refuted (reads out of bounds)."
  },
  {
   "property": "C101",
   "status": "partial",
   "theorems": [
    "C101_dense_equal_partial",
    "C101_window_refuted"
   ],
   "note": "FALSE of the code for matrices at a non-zero offset: the offsets themselves are compared, and the elements are read from the start of the buffer."
  },
  {
   "property": "C102",
   "status": "partial",
   "theorems": [
    "C102_coo_of_arrays",
    "C102_dense_convert_partial",
    "C102_dense_of_matrix_partial",
    "C102_crs_of_arrays",
    "C102_crs_set_ptr",
    "C102_convert_window_refuted"
   ],
   "note": "FALSE of the code: converting a window copies the start of its buffer. Everything else proved."
  },
  {
   "property": "C103",
   "status": "partial",
   "theorems": [
    "C103_at",
    "C103_insert",
    "C103_checked",
    "C103_index_partial",
    "C103_fill_partial",
    "C103_assign_dense_partial",
    "C103_assign_view_partial",
    "C103_resize",
    "C103_history_partial",
    "C103_tensor_at",
    "C103_tensor_insert",
    "C103_tensor_rank",
    "C103_tensor_fill_partial",
    "C103_tensor_index_partial",
    "C103_tensor_assign_partial",
    "C103_tensor_assign_view_partial",
    "C103_tensor_resize",
    "C103_nested_index",
    "C103_nested_at_partial",
    "C103_bounds_refuted",
    "C103_tensor_bounds_refuted",
    "C103_window_refuted",
    "C103_offset_refuted",
    "C103_nested_refuted",
    "C103_end_refuted",
    "C103_set_first_refuted",
    "C103_set_last_refuted",
    "C103_set_last",
    "C103_nested_insert_partial",
    "C103_nested_insert_refuted"
   ],
   "note": "Proved for views with a window inside a target that owns its whole buffer. FALSE of the code: indices are not checked against the view; the constructor accepts any window; targets that are windows themselves; at() of a view of a view; end(); set_first / set_last. Assignment between overlapping windows of one object is not modelled."
  },
  {
   "property": "C104",
   "status": "partial",
   "theorems": [
    "C104_positions",
    "C104_vector_partial",
    "C104_view1D",
    "C104_dense_partial",
    "C104_view_dense_partial",
    "C104_coo",
    "C104_crs_partial",
    "C104_tensor_dense_partial",
    "C104_view_tensor_partial",
    "C104_tensor_coo",
    "C104_tensor_crs",
    "C104_window_refuted",
    "C104_coo_limit_refuted"
   ],
   "note": "Proved for every object whose elements start at the start of its buffer (tensor_CRS: any). FALSE of the code for Dense, CRS and tensor_Dense objects that are windows with an offset: they print other elements of the buffer. COO: an entry in row or column 2^31-1 overflows (the position is an int, printed plus 1). The number format, files and devices are not modelled."
  },
  {
   "property": "C105",
   "status": "partial",
   "theorems": [
    "C105_layout",
    "C105_double_stops",
    "C105_float_stops",
    "C105_double_values",
    "C105_overflow_refuted"
   ],
   "note": "Proved for every file of the stated form (character level; float and double scanners modelled). FALSE of the code: an index that does not fit a size_t is not rejected, uninitialised variables are used."
  },
  {
   "property": "C106",
   "status": "partial",
   "theorems": [
    "C106_filled",
    "C106_range",
    "C106_minus",
    "C106_minus_exact",
    "C106_minus_ieee",
    "C106_random",
    "C106_random_vector",
    "C106_draws_in",
    "C106_random_float",
    "C106_random_float_refuted",
    "C106_assign_list_partial",
    "C106_assign_list_refuted",
    "C106_functions",
    "C106_pow",
    "C106_sizes",
    "C106_example"
   ],
   "note": "FALSE of the code: assigning a std::vector to a vector that was moved from a window with a non-zero start overruns the new buffer (the old start is kept). A random float may equal max (the doubles are below max; rounding). Everything else proved; the mt19937 generator and libm are parameters."
  },
  {
   "property": "C107",
   "status": "partial",
   "theorems": [
    "C107_coo_set_ptr",
    "C107_coo_set_ptr_value",
    "C107_coo_set_ptr_not_owned",
    "C107_coo_fill",
    "C107_coo_copy_value",
    "C107_coo_assign_partial",
    "C107_coo_assign_refuted",
    "C107_coo_assign_reads_outside",
    "C107_crs_set_ptr",
    "C107_crs_set_ptr_value",
    "C107_crs_fill_partial",
    "C107_crs_fill_refuted",
    "C107_crs_assign_partial",
    "C107_crs_assign_refuted",
    "C107_tensor_set_ptr",
    "C107_tensor_set_ptr_value",
    "C107_tensor_fill",
    "C107_tensor_copy",
    "C107_tensor_copy_value",
    "C107_tensor_equal_partial",
    "C107_tensor_equal_refuted",
    "C107_tensor_equal_reads_outside",
    "C107_tensor_structure_partial",
    "C107_tensor_structure_refuted",
    "C107_tensor_size",
    "C107_coo_size"
   ],
   "note": "FALSE of the code: COO = COO with more entries silently drops them (fewer: reads outside); CRS = CRS with another pattern of the same sizes copies the values only; CRS fill ignores the offset; tensor_COO == is true when the right side has extra entries (fewer: reads outside); is_same_structure ignores trailing coordinates. The partial theorems cover everything else. tensor_COO operator= is never instantiated in the library and not modelled."
  },
  {
   "property": "C108",
   "status": "partial",
   "theorems": [
    "C108_dense_array",
    "C108_dense_list",
    "C108_dense_vector",
    "C108_dense_random",
    "C108_dense_value",
    "C108_dense_copy_value",
    "C108_coo_origin",
    "C108_crs_arrays",
    "C108_crs_vectors_partial",
    "C108_crs_vector_refuted",
    "C108_crs_origin",
    "C108_crs_origin_rowptr_refuted",
    "C108_crs_short_refuted",
    "C108_dense_vector_short_refuted",
    "C108_crs_sized",
    "C108_tensor_random",
    "C108_tensor_copy_value",
    "C108_convert_vector_partial",
    "C108_convert_vector_refuted"
   ],
   "note": "FALSE of the code: Dense(M,N,list) longer than M*N overruns the buffer (second half of C108_dense_list); too short vectors are read past their end; a vector with an offset gives wrong values in CRS(...) and tensor_Dense::convert. CRS(...,origin) shifts only the columns (as its header says), so 1-based row pointers give another matrix. The rest proved. Random generators are parameters."
  },
  {
   "property": "C109",
   "status": "proved",
   "theorems": [
    "C109_add_sub_mul",
    "C109_div",
    "C109_scalar",
    "C109_axpy",
    "C109_axpyz",
    "C109_sqrt",
    "C109_crs_dense",
    "C109_crs_dense_avx",
    "C109_builds_agree"
   ],
   "note": "For every format (prec, emax); the arithmetic is the standard library's SpecFloat related to the reals through Flocq. Assumes that the compiler does not contract a*b+c into a fused multiply-add (DESIGN, trusted base 5)."
  },
  {
   "property": "C11",
   "status": "proved",
   "theorems": [
    "C11_crs_matvec",
    "C11_crs_matvec_exact",
    "C11_crs_matvec_sizes"
   ],
   "note": "Bit-exact for any scalar type; exact-arithmetic corollary."
  },
  {
   "property": "C110",
   "status": "partial",
   "theorems": [
    "C110_reached",
    "C110_small",
    "C110_blas1_partial",
    "C110_reductions_partial",
    "C110_copies_partial",
    "C110_large_partial",
    "C110_large_refuted",
    "C110_matmul_scalar_partial",
    "C110_matmul_avx_partial",
    "C110_matmul_refuted"
   ],
   "note": "FALSE of the code with an LP64 CBLAS: sizes are narrowed to int. Proved: for lengths that fit an int the calls are exactly those of C25/C26/C45 (C110_small); for every length, how many elements are processed (n mod 2^32 if below 2^31, else none) and that the rest is left untouched (a copy-constructed vector has zeros there); the scalar CRS-Dense product is defined exactly when all its int subscripts are in range, and then equals C18; the AVX builds equal C18 in range and are undefined for 2^31 elements of C or an entry whose row of B starts at 2^31. Refuted by vectors of 2^31 ones (dot product 0, copy all zeros) and by a 1 x 32769 CRS times a 32769 x 65536 Dense. cblas by the reference implementation (length <= 0: nothing). Missing: gemv/gemm narrowing, CRS row_ptr beyond 2^31 entries."
  },
  {
   "property": "C111",
   "status": "partial",
   "theorems": [
    "C111_matvec",
    "C111_same_matvec",
    "C111_sizes",
    "C111_matmul",
    "C111_scaled_matvec_refuted",
    "C111_from_coo_refuted",
    "C111_handles_refuted"
   ],
   "note": "Vendor libraries by their documented contract, exact arithmetic. Proved for every valid CRS: matvec, matvec_T and matmul agree with the plain build; the vendor matvec(a,A,x,b,y) is a*A*x + b*y. FALSE: the plain build ignores a and b, so the builds disagree; a CRS converted from a COO with an empty last row (which the plain build multiplies correctly) violates the libraries' precondition; every call leaves one library handle (MKL sparse matrix, cuSPARSE handle) alive, n calls leave n. Rounding differences between builds are not modelled."
  },
  {
   "property": "C112",
   "status": "partial",
   "theorems": [
    "C112_matvec_no_conflict",
    "C112_sizes",
    "C112_matvec_apart",
    "C112_matmul_apart",
    "C112_crs_self_dims_refuted",
    "C112_matvec_diagonal",
    "C112_matvec_in_place_partial",
    "C112_matvec_upper",
    "C112_matvec_T_zero",
    "C112_matmul_in_place_partial",
    "C112_dense_transpose_self_partial",
    "C112_dense_self_dims_refuted",
    "C112_coo_transpose_self_partial",
    "C112_matvec_refuted",
    "C112_matmul_refuted",
    "C112_matvec_T_refuted",
    "C112_crs_transpose_refuted"
   ],
   "note": "FALSE of the code: no call checks for it. Proved: matvec is the product under every schedule whenever no row reads an element that another row writes (so for separate objects, for diagonal A in place, for harmless overlaps); exactly what in-place calls compute: matvec sweeps (row i sees new elements before i), hence correct for upper triangular A with one thread; matvec_T gives the zero vector; CRS-Dense matmul (no AVX) sweeps every column, the same under every schedule; Dense A.transpose(A) mirrors the lower triangle (square) or has wrong dimensions; COO A.transpose(A) is zero off the diagonal. Refuted: the exchange matrix gives (20,20) or (10,10) depending on the schedule instead of (20,10); CRS A.transpose(A) loses elements. Not modelled: BLAS gemv/gemm with overlapping arguments (outside the BLAS contract), AVX and vendor builds. Element-wise calls with equal arguments: C25, C47, C56."
  },
  {
   "property": "C113",
   "status": "partial",
   "theorems": [
    "C113_once",
    "C113_rank",
    "C113_outside",
    "C113_initialized_refuted",
    "C113_serial",
    "C113_ndebug_refuted",
    "C113_external"
   ],
   "note": "FALSE of the code: in builds without assertions MPI_Init, MPI_Finalize and MPI_Initialized, which stand inside assert(..), are not called at all, so rank, size and Barrier fail after every history and Initialized() reads an unwritten variable; with assertions Initialized() always answers the opposite. Everything else is proved for all histories. Communication between processes is in C66-C72; Finalize with pending communication is not modelled."
  },
  {
   "property": "C114",
   "status": "proved",
   "theorems": [
    "C114_sor_converges",
    "C114_energy",
    "C114_two",
    "C114_sor_dense",
    "C114_sor_crs",
    "C114_example"
   ],
   "note": "Exact real arithmetic (Rscalar); rounding is not covered. Without a preconditioner. Unsorted CRS rows: see C36_sor_lower_unsorted_refuted; b = 0 in double precision: see C98_zero_rhs."
  },
  {
   "property": "C115",
   "status": "proved",
   "theorems": [
    "C115_cg",
    "C115_cg_strict",
    "C115_sor",
    "C115_example"
   ],
   "note": "Exact real arithmetic (Rscalar); rounding is not covered."
  },
  {
   "property": "C116",
   "status": "proved",
   "theorems": [
    "C116_jacobi_converges",
    "C116_energy",
    "C116_jacobi_dense",
    "C116_jacobi_crs",
    "C116_example",
    "C116_condition_needed"
   ],
   "note": "Real arithmetic (no rounding); the CPU library setting 0 and residual method 0. C116_condition_needed shows that the condition on 2D-A is not vacuous caution: it diverges on an SPD matrix."
  },
  {
   "property": "C117",
   "status": "partial",
   "theorems": [
    "C117_printing_harmless",
    "C117_silent",
    "C117_other_lib",
    "C117_history",
    "C117_begins",
    "C117_krylov_lines",
    "C117_krylov_last",
    "C117_krylov_exact",
    "C117_jacobi_exact",
    "C117_sor_exact",
    "C117_example",
    "C117_stationary_last_refuted",
    "C117_breakdown_example"
   ],
   "note": "FALSE of the code for Jacobi and SOR: the last line is not get_final_residual, and line k is the residual of the iterate before iteration k divided by |b| (C117_jacobi_exact, C117_sor_exact say exactly what it is; SOR without preconditioner). Everything else proved for all four solvers; number formatting and the history of LOBPCG are not modelled."
  },
  {
   "property": "C118",
   "status": "partial",
   "theorems": [
    "C118_safe",
    "C118_off",
    "C118_to_cout",
    "C118_to_file",
    "C118_no_leak",
    "C118_example",
    "C118_hypotheses",
    "C118_file_first_refuted",
    "C118_leak_refuted",
    "C118_copy_refuted"
   ],
   "note": "FALSE of the code: a file name given before set_print_rhistory is ignored (history to standard output, file left empty, stream leaked); a second file name, switching the history off and the empty name leak streams; copying a solver that has a file deletes the stream twice or writes to it after deletion. Proved for all programs otherwise: no undefined behaviour unless an object that has a file name is copied, the exact destination of every solve, no leak when the file name is the last setter call. Two streams on one file name are kept apart; reading the uninitialised pointer in the comparison of the destructor is taken as harmless."
  },
  {
   "property": "C119",
   "status": "partial",
   "theorems": [
    "C119_fresh",
    "C119_history",
    "C119_default",
    "C119_formats",
    "C119_create_only",
    "C119_create_then_apply",
    "C119_apply_only",
    "C119_bind",
    "C119_bind_create_only",
    "C119_outlive",
    "C119_reaches",
    "C119_example",
    "C119_apply_only_refuted",
    "C119_two_objects_refuted",
    "C119_copy_refuted",
    "C119_sor_mixture_refuted",
    "C119_created_example"
   ],
   "note": "The part about solvers bound for both functions to one living object is proved for all worlds, hence all histories (C119_fresh, C119_history), for every CRS and Dense object (C119_formats); likewise unbound solvers and preconditioners created by hand. The last sentence is false of the code: with only create bound the preconditioner silently has no effect (C119_create_only), with only apply bound the solve uses whatever matrix p was last created for, or fails (C119_apply_only, C119_apply_only_refuted), two objects fail (C119_two_objects_refuted), a destroyed p is undefined behaviour for every solve that gets that far (C119_outlive, C119_copy_refuted for copies of a self-bound solver), and a SOR preconditioner whose matrix was changed mixes the old diagonal with the new off-diagonal part (C119_sor_mixture_refuted). Host memory; ILU and IC (which throw on the host, C38) and copy assignment of solvers are not in this model."
  },
  {
   "property": "C12",
   "status": "proved",
   "theorems": [
    "C12_crs_matvec_T",
    "C12_crs_matvec_T_exact",
    "C12_crs_adjoint",
    "C12_crs_matvec_T_is_transpose",
    "C12_crs_matvec_T_sizes"
   ],
   "note": ""
  },
  {
   "property": "C120",
   "status": "partial",
   "theorems": [
    "C120_owned",
    "C120_safe",
    "C120_view",
    "C120_view_defined",
    "C120_view_write_defined",
    "C120_resize_ends_views",
    "C120_shared",
    "C120_destroy_others",
    "C120_new",
    "C120_set",
    "C120_resize",
    "C120_push",
    "C120_no_owner",
    "C120_copy",
    "C120_assign",
    "C120_view_fill",
    "C120_view_resize",
    "C120_move_into",
    "C120_example",
    "C120_fill_example",
    "C120_view_dangling_refuted",
    "C120_view_stale_refuted",
    "C120_unshared_refuted",
    "C120_clobber_refuted",
    "C120_assign_owner_refuted",
    "C120_move_view_refuted"
   ],
   "note": "Ownership (C120_owned), definedness of every in-range call (C120_safe), views and shared objects whose storage stays in place (C120_view, C120_shared), exactly when a view may be used (C120_view_defined) that destroying an object changes no other (C120_destroy_others) and what construction, copying, writing, assignment, resize, push_back and move do to the elements of every object (C120_new, C120_copy, C120_set, C120_assign, C120_resize, C120_push, C120_no_owner, C120_move_into) and fill and resize of a view to its target (C120_view_fill, C120_view_resize) are proved for every history. The last sentence is false of the code: resize, push_back and moving another object into the target (C120_move_view_refuted) end views silently - every access is a use after free (C120_resize_ends_views, C120_view_dangling_refuted) or, if another object still shares the old storage, reads and writes that object instead of the target (C120_view_stale_refuted); resizing the owner silently ends the sharing (C120_unshared_refuted), and a tensor resized within the allocation it shares overwrites elements pushed onto the vector since (C120_clobber_refuted); an assignment makes an object that shares its storage an owner, after which push_back, which threw before, silently ends the sharing (C120_assign_owner_refuted). Host memory; objects with an offset, views of views, multi-dimensional views and tensors are not in this model."
  },
  {
   "property": "C13",
   "status": "partial",
   "theorems": [
    "C13_crs_matvec_ab_refuted",
    "C13_crs_matvec_ab_ignored",
    "C13_crs_matvec_ab_partial"
   ],
   "note": "FALSE of the code: a and b are ignored on the OSS path."
  },
  {
   "property": "C14",
   "status": "proved",
   "theorems": [
    "C14_crs_transpose",
    "C14_crs_transpose_from",
    "C14_crs_transpose_twice"
   ],
   "note": ""
  },
  {
   "property": "C15",
   "status": "partial",
   "theorems": [
    "C15_crs_row_col_refuted",
    "C15_crs_row_col_diag_partial"
   ],
   "note": "FALSE of the code for rectangular row()/col(). diag proved for all shapes, row/col for square."
  },
  {
   "property": "C16",
   "status": "partial",
   "theorems": [
    "C16_same_structure_refuted",
    "C16_same_structure_diag_refuted",
    "C16_hash_schedule_refuted",
    "C16_same_structure_partial",
    "C16_coo_same_structure_partial"
   ],
   "note": "FALSE of the code: the hash reads only sizes and depends on the schedule."
  },
  {
   "property": "C17",
   "status": "partial",
   "theorems": [
    "C17_crs_matadd_refuted",
    "C17_crs_matadd_partial",
    "C17_crs_matadd_named_partial"
   ],
   "note": "FALSE of the code: the structure guard accepts different patterns. Proved when the patterns do agree."
  },
  {
   "property": "C18",
   "status": "proved",
   "theorems": [
    "C18_crs_dense_scalar",
    "C18_crs_dense_avx",
    "C18_crs_dense_exact",
    "C18_crs_dense_sizes"
   ],
   "note": ""
  },
  {
   "property": "C19",
   "status": "proved",
   "theorems": [
    "C19_crs_scal_times",
    "C19_map_val_elem",
    "C19_crs_times_line",
    "C19_crs_times_line_edge_refuted"
   ],
   "note": "For matrices of the same pattern; the row bound num==rows is accepted by the code (refutation theorem)."
  },
  {
   "property": "C20",
   "status": "partial",
   "theorems": [
    "C20_crs_diag_op",
    "C20_dense_diag_op",
    "C20_dense_diag_sizes",
    "C20_view_dense_refuted",
    "C20_dense_diag_named"
   ],
   "note": "Proved for CRS and Dense of every shape; FALSE of the code for a view_Dense at a non-zero offset."
  },
  {
   "property": "C21",
   "status": "proved",
   "theorems": [
    "C21_dense_transpose",
    "C21_dense_transpose_from",
    "C21_dense_transpose_twice",
    "C21_square_loop_schedules",
    "C21_rect_loop_schedules",
    "C21_offset_refuted",
    "C21_alias_refuted"
   ],
   "note": "Proved for Dense objects at offset 0 (every Dense not moved with set_first). Objects at an offset and A.transpose(A) are refuted separately."
  },
  {
   "property": "C22",
   "status": "proved",
   "theorems": [
    "C22_dense_insert",
    "C22_dense_bounds",
    "C22_dense_reshape",
    "C22_default_constructors",
    "C22_new_resize",
    "C22_dense_position"
   ],
   "note": ""
  },
  {
   "property": "C23",
   "status": "proved",
   "theorems": [
    "C23_vector_history",
    "C23_constructors",
    "C23_set_first_refuted"
   ],
   "note": "For every history on an owning vector with first=0. set_first followed by resize is refuted separately."
  },
  {
   "property": "C24",
   "status": "partial",
   "theorems": [
    "C24_view_get_set",
    "C24_view_nested",
    "C24_view_fill_assign",
    "C24_view_blas",
    "C24_vector_of_view",
    "C24_view_assign_view_refuted",
    "C24_view_assign_view_partial",
    "C24_view_end_refuted",
    "C24_view_dangling_refuted"
   ],
   "note": "FALSE of the code for view=view with a non-zero source offset (offset added twice), end(), and views of a reallocated vector. All other accesses proved."
  },
  {
   "property": "C25",
   "status": "partial",
   "theorems": [
    "C25_axpy",
    "C25_xpay",
    "C25_axpyz",
    "C25_scal",
    "C25_copy",
    "C25_vecadd",
    "C25_vecsub",
    "C25_times_scalar",
    "C25_times",
    "C25_vml_add",
    "C25_vml_adds",
    "C25_vml_sub",
    "C25_vml_subs",
    "C25_vml_mul",
    "C25_vml_muls",
    "C25_vml_div",
    "C25_vml_divs",
    "C25_vml_max",
    "C25_vml_min",
    "C25_vml_maxs",
    "C25_vml_mins",
    "C25_vml_sqrt",
    "C25_vml_reciprocal",
    "C25_vml_sign",
    "C25_sizes",
    "C25_times_refuted",
    "C25_overlap_refuted"
   ],
   "note": "All kernels proved for every schedule when sizes agree and inputs equal or miss the output. FALSE of the code: times(a,b,y) accepts a short b (out-of-range read); partially overlapping views are schedule dependent."
  },
  {
   "property": "C26",
   "status": "partial",
   "theorems": [
    "C26_sum",
    "C26_nrm1_asum",
    "C26_dot",
    "C26_nrm2",
    "C26_dot_sizes",
    "C26_max",
    "C26_min",
    "C26_max_min_b64",
    "C26_sum_float_refuted",
    "C26_dot_float_refuted",
    "C26_max_zero_sign_refuted",
    "C26_max_nan_refuted",
    "C26_max_empty_refuted"
   ],
   "note": "Exact arithmetic proved for every schedule; max/min of doubles without NaN proved up to operator==. FALSE of the code in IEEE arithmetic (sum, dot), for the sign of zero and NaN in max, and for max/min of an empty vector (reads y[0])."
  },
  {
   "property": "C27",
   "status": "proved",
   "theorems": [
    "C27_index_of_position",
    "C27_bijection",
    "C27_order",
    "C27_rank",
    "C27_insert",
    "C27_constructors"
   ],
   "note": ""
  },
  {
   "property": "C28",
   "status": "partial",
   "theorems": [
    "C28_insert_at",
    "C28_insert_at_more",
    "C28_sort_partial",
    "C28_merge_partial",
    "C28_merge_refuted",
    "C28_merge_empty_refuted",
    "C28_sort_big_refuted",
    "C28_coo_to_dense_partial",
    "C28_dense_to_coo_partial",
    "C28_round_trip_partial",
    "C28_convert_refuted",
    "C28_diag",
    "C28_resize"
   ],
   "note": "insert/at proved. FALSE of the code: sort(true) with differing duplicates or no entries, sort of tensors whose flat index exceeds int, conversion of an offset window; everything else proved as _partial."
  },
  {
   "property": "C29",
   "status": "partial",
   "theorems": [
    "C29_tensor_diag_partial",
    "C29_tensor_diag_safe_partial",
    "C29_sizes",
    "C29_refuted",
    "C29_tensor_diag_named_partial"
   ],
   "note": "Proved for shapes equal to their reverse (cubes); FALSE of the code for e.g. 2x3 (stride computed from dimensions in the wrong order); memory safety and the exact set of touched elements proved for every shape."
  },
  {
   "property": "C30",
   "status": "partial",
   "theorems": [
    "C30_success_partial",
    "C30_accept_partial",
    "C30_two_inferred",
    "C30_data_kept",
    "C30_throw_refuted",
    "C30_zero_refuted"
   ],
   "note": "FALSE of the code: a rejected reshape leaves the new shape behind, and a request with a 0 and a -1 divides by zero. Success, acceptance and preservation of the data proved."
  },
  {
   "property": "C31",
   "status": "partial",
   "theorems": [
    "C31_roundtrip",
    "C31_roundtrip_double_partial",
    "C31_roundtrip_float_partial",
    "C31_banner",
    "C31_infinity_refuted",
    "C31_no_columns_refuted",
    "C31_hang_refuted",
    "C31_truncated_refuted",
    "C31_truncated_newline_refuted",
    "C31_no_size_refuted",
    "C31_positions_unchecked_refuted"
   ],
   "note": "Byte-level: every COO with a column, sizes and indices in the range of the C++ types and finite float/double values is read back exactly, with any comment lines; banners other than the expected one are rejected. FALSE of the code: infinities come back as 0; malformed files (no size line, truncated, out-of-range positions, file ending in a comment) are not rejected."
  },
  {
   "property": "C32",
   "status": "partial",
   "theorems": [
    "C32_eye",
    "C32_frank",
    "C32_tridiagonal_partial",
    "C32_laplacian_1D_partial",
    "C32_tridiagonal_small_refuted",
    "C32_laplacian_2D",
    "C32_toeplitz_plus_hankel_partial",
    "C32_toeplitz_plus_hankel_small_refuted",
    "C32_band_partial",
    "C32_band_refuted",
    "C32_asym_band",
    "C32_band_reject",
    "C32_random_structure_matrix_partial",
    "C32_random_structure_reject",
    "C32_random_structure_empty_refuted",
    "C32_random_structure_tensor_partial"
   ],
   "note": "All generators, all sizes and parameters in the int range: every element, the stored positions and their order. FALSE of the code: tridiagonal_toeplitz/laplacian_1D with M = 1 and toeplitz_plus_hankel with M < 4 abort; band_matrix with diag_val = 0 puts val on the diagonal; random_structure_* with nnzrow = 0 returns an unreadable entry."
  },
  {
   "property": "C33",
   "status": "partial",
   "theorems": [
    "C33_matadd",
    "C33_matsub",
    "C33_vml_add",
    "C33_vml_sub",
    "C33_matmul",
    "C33_scalar_mul",
    "C33_scalar_div",
    "C33_scalar_add",
    "C33_scalar_sub",
    "C33_others_unchanged",
    "C33_matadd_follows_operands",
    "C33_destroyed_operand_refuted",
    "C33_in_place_matadd_refuted",
    "C33_scalar_temporary_refuted",
    "C33_to_dense",
    "C33_to_dense_shape",
    "C33_to_dense_no_matvec",
    "C33_diag",
    "C33_copy_ctor_partial",
    "C33_assign_partial",
    "C33_matmul_dense_unset",
    "C33_matadd_matrix",
    "C33_matsub_matrix",
    "C33_matmul_matrix",
    "C33_scalar_matrix",
    "C33_convert_crs",
    "C33_convert_dense",
    "C33_convert_coo",
    "C33_to_dense_matrix",
    "C33_roundtrip_dense",
    "C33_roundtrip_crs",
    "C33_roundtrip_coo",
    "C33_diag_matrix",
    "C33_op_dense_matmul",
    "C33_snapshot_refuted",
    "C33_copy_outlives_original_refuted",
    "C33_copy_ctor_matmul_refuted",
    "C33_assign_stale_refuted",
    "C33_matadd_stale_matmul_refuted",
    "C33_same_size_refuted",
    "C33_roundtrip_inf_refuted",
    "C33_blas_copy_partial",
    "C33_blas_copy_runs",
    "C33_blas_copy_sizes",
    "C33_to_coo",
    "C33_unmatched",
    "C33_other_size",
    "C33_copy",
    "C33_op_dense_matmul_coo",
    "C33_gaps_example"
   ],
   "note": "Operators as library lambdas over a world of captured objects; matadd/matsub/vml add/sub/matmul/scalar operations proved for both matvec and rmatvec, any functions, any arithmetic, then as matrices in exact arithmetic; convert, convert_to_Dense and diag proved; matrix -> operator -> Dense restores the matrix in exact arithmetic. FALSE of the code: in-place results never return; a result used after an operand (or a temporary scalar) is destroyed is undefined; results follow later changes of the operands; the copy constructor drops the matmul functions; operator= keeps stale functions; matadd keeps the stale matmul function; is_same_size accepts operators that differ in one dimension; infinite elements do not survive the round trip. Missing: GPU, impure user functions."
  },
  {
   "property": "C34",
   "status": "proved",
   "theorems": [
    "C34_cg_exact",
    "C34_bicgstab_exact",
    "C34_code_consistent",
    "C34_formats",
    "C34_cg_float_refuted",
    "C34_bicgstab_float_refuted",
    "C34_other_lib_refuted",
    "C34_nonsquare",
    "C34_residual_method",
    "C34_residual_method_example"
   ],
   "note": "Exact arithmetic, any preconditioner that returns. Binary64 and set_lib(1): counterexamples (_refuted)."
  },
  {
   "property": "C35",
   "status": "partial",
   "theorems": [
    "C35_jacobi_sor_refuted",
    "C35_jacobi_partial",
    "C35_sor_partial",
    "C35_formats"
   ],
   "note": "FALSE of the code: the reported residual is that of the previous iterate divided by ||b||. What the code does guarantee is proved."
  },
  {
   "property": "C36",
   "status": "partial",
   "theorems": [
    "C36_sor_lower",
    "C36_lower_is_triangular_system",
    "C36_sor_precond_crs",
    "C36_sor_lower_unsorted_refuted",
    "C36_sor_precond_dense_refuted"
   ],
   "note": "Proved for rows sorted by column (CRS) and Dense; FALSE of the code for unsorted CRS rows; the SOR preconditioner of a Dense matrix always fails."
  },
  {
   "property": "C37",
   "status": "partial",
   "theorems": [
    "C37_solver_check_refuted",
    "C37_get_residual_l2",
    "C37_get_residual_l2_rect_refuted"
   ],
   "note": "FALSE of the code: solver_check returns false for every code. get_residual_l2 proved for square matrices."
  },
  {
   "property": "C38",
   "status": "partial",
   "theorems": [
    "C38_level_0_1_partial",
    "C38_level_2_partial",
    "C38_level_3_partial",
    "C38_unbalanced_refuted",
    "C38_vector_equal_refuted",
    "C38_exception_refuted"
   ],
   "note": "All call trees of all 724 logging functions (skeletons generated from the sources) in four build configurations: every log line is accurate and the stack restored on return, at log level 0-1 for all functions, at level 2 for all but 8 places, at level 3 for all but 37 places. FALSE of the code: exactly those places (vector/Dense/tensor_Dense equal, is_same_structure/is_same_size, LinearOperator copy constructor, getrf/getrs/sytrf size checks, Barrier, GPU cholesky/qr) return with a changed stack or pop an empty one; exceptions always leave the names of the active calls behind."
  },
  {
   "property": "C39",
   "status": "partial",
   "theorems": [
    "C39_race_free",
    "C39_crs_matvec",
    "C39_zero_fill",
    "C39_crs_times_row",
    "C39_crs_times_col",
    "C39_crs_times_row_line",
    "C39_crs_times_col_line",
    "C39_crs_diag_scalar",
    "C39_crs_diag_vector",
    "C39_crs_dense_matmul",
    "C39_crs_dense_matmul_avx_double",
    "C39_crs_dense_matmul_avx_float",
    "C39_crs_getdiag",
    "C39_crs_getcol",
    "C39_crs_getrow_partial",
    "C39_crs_getrow_refuted",
    "C39_linearoperator_diag_view_refuted",
    "C39_vequal_partial",
    "C39_vequal_race_refuted"
   ],
   "note": "Every parallel loop of the modelled CRS operations, at memory-access granularity (vector, Dense, tensor and reduction loops are covered by the theorems of C19, C21, C25, C26, C41, C44, C46, C47, C56). FALSE of the code: row() of a CRS with repeated columns and diag of a LinearOperator into a view depend on the schedule; vequal has a data race on its result flag, harmless under sequential consistency. Not covered: GPU offload loops, in-place CRS operations, weak-memory behaviour of the vequal race."
  },
  {
   "property": "C40",
   "status": "partial",
   "theorems": [
    "C40_coo_copy",
    "C40_crs_copy",
    "C40_crs_copy_value_partial",
    "C40_crs_copy_overrun_refuted"
   ],
   "note": "FALSE of the code: CRS(mat,value) and convert(CRS) overrun the heap for a CRS converted from a COO with spare capacity. Copy constructors proved."
  },
  {
   "property": "C41",
   "status": "partial",
   "theorems": [
    "C41_times_row",
    "C41_times_col",
    "C41_adds_row",
    "C41_adds_col",
    "C41_times_row_line",
    "C41_times_col_line",
    "C41_adds_row_line",
    "C41_adds_col_line",
    "C41_sizes",
    "C41_line_edge_refuted"
   ],
   "note": "All operations proved; FALSE of the code for a row/column number equal to the number of rows/columns (accepted)."
  },
  {
   "property": "C42",
   "status": "partial",
   "theorems": [
    "C42_tensvec_partial",
    "C42_tensmat_partial",
    "C42_mattens_partial",
    "C42_tensmul_partial",
    "C42_sizes",
    "C42_empty_refuted",
    "C42_shape_refuted",
    "C42_overflow_refuted",
    "C42_tensvec_plain_partial",
    "C42_tensmat_plain_partial",
    "C42_mattens_plain_partial",
    "C42_tensmul_plain_partial"
   ],
   "note": "Proved for a non-empty contraction index and counts in the int range, every rank and schedule. FALSE of the code: empty contraction index (division by zero), shape of C checked only by count, >= 2^31 elements."
  },
  {
   "property": "C43",
   "status": "partial",
   "theorems": [
    "C43_move_ok",
    "C43_move_accepts_partial",
    "C43_zero_refuted",
    "C43_overflow_refuted",
    "C43_view_refuted",
    "C43_other_moves",
    "C43_vector_refuted",
    "C43_view_same_dims"
   ],
   "note": "Proved: whatever is returned covers the same memory with the right count; exact acceptance in the int range. FALSE of the code: -1 with 0, int overflow, view_Dense::move ignores the requested dimensions."
  },
  {
   "property": "C44",
   "status": "proved",
   "theorems": [
    "C44_alo"
   ],
   "note": ""
  },
  {
   "property": "C45",
   "status": "proved",
   "theorems": [
    "C45_vector_copy",
    "C45_vector_assign_fill",
    "C45_vector_equal"
   ],
   "note": ""
  },
  {
   "property": "C46",
   "status": "proved",
   "theorems": [
    "C46_dense_matvec_ab",
    "C46_dense_matvec",
    "C46_dense_matmul_ab",
    "C46_dense_matmul",
    "C46_dense_sizes"
   ],
   "note": "Exact arithmetic; cblas gemv/gemm trusted to meet the BLAS specification."
  },
  {
   "property": "C47",
   "status": "proved",
   "theorems": [
    "C47_matadd",
    "C47_matsub",
    "C47_mscal",
    "C47_times_scalar",
    "C47_adds_scalar",
    "C47_copy",
    "C47_fill",
    "C47_sizes"
   ],
   "note": ""
  },
  {
   "property": "C48",
   "status": "partial",
   "theorems": [
    "C48_dense_getvec",
    "C48_dense_getvec_sizes",
    "C48_dense_getvec_refuted"
   ],
   "note": "Proved for in-range r,c and targets at offset 0; FALSE of the code for r/c out of range (unchecked) and for target views at an offset."
  },
  {
   "property": "C49",
   "status": "partial",
   "theorems": [
    "C49_exact_start_refuted",
    "C49_bicgstab_start_partial",
    "C49_bicgstab_halfstep_refuted"
   ],
   "note": "FALSE of the code: CG 0/0 -> NaN, BiCGSTAB half step with s=0, Jacobi/SOR with b=0."
  },
  {
   "property": "C50",
   "status": "proved",
   "theorems": [
    "C50_cg_terminates"
   ],
   "note": ""
  },
  {
   "property": "C51",
   "status": "proved",
   "theorems": [
    "C51_limit_only_cuts"
   ],
   "note": ""
  },
  {
   "property": "C52",
   "status": "proved",
   "theorems": [
    "C52_preconditioners"
   ],
   "note": "The SOR preconditioner of a Dense matrix is refuted under C36."
  },
  {
   "property": "C53",
   "status": "partial",
   "theorems": [
    "C53_access_partial",
    "C53_alias_refuted",
    "C53_values_partial",
    "C53_values_refuted"
   ],
   "note": "FALSE of the code: a position outside the shape may alias another element; too many values overrun the buffer. Proved: memory safety of at/insert for every position and exact outcome."
  },
  {
   "property": "C54",
   "status": "partial",
   "theorems": [
    "C54_equal_partial",
    "C54_window_refuted"
   ],
   "note": "Proved for offset 0; FALSE for offset windows (the comparison starts at the buffer, not the window)."
  },
  {
   "property": "C55",
   "status": "partial",
   "theorems": [
    "C55_row",
    "C55_col",
    "C55_row_line",
    "C55_col_line",
    "C55_sizes",
    "C55_line_range",
    "C55_line_edge_refuted"
   ],
   "note": "Proved for non-empty last/first dimension and counts in the int range; FALSE of the code: the line number equal to the number of lines is accepted (access outside the tensor)."
  },
  {
   "property": "C56",
   "status": "proved",
   "theorems": [
    "C56_tensadd",
    "C56_scalar",
    "C56_inplace",
    "C56_sizes"
   ],
   "note": ""
  },
  {
   "property": "C57",
   "status": "partial",
   "theorems": [
    "C57_tridiagonal",
    "C57_laplacian_1D",
    "C57_toeplitz_plus_hankel_partial",
    "C57_toeplitz_plus_hankel_order_refuted",
    "C57_frank_refuted",
    "C57_frank_shifted_partial"
   ],
   "note": "Over the reals. Tridiagonal and 1D Laplacian: the Nth smallest, N from 0, for all M >= 2. FALSE of the code: frank_matrix_eigenvalue(M, 1) is 1/4, an eigenvalue of no Frank matrix (the argument is off by two from the 0-based count); the values of toeplitz_plus_hankel are the generalized eigenvalues but not in increasing order."
  },
  {
   "property": "C58",
   "status": "partial",
   "theorems": [
    "C58_convert_partial",
    "C58_from_crs",
    "C58_copy",
    "C58_reuse_refuted",
    "C58_unsorted_refuted",
    "C58_rank1_refuted"
   ],
   "note": "Sorted tensor_COO into an object without structure: all rows of all slices, any rank >= 2; CRS and copies proved. FALSE of the code: converting into an object that was used before appends to col_inds (later products read out of bounds); unsorted input loses entries silently; rank 1 reads shape[-1]."
  },
  {
   "property": "C59",
   "status": "proved",
   "theorems": [
    "C59_tensvec",
    "C59_sizes",
    "C59_from_coo",
    "C59_values",
    "C59_ab"
   ],
   "note": "Every readable tensor_CRS, any arithmetic, bit-exact; in exact arithmetic from the tensor_COO to the result."
  },
  {
   "property": "C60",
   "status": "proved",
   "theorems": [
    "C60_tensmat",
    "C60_tensmul",
    "C60_exact",
    "C60_from_coo",
    "C60_sizes",
    "C60_tensmul_plain"
   ],
   "note": "All three compiled variants, any arithmetic, with alpha and beta; tensmul for sizes in the int range."
  },
  {
   "property": "C61",
   "status": "partial",
   "theorems": [
    "C61_elementwise_partial",
    "C61_addsub_partial",
    "C61_inplace",
    "C61_sizes",
    "C61_equal_partial",
    "C61_guard_refuted",
    "C61_from_arrays_refuted",
    "C61_copy_equal_refuted"
   ],
   "note": "Proved for arguments with identical index arrays and equal hash. FALSE of the code: the structure guard sees only sizes, so different structures are combined; objects built from arrays carry an indeterminate hash; comparing a copy with its original reads past the end."
  },
  {
   "property": "C62",
   "status": "partial",
   "theorems": [
    "C62_refines_partial",
    "C62_mixed_sides",
    "C62_roundtrip",
    "C62_demo",
    "C62_dense_resize_refuted",
    "C62_alias_resize_refuted"
   ],
   "note": "The OpenMP mapping table (reference counts, partial overlap undefined) refines a two-copy machine for every program within the stated contract (GpuSpec.sstep). FALSE of the code outside it: resize of a Dense (tensor_Dense, CRS, tensor_CRS) with spare capacity does not check the device status and the next kernel touches unmapped memory; an alias made by move becomes invalid when the owner is resized but keeps sharing its device status. Missing: copy constructor of tensor_CRS on the device, views in copy/assign, set_first, async directives, buffer address reuse."
  },
  {
   "property": "C63",
   "status": "partial",
   "theorems": [
    "C63_transparent_partial",
    "C63_final_contents_partial",
    "C63_demo",
    "C63_resend_refuted",
    "C63_device_free_refuted",
    "C63_transpose_refuted"
   ],
   "note": "Proved for programs that do not send or free objects with unfetched device results and throw nothing. FALSE of the code in general: a second send overwrites device results, device_free drops them, in-place Dense::transpose works on the host copy only."
  },
  {
   "property": "C64",
   "status": "partial",
   "theorems": [
    "C64_only_sent",
    "C64_all_released_partial",
    "C64_no_move_partial",
    "C64_demo",
    "C64_alias_leak_refuted",
    "C64_move_onto_leak_refuted"
   ],
   "note": "Proved for all programs without move, and with move under an ownership condition. FALSE of the code: a moved alias sent after its owner was destroyed, and moving onto an object that is on the device, leak device memory."
  },
  {
   "property": "C65",
   "status": "partial",
   "theorems": [
    "C65_refused",
    "C65_allowed",
    "C65_demo",
    "C65_dense_resize_refuted"
   ],
   "note": "Element access and set for all classes, push_back and resize for vector. FALSE of the code: Dense, tensor_Dense, CRS and tensor_CRS resize within spare capacity succeeds on the device."
  },
  {
   "property": "C66",
   "status": "proved",
   "theorems": [
    "C66_one_outcome",
    "C66_still_ahead",
    "C66_no_infinite_run",
    "C66_bounded"
   ],
   "note": "Diamond property of the machine + well-founded termination; every program over the modelled primitives, every number of ranks, every buffering policy. The MPI library is modelled from the standard (MpiModel.v)."
  },
  {
   "property": "C67",
   "status": "partial",
   "theorems": [
    "C67_in_order",
    "C67_send_recv",
    "C67_send_recv_all",
    "C67_mismatch_fails",
    "C67_program",
    "C67_scalar_recv_refuted",
    "C67_std_recv_refuted",
    "C67_scalar_program_refuted"
   ],
   "note": "Proved for monolish::vector (Send of std::vector too). FALSE of the code: Recv of a scalar takes its parameter by value, so the variable is never assigned; Recv into a std::vector resolves to the by-value template and ends the process."
  },
  {
   "property": "C68",
   "status": "partial",
   "theorems": [
    "C68_exchange",
    "C68_ring",
    "C68_isend_scalar_refuted",
    "C68_irecv_scalar_refuted",
    "C68_isend_mono_refuted",
    "C68_isend_mono_loses_refuted",
    "C68_programs_refuted"
   ],
   "note": "Proved for Irecv of vectors with Isend of std::vector, any permutation of partners. FALSE of the code: Isend/Irecv of a scalar use a dead parameter as buffer; Isend of a monolish::vector writes to rq.back() without push_back (undefined on an empty list, loses a request otherwise)."
  },
  {
   "property": "C69",
   "status": "partial",
   "theorems": [
    "C69_bcast_vec",
    "C69_bcast_scalar",
    "C69_bcast_program",
    "C69_allreduce_partial",
    "C69_allreduce_refuted",
    "C69_allreduce_program_refuted",
    "C69_barrier",
    "C69_barrier_waits",
    "C69_mismatch_fails",
    "C69_mismatch_program",
    "C69_collectives_mismatch",
    "C69_allreduce_mismatch_program",
    "C69_scatter_mismatch_program"
   ],
   "note": "Bcast and Barrier proved. Allreduce proved only for libraries that accept equal send and receive buffers; FALSE otherwise: the code passes the same address twice, which the MPI standard forbids."
  },
  {
   "property": "C70",
   "status": "partial",
   "theorems": [
    "C70_gather_scatter_refuted",
    "C70_one_rank_refuted",
    "C70_gather_program_refuted"
   ],
   "note": "FALSE of the code: the receive vector is a by-value parameter and the counts are wrong; with two ranks or more every call is an error, with one rank the vector is left unchanged."
  },
  {
   "property": "C71",
   "status": "partial",
   "theorems": [
    "C71_dot_partial",
    "C71_one_vector_partial",
    "C71_before_init_refuted",
    "C71_alias_refuted"
   ],
   "note": "Exact arithmetic, libraries that accept equal buffers in Allreduce, after Init. FALSE otherwise: before Init, or with a library that insists on distinct buffers, the call is an error."
  },
  {
   "property": "C72",
   "status": "partial",
   "theorems": [
    "C72_init",
    "C72_init_twice_fails",
    "C72_rank_size",
    "C72_initialized_refuted",
    "C72_guarded_init_refuted"
   ],
   "note": "Init, get_rank, get_size proved. FALSE of the code: Initialized returns the negation. Finalize and builds with NDEBUG (where the asserted MPI calls vanish) are the subject of C113."
  },
  {
   "property": "C73",
   "status": "proved",
   "theorems": [
    "C73_code",
    "C73_residual",
    "C73_near_eigenvalue",
    "C73_example"
   ],
   "note": "Every ordered field (reals, rationals), any LAPACK for code and residual; the matrix formats are instances by C34_formats. The distance to an eigenvalue assumes the square root of the residual's square exists in the field (true of the reals: R_roots)."
  },
  {
   "property": "C74",
   "status": "proved",
   "theorems": [
    "C74_ritz",
    "C74_bound",
    "C74_example"
   ],
   "note": "Runs whose last inner problem has info = 0 (see C77). Courant-Fischer by a dimension argument, any ordered field."
  },
  {
   "property": "C75",
   "status": "proved",
   "theorems": [
    "C75_monotone",
    "C75_example"
   ],
   "note": "Runs whose last inner problems have info = 0 (see C77)."
  },
  {
   "property": "C76",
   "status": "partial",
   "theorems": [
    "C76_standard_refuted",
    "C76_generalized_refuted",
    "C76_terminates_partial",
    "C76_more_fuel",
    "C76_example",
    "C76_generalized_example",
    "C76_generalized_terminates_partial",
    "C76_other_library",
    "C76_generalized_terminates_example"
   ],
   "note": "FALSE of the code: iter-- on a singular inner problem repeats the same step forever; every start from an eigenvector that is not normalised, and for the generalized solver every start when B is a multiple of the identity, never returns. Proved: 2 maxiter + 1 passes are enough if LAPACK never calls the first two blocks dependent."
  },
  {
   "property": "C77",
   "status": "partial",
   "theorems": [
    "C77_unnoticed_partial",
    "C77_refuted"
   ],
   "note": "FALSE of the code: info in [m, 3m] is neither retried nor reported; two equal starting vectors give SUCCESS with two equal eigenvectors. Proved: an unnoticed failure has info >= m."
  },
  {
   "property": "C78",
   "status": "partial",
   "theorems": [
    "C78_tested_partial",
    "C78_refuted"
   ],
   "note": "FALSE of the code: the preconditioned residual is tested; with Jacobi SUCCESS at tolerance 1/100 with residual norm 4/5. Proved: what exactly is tested."
  },
  {
   "property": "C79",
   "status": "partial",
   "theorems": [
    "C79_code",
    "C79_residual_partial",
    "C79_residual_identity_partial",
    "C79_refuted"
   ],
   "note": "FALSE of the code: |A x - l x| is tested instead of |A x - l B x|. Proved: the code is consistent with the tested quantity, and right for B = I."
  },
  {
   "property": "C80",
   "status": "proved",
   "theorems": [
    "C80_ritz",
    "C80_example"
   ],
   "note": "Runs whose last inner problem has info = 0 (see C77)."
  },
  {
   "property": "C81",
   "status": "partial",
   "theorems": [
    "C81_safe",
    "C81_guard",
    "C81_general_safe",
    "C81_general_itype",
    "C81_example",
    "C81_no_pairs_refuted"
   ],
   "note": "Proved for at least one pair. FALSE for zero pairs: the maximum of an empty vector reads out of bounds. The generalized solver aborts on itype other than 1."
  },
  {
   "property": "C82",
   "status": "proved",
   "theorems": [
    "C82_lu",
    "C82_lu_in_place",
    "RL_docs",
    "C82_example"
   ],
   "note": "LAPACK's documentation (DirSpec.v) is a hypothesis; RL_docs: the reference library of DirRef.v meets it for every order."
  },
  {
   "property": "C83",
   "status": "partial",
   "theorems": [
    "C83_tall_lu_partial",
    "C83_empty_partial",
    "C83_lengths_partial",
    "C83_short_vector_refuted",
    "C83_tall_cholesky_refuted",
    "C83_wide_refuted",
    "C83_example"
   ],
   "note": "FALSE of the code: a short vector (two-argument form) and a tall matrix in Cholesky are out-of-bounds accesses; a wide matrix gives SUCCESS with a wrong x. Proved: LU answers BREAKDOWN for tall and empty matrices, and vectors of different lengths abort."
  },
  {
   "property": "C84",
   "status": "partial",
   "theorems": [
    "C84_factors_partial",
    "C84_upper_kept_partial",
    "C84_refuted"
   ],
   "note": "FALSE of the code: A is overwritten by factors whose pivots are lost; a second solve returns SUCCESS with a wrong x. Proved: what A holds afterwards."
  },
  {
   "property": "C85",
   "status": "proved",
   "theorems": [
    "C85_cholesky",
    "C85_cholesky_in_place",
    "RL_docs",
    "C85_example"
   ],
   "note": "LAPACK's documentation is a hypothesis (met by DirRef.v)."
  },
  {
   "property": "C86",
   "status": "partial",
   "theorems": [
    "C86_lower_partial",
    "C86_refuted"
   ],
   "note": "FALSE of the code for matrices that are not symmetric: only the lower triangle is read. Proved: the system of the lower triangle is solved."
  },
  {
   "property": "C87",
   "status": "proved",
   "theorems": [
    "C87_dc",
    "C87_example"
   ],
   "note": "LAPACK's documentation is a hypothesis."
  },
  {
   "property": "C88",
   "status": "proved",
   "theorems": [
    "C88_gdc",
    "C88_example"
   ],
   "note": "LAPACK's documentation is a hypothesis."
  },
  {
   "property": "C89",
   "status": "partial",
   "theorems": [
    "C89_itype_partial",
    "C89_lower_partial",
    "C89_lib_refuted",
    "C89_short_refuted",
    "C89_tall_refuted",
    "C89_general_refuted",
    "C89_nonsymmetric_refuted"
   ],
   "note": "FALSE of the code: any library number other than 0 returns SUCCESS without doing anything, short lambda/B and tall matrices are out-of-bounds accesses, asymmetry is not noticed. Proved: a wrong itype is reported and changes nothing; the lower triangle is what counts."
  },
  {
   "property": "C90",
   "status": "proved",
   "theorems": [
    "C90_two_matrices",
    "C90_scalar",
    "C90_unary",
    "C90_alo_exact",
    "C90_sizes",
    "C90_example"
   ],
   "note": "libm functions are parameters; alo is stated as coded and, for a totally ordered scalar, as documented."
  },
  {
   "property": "C91",
   "status": "proved",
   "theorems": [
    "C91_two_tensors",
    "C91_scalar",
    "C91_unary",
    "C91_sizes",
    "C91_example"
   ],
   "note": "libm functions are parameters."
  },
  {
   "property": "C92",
   "status": "partial",
   "theorems": [
    "C92_two_matrices_partial",
    "C92_scalar_partial",
    "C92_unary_partial",
    "C92_elements",
    "C92_sizes",
    "C92_example",
    "C92_structure_refuted",
    "C92_unstored_refuted"
   ],
   "note": "FALSE of the code: add/sub/mul/div with a scalar check only the sizes; matrices of another structure are read out of bounds or give a matrix with elements in the wrong places. Proved for equal structures; different structure hashes are refused by all other functions. A function with f(0) <> 0 is not applied to unstored positions."
  },
  {
   "property": "C93",
   "status": "partial",
   "theorems": [
    "C93_two_tensors_partial",
    "C93_scalar_partial",
    "C93_unary_partial",
    "C93_sizes",
    "C93_example",
    "C93_structure_refuted"
   ],
   "note": "FALSE of the code: the scalar forms check only the shapes. Proved for equal structures."
  },
  {
   "property": "C94",
   "status": "partial",
   "theorems": [
    "C94_dense",
    "C94_tensor",
    "C94_double",
    "C94_view_partial",
    "C94_tensor_view_partial",
    "C94_sparse_partial",
    "C94_crs_elements_partial",
    "C94_example",
    "C94_view_refuted",
    "C94_view_refuted_example",
    "C94_crs_refuted",
    "C94_empty_refuted"
   ],
   "note": "FALSE of the code: for views, CRS and tensor_CRS the result is clamped at 0, so the maximum of a view with only negative elements is 0; empty matrices are read out of bounds. Proved in full for non-empty Dense and tensor_Dense; for the others the extremum of the values and 0, which for a CRS matrix with an unstored position is the extremum of its elements."
  },
  {
   "property": "C95",
   "status": "proved",
   "theorems": [
    "C95_sum",
    "C95_nrm1_asum",
    "C95_dot",
    "C95_nrm2",
    "C95_gamma",
    "C95_schedules",
    "C95_double",
    "C95_float"
   ],
   "note": "For every binary format with round to nearest even; no fused multiply-add (see DESIGN.md)."
  },
  {
   "property": "C96",
   "status": "proved",
   "theorems": [
    "C96_crs_matvec",
    "C96_crs_matvec_T"
   ],
   "note": ""
  },
  {
   "property": "C97",
   "status": "proved",
   "theorems": [
    "C97_sum",
    "C97_dot",
    "C97_crs_matvec",
    "C97_crs_matvec_T"
   ],
   "note": ""
  },
  {
   "property": "C98",
   "status": "proved",
   "theorems": [
    "C98_jacobi_converges",
    "C98_jacobi_error",
    "C98_jacobi_final_resid",
    "C98_example",
    "C98_zero_rhs"
   ],
   "note": "Real arithmetic. C98_zero_rhs shows why b = 0 is excluded: in double precision both solvers then report a NaN residual."
  },
  {
   "property": "C99",
   "status": "proved",
   "theorems": [
    "C99_sor_converges",
    "C99_sor_error",
    "C99_relaxation",
    "C99_example"
   ],
   "note": "Real arithmetic, without preconditioner."
  }
 ]
}