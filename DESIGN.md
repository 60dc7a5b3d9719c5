# Formal model of ricosjp/monolish in Rocq (Coq 8.16.1)

## What is modelled

The CPU, non-MKL ("OSS") code path of monolish with device memory unused
(`get_device_mem_stat() == false`), no MPI.  Each C++ member function/kernel becomes a total
Gallina function over lists (arrays) returning an outcome `res` with the cases
`Ok | Throw | Abort | UB | NoFuel` (see `Base.v`): an out-of-range access is `UB`, a failed
`assert` is `Abort` (the CMake files set no build type, so `NDEBUG` is off), an exception is
`Throw`.  Objects are records with the same fields as the C++ class.  In-place mutation
returns the new record.

* Scalars: `Float` is an abstract type with operations (`Scalar.v`, class `Scalar`) and NO laws, so
  that bit-exact statements hold for `float`, `double` with whatever rounding.  Statements
  about "exact arithmetic" take a `ring_theory` hypothesis.  Instances: `Z`, `Qc` and IEEE
  binary64 (`SpecFloat` of the standard library, pure Gallina).
* Indices: `int`/`size_t` are `nat`; overflow of 32/64-bit integers is not modelled (matrices
  with fewer than 2^31 entries), except in the structure hash where the wrap is explicit.
* OpenMP `parallel for`: `Mem.v` gives the interleaving semantics at memory-access
  granularity (sequentially consistent interleavings); reductions are modelled by an
  arbitrary partition of the iterations over threads and an arbitrary combination order.

Trusted base (what a theorem here rests on):

1. Coq 8.16.1's kernel (`vm_compute` is used for concrete witnesses; no `native_compute`).
2. Axioms: none of our own.  `Print Assumptions` follows every theorem of the `Properties*.v`
   files and answers "Closed under the global context" for each of them, except C31_roundtrip_double_partial and
   C31_roundtrip_float_partial, whose proofs use the standard library's real numbers through Flocq, and the
   theorems of C57 (PropertiesEig.v, first three axioms only) and C95-C97 (PropertiesRound.v), C98-C99 (PropertiesConv.v), which are about real numbers:
   `ClassicalDedekindReals.sig_not_dec`, `ClassicalDedekindReals.sig_forall_dec`,
   `FunctionalExtensionality.functional_extensionality_dep`, `Classical_Prop.classic`.  (Loading mathcomp's
   `ssreflect` parts through the standard library's micromega/`Qcanon` adds nothing: no theorem
   depends on the `ssrunder`/`Under_rel` module-type fields that a whole-library scan lists.)
3. The transcription of C++ into Gallina, function by function, each definition carrying the
   `/repo` file and lines it transcribes.  It is checked by reading only.
4. CBLAS routines by contract: `axpy`, `scal`, `copy` as the reference loops over `n` elements with
   unit strides; `dot`, `asum` as sums in an unspecified association (see C26); `gemv`, `gemm` as their
   BLAS specification, including "beta = 0 writes y without reading it" and the leading dimension.
5. The C++ compiler is taken to evaluate each floating-point operation as written (no fused
   multiply-add contraction, no -ffast-math).  Statements over an arbitrary `Scalar` therefore hold
   bit-exactly only under that assumption; statements over `exact` scalars do not need it.
6. Memory model: `Mem.v` interleaves the individual loads and stores of the iterations (sequentially
   consistent).  For the race-free kernels this is justified by the DRF guarantee of C++11/OpenMP;
   a load/store conflict between iterations is reported as a race, never as defined behaviour.
7. `operator new`/`std::shared_ptr` never fail; a pointer is a buffer identity plus offset, two
   different allocations never overlap.

Not modelled: kernels on the device other than their mapping directives, MKL, AVX intrinsics other than the
block structure of the CRS-Dense product, the inside of the MPI library and of LAPACK (both are modelled from their
documentation), the sparse direct solvers (the CPU build throws), cuSolver, timing.
CBLAS `gemv/gemm` are modelled by their BLAS specification.

## Layout

* `Base.v` outcomes/arrays/loops, `Scalar.v` scalars, `Spec.v` independent specification,
* `*Model.v` the model (no proofs), `*Proof.v` the proofs,
* `Properties*.v` only theorem statements closed by `exact`, with `Print Assumptions`.

## Modelling notes per area

* **CRS** (`CrsModel.v`, `CrsObserve.v`): arrays `row_ptr, col_ind, val` as lists, together with the allocated
  length of `val` (its capacity can exceed `col_ind`'s length after `convert(COO)`), `first` and `val_nnz`.  The
  `row_ptr` produced by `convert(COO)` is modelled including its stale entries.
* **vector/view1D/Dense** (`VecModel.v`, `Mem.v`, `DenseBlasModel.v`): arguments of BLAS/VML calls are
  (pointer, first, size) triples into a common memory, so that views may alias.  Kernels are programs in the
  language `prog` of `Mem.v` (loads, stores, sequential and parallel loops); a theorem holds for every schedule.
* **Solvers** (`SolverModel.v`): value semantics for the work vectors (each is a fresh `vector` in the C++), the
  iteration as a structurally recursive function over `maxiter - iter`; the matrix enters through `matif`
  (rows, columns, `matvec`, `diag`), instantiated with CRS and Dense; the preconditioner is an arbitrary function for
  CG/BiCGSTAB and the code's own Jacobi/SOR ones otherwise.  `std::sqrt`, `std::abs`, `std::isnan` are the operations
  `fsqrt`, `fabs`, `fnan` of `Scalar`.  Printing of residual history is omitted.

* **Tensors** (`TensorModel.v`): tensor_Dense as (shape, buffer, first, val_nnz, alloc_nnz, ownership flag); tensor_COO as
  (shape, index, val, val_nnz, alloc_nnz, flag).  `reshape` returns the object it leaves behind also when it throws.
  The tensor_COO quicksort uses 32-bit `int` keys (`int_of` = conversion modulo 2^32, `int_sub` undefined on overflow).
  tensor_COO::operator= is not modelled (it is never instantiated).
* **tensor_CRS** (`TensorCrsModel.v`, `TensorCrsSpec.v`): shape, row_ptrs, col_inds, one value buffer with `first`/`val_nnz`/
  allocated size, and structure_hash as an option (None = indeterminate, using it is UB).  Products build the CRS matrix of each
  slice with the code's own constructor and call the CRS kernels of C14/C18.  `tr_readable` allows the extra row_ptrs element
  that copies carry and the unset trailing row pointers that conversion leaves.  Not modelled: printing, `diag`.
* **GPU host/device protocol** (`GpuModel.v`, contract in `GpuSpec.v`): the OpenMP device data environment is a table of
  (array section, device contents, reference count); `target enter data map(to)`, `exit data map(from|release)`,
  `update to|from` follow the OpenMP 5 rules (present sections are only counted, partly mapped sections are undefined,
  absent ones ignored by update/exit, a kernel on an unmapped section is undefined).  Objects of all five classes share
  one record (value buffer, index arrays, gpu_status cell shared by move, ownership flag).  A client is any list of
  calls.  Kernels are arbitrary functions of their operands (their values are the subject of the other models).
  Simplified: host addresses are not reused after a free; first = 0; one device; no `nowait` (none in /repo); equality of
  sizes stands for is_same_size/is_same_structure in assignments; resize of CRS/tensor_CRS is outside the contract.
* **Tensor BLAS** (`TensorBlasModel.v`): a tensor argument is (data, first, shape); moves return matrix/vector arguments
  over the same memory and may throw; the products are the moves followed by the Dense kernels of C46.
* **MatrixMarket files** (`IoModel.v`, `FloatText.v`): a file is a list of bytes; `getline`, `>> string`, `>> size_t`,
  `>> double` with the stream flags as the C++ standard and libstdc++ define them (sentry, eofbit, failbit, "target unchanged
  when the sentry fails", uninitialised variable = UB when used); `std::exit` = Abort.  Number formatting is
  concrete: exact decimal expansion rounded half-even to 18 (double) / 10 (float) digits, reading = correctly rounded.
  This assumes glibc's printf/strtod are correctly rounded.  Not modelled: opening files, disk errors, allocation failure,
  print_all of the other classes.
* **Dispatch wrappers**: the overloads for vector/view1D/Dense/view_Dense/tensor in src/blas and src/vml are generated one-line
  calls of the modelled cores; they are not modelled.  `tools/wrap.py` was used to check that each passes its arguments in order.
* **Logger** (`LogModel.v`, `LogTable.v`): LogTable.v is generated from /repo by `tools/skel.py` (no network, no
  build: it only reads the sources): for each of the 724 functions that call the logger, in four build configurations
  (none, MKL+AVX, MPI, GPU macros), the control flow and the logger calls; every other statement is `Any`, which may
  call any library functions.  Trusted: that script.  Not modelled: OpenMP regions that call logging functions from
  several threads (the logger is not synchronised), the time stamps, changing the level in the middle of a call.
* **LinearOperator** (`LinOpModel.v`): CPU only (gpu_status false everywhere); user-supplied functions are pure;
  library lambdas are data (the captured object numbers) interpreted at call time in the current world, so capture by
  reference, destroyed objects and self-reference are expressible; the depth of nested calls is fuel, and
  `computes` means "returns for every sufficient depth".
* **Eigenvalue functions** (`EigModel.v`): over the standard library's reals; std::cos is `cos`, M_PI is `PI`;
  rounding and int overflow of `2 * (M - N + 1) + 1` are not modelled.
* **Generators** (`GenModel.v`): each generator is a sequence of `coo_insert` calls; int arithmetic is in Z with an explicit
  overflow check where a value can leave the int range; negative indices passed to `insert` fail its asserts.  Negative
  sizes M, N are not modelled.  The random engine is an arbitrary sequence of columns; the innermost retry loop has a fuel.

* **MPI** (`MpiModel.v`): the MPI library is not in the repository and is part of the trusted base: its semantics is
  the machine of the first half of MpiModel.v, written from the MPI standard (matching per communicator, source,
  destination and tag in posting order; a buffer belongs to the library until the call that waits for its request; type
  and size matching; truncation is an error; collectives need all ranks, equal roots, counts and types; buffers must not
  alias except where `i_alias` says the library tolerates it in Allreduce).  An implementation may buffer any
  messages it likes (`i_eager`) and add in any order (`i_red`, the same value on all ranks).  A program of a rank is a
  tree of atomic actions; the wrappers of src/mpi are the second half, one definition per function.  Erroneous programs
  (undefined behaviour, MPI errors, std::exit) end in `None`.  Not modelled: wildcards, negative ranks or tags,
  communicators that do not contain all ranks in order, Finalize, NDEBUG builds, the MPI-less build (every wrapper
  is a no-op), logging.  A collective completes in one step once all ranks are inside.  `MpiMap.v` uses std++'s
  `gmap` as the finite map of channels (closed under the global context).

* **LOBPCG** (`LobModel.v`, `LobSpec.v`): both eigensolvers, one definition per loop; row blocks of `wxp`/`WXP` as lists of
  rows; LAPACK's `?sygvd` is an arbitrary function of the call number and its arguments, and the theorems name what they
  assume of it (`lapack_info0`, `lapack_minors`, `lapack_sizes`, straight from its documentation; `LobWitness.sim` meets all
  three, so they are consistent).  Exact arithmetic in any ordered field; `LobWitness.Qcs` are the rationals with exact
  roots of squares, used for the computed runs.  The iteration can run forever, so it has fuel: `NoFuel` = still running.
  Left out: printing of the residual, the `Dense`/`view1D` plumbing of the row blocks (`set_row`/`set_col`), GPU copies.

* **Direct solvers** (`DirModel.v`, `DirSpec.v`): LU, Cholesky and both DC solvers on Dense with the LAPACK wrappers.
  LAPACK is a record of arbitrary functions on array contents; each theorem names the part of LAPACK's documentation it
  assumes (`getrf_doc`: P L U of the column-major array, `getrs_doc`, `sytrf_doc`, ..., in exact arithmetic), and
  `DirRef.v` implements a library over any field and proves that it meets the LU/Cholesky documents for every order, so
  they are consistent.  An array shorter than what the routine touches is `UB`.  XERBLA is taken to return.

* **VML of matrices and tensors** (`VmlModel.v`): all functions of src/vml/matrix/matrix_vml.cpp and src/vml/tensor/tensor_vml.cpp on the CPU
  path; std::sin and the other libm functions are fields of a record `libm` about which nothing is assumed.  Max/min are
  reductions as in ReduceModel; the `typeid` test that decides whether the result is clamped at 0 is a flag of the class.

* **Floating-point rounding** (`RoundSpec.v`, C95-C97): float and double are the `spec_float`s of the standard library that fit the format,
  with the standard library's IEEE operations (`SFadd`, ...); what a number is worth is written down in `RoundSpec.v` (sign, mantissa, power of
  two as a real number).  That these operations round correctly is taken from Flocq, a library proved in Coq that adds no axioms to the four
  of the standard library.  A fused multiply-add, as an optimised BLAS may use inside `dot`, is not modelled.
* **Convergence** (`ConvSpec.v`, C98-C99): the loop models of jacobi.cpp and sor.cpp at exact real numbers, so that nothing is NaN.
  b is not 0, as the code divides by its norm (in Coq 1/0 = 0, in C++ infinity: `C98_zero_rhs` runs that case in double precision).
  Any preconditioner may be registered for Jacobi (the code overwrites its result), none for SOR.
- PropertiesGaps*.v: theorems added because automatic edits of the model survived (LOG.jsonl, entries a001...): LOBPCG with a generalized problem or another library, LinearOperator calls with missing or wrong-sized operators, mismatched collectives, copies of Dense windows, fresh objects, view moves, nested windows, set_residual_method.

## Plan per property

| id | model | proof |
|----|-------|-------|
| C01 | COO record, `insert`, `at`, growth | invariant over insert list, refinement to last-wins map |
| C02 | asserts in `insert` | refuted at the boundary `i = M`; what is guaranteed proved as partial |
| C03 | `_q_sort` on three arrays, fuel | partition invariant, segment permutation, induction |
| C04 | `sort(true)` merge loop | proved for distinct positions; refuted for duplicates and for the empty matrix |
| C05 | both `transpose` | direct |
| C06 | `row/col/diag` | forward overwrite = backward search |
| C07 | both conversions | loop invariants |
| C08/C09 | `CRS::convert(COO)` state machine over rows | loop invariant; C09 refuted (trailing empty rows, stale row_ptr) |
| C10 | `equal` | soundness direction proved for equal nnz; refuted in general |
| C11-C13 | `Dmatvec_core` | fold over rows; ring spec; C13 refuted |
| C14 | CRS transpose | counting sort invariant |
| C15 | row/col/diag CRS | square proved; rectangular refuted |
| C16/C17 | hash, matadd | hash independent of content: refuted; matadd proved for really equal patterns |
| C18 | both matmul paths | block/remainder cover; ring |
| C19, C20, C41 | elementwise loops | frame + update |
| C21, C22 | Dense transpose, reshape, index | invariants |
| C23 | vector | refinement to lists |
| C24 | view1D | window spec, refuted copy-assign and `end()` |
| C25 | Par.v | non-interference theorem |
| C39 | Mem/ParProof + CrsParModel | CRS loops as programs of single memory accesses; disjoint write footprints (rows of a readable CRS do not share entries) give one result under every schedule; explicit interleavings refute row() with repeated columns and LinearOperator diag into a view; == writes a shared flag (race, harmless under SC) |
| C26 | partitioned reductions | monoid theorem; refuted for binary64 |
| C27-C30, C42, C43 | tensors | mixed-radix induction |
| C31 | MatrixMarket text | parser/printer on strings of decimal numbers |
| C32 | GenModel: every generator as inserts | the list of inserted triples (strictly sorted) by formula; random structure: invariant over distinct columns, termination from fairness of the draws |
| C33 | LinOpModel: a world of objects (operators, CRS/COO/Dense matrices, scalars, each alive or destroyed); a stored std::function is a user function or one of the library's lambdas with the object numbers it captured by reference; call depth is explicit fuel | calls: induction on fuel, frame lemma over the inductive relation "built on"; conversions by loop invariants; refutations: self-reference never returns (induction on fuel), destroyed operands, stale functions, all computed |
| C34-C37 | solvers | iteration invariants in rings; counterexamples in binary64 and Qc |
| C38 | LogModel: logger + skeletons of all logging functions, executions as call trees | static balance check (computed over the whole table) proved sound by mutual induction on executions; a ghost call stack gives the accurate log; refutations by computed executions |
| C40 | copy constructors | refuted through `convert(COO)` with spare capacity |
| C44 | `vml::alo` as max/min/scal/axpy kernels | slot kernels, every schedule |
| C45 | vector copies/assignment/equality | frame + value |
| C46 | Dense gemv/gemm wrappers | contract + index arithmetic |
| C47 | Dense elementwise operations | grid kernels, every schedule |
| C48 | Dense diag/row/col | gather kernels; refuted for out-of-range r/c |
| C49 | all solvers at the exact solution | counterexamples by computation; what holds for BiCGSTAB as partial |
| C50 | CG | conjugacy/orthogonality invariant over the history + linear independence |
| C52 | preconditioner creation + application | kernels of C36 composed with diag/reciprocal |
| C51 | all solvers | prefix lemma on the fuelled iteration |
| C53 | at/insert of tensor_Dense with arbitrary positions; std::vector constructor | case analysis on the flat index; refuted by aliasing / overrun |
| C54 | tensor_Dense::equal | vequal loop + unflattening; refuted for offset windows |
| C55 | tensor row/col broadcast | unfolding to a matrix + the C41 kernels; edge line number refuted |
| C31 | IoModel + FloatText | text lemmas for words/numbers/lines; loop invariant over the entries; decimal round trip by Flocq: the printed decimal is closer than half the smallest gap |
| C56 | tensor element-wise kernels | slot kernels over flat numbers |
| C57 | EigModel: the four eigenvalue formulas over the reals | sine/cosine eigenvectors by the addition formulas; completeness by orthogonality and the dimension bound |
| C58 | TensorCrsModel: the three conversions | loop invariant per slice over the sorted entries; the row-pointer state machine of C08 per slice |
| C59, C60 | slice matrices + CRS kernels | chunk loop: each slice writes its own window of C; exact sums by list induction |
| C61 | element-wise loops, structure guard, operator== | value window maps; refutations computed |
| C62 | GpuModel: mapping table, all five classes, programs as lists of calls | forward simulation to the two-copy machine of GpuSpec (ghost table storage -> sections, cell); per-directive frame lemmas |
| C63 | same | second simulation between the two-copy machine and its one-copy projection; counterexamples computed |
| C64 | same | invariant: a storage on the device has a live owner; counterexamples computed |
| C65 | same | from the simulation |
| C66 | MpiModel: ranks, channels, collectives; executions under any schedule | invariant on requests and buffers, pairwise commutation of all agents (diamond), stability of errors; termination by the product order of program trees and the outstanding work of the network |
| C67-C70, C72 | wrappers of src/mpi | one complete run per rule, all others by C66; trace invariant for the order of messages |
| C71 | reductions of C26 + Allreduce | sum of sums = sum over the concatenation |
| C73 | LobModel: both LOBPCG solvers statement by statement, LAPACK's ?sygvd as an arbitrary function | invariant: the stored images are A (B) times the stored vectors; the last accepted step determines what is returned |
| C74, C80 | LAPACK's documentation as hypothesis (LobSpec) | Ritz pairs of the span; Courant-Fischer by linear dependence of k+1 vectors in dimension k, over any ordered field |
| C75 | same | the old x_i lie in the new trial space; interlacing |
| C76 | iteration with fuel | refuted: a singular 2 x 2 Gram matrix is a fixpoint of the loop; termination measure for the positive part |
| C77-C79 | same | computed runs over the rationals (square roots that occur are exact) |
| C81 | same | totality of every step under the shape invariant |
| C82, C84 | DirModel, LAPACK's documentation as hypothesis (DirSpec) | row-major A is column-major A^T; P L U of A^T with non-zero pivots solves A x = b; a zero pivot gives a null vector, transposed (row rank = column rank through linear dependence) |
| C83, C89 | same | evaluation of the guards; computed witnesses with the reference library |
| C85, C86 | same | the column-major upper triangle is the row-major lower one |
| C87, C88 | same, ordered field | n orthonormal vectors span; hence no other eigenvalue; SUCCESS makes B positive definite |
| C90, C91 | VmlModel kernels on memory | map kernels: instances of the schedule-independence lemma of the kernel model; row-major bijection for tensors |
| C92, C93 | VmlModel on CRS / tensor_CRS records | instances of the flat-loop lemmas; witnesses for the missing structure check |
| C94 | VmlModel reductions | weak order on the elements; every combination tree yields a maximum; effect of the clamp |
| C95 | ReduceModel reductions at `ieee prec emax` | every combination tree is an approximation of its index set: bound kept by a rounded addition (Flocq), permutation-invariant |
| C96 | CrsModel matvec at `ieee prec emax` | bit-exact C11/C12 results, then the same tree lemma on a row; sums over rows equal the real product |
| C97 | both | integers up to 2^p are representable: rounding is the identity at every node |
| C98 | SolverModel jacobi_solve at the reals | one iteration solves P t = r with P the diagonal; induction over the row order: the error and the correction shrink by q in the maximum norm |
| C99 | SolverModel sor_solve at the reals | the same with P the lower triangle and diagonal/w; the forward substitution is bounded row by row |
| C100 | SolverModel cg_solve with pc_jacobi / pc_sor | residuals are orthogonal in the inner product of the preconditioner, so at most n of them; the two triangular solves of pc_sor form a symmetric positive map |
| C101 | DenseModel dense_equal | the comparison loop is the conjunction over all elements; offsets refute it |
| C102 | TensorModel tc_of_arrays, td_convert, td_convert_dense, TensorCrsModel tr_of_arrays, tr_set_ptr | each constructor loop stores element by element; windows refute the conversions |
| C103 | ViewModel (view_Dense, view_tensor_Dense over vector, Dense, tensor_Dense or view targets) | every access is one buffer position; a run of any program keeps the relation "the window holds the matrix, the rest is as before" (induction over the program) |
| C104 | PrintModel (print_all of every class; the output as a list of characters, the number format a parameter) | each loop appends one line per iteration; positions of a tensor by row_major; tensor_CRS by an invariant on (output, nz) over slices, rows and entries |
| C105 | IoModel input_mm (streams, getline, >> of size_t, words and floats); IoLayout: lines and fields as inductive predicates | getline on "the stream holds these lines next" (last newline optional); each >> skips white space and stops at white space; entry loop by invariant |
| C106 | VecMoreModel (constructors, operator=(std::vector), operator-, named vml functions; generator and libm are parameters) | new buffer + one loop; store loop by invariant; multiplication by -1 and double->float conversion through Flocq |
| C107 | SparseSetModel (set_ptr, fill, operator=, copies, equal, is_same_structure, is_same_size of COO, CRS, tensor_COO) | copy/fill loop lemmas; entry lists compared element by element; counterexamples computed |
| C108 | SparseSetModel (constructors) | closed forms of the buffers by the copy/fill loop lemmas; origin shift by loop invariant |
| C109 | kernels of C25 and CRS-Dense product of C18 over IEEE arithmetic (`RoundOpsSpec.v`) | error of one operation from Flocq, error of a sum started at b*C by the summation-tree lemma of C95 over option-indexed terms |
| C110 | narrowing of size_t to int at the CBLAS calls and int subscript arithmetic of the CRS-Dense product (`Int32Model.v`), vocabulary `Int32Spec.v` | reduction to C25/C26/C45/C18 on the first r elements; inversion of the loops for undefinedness; symbolic witnesses of 2^31 elements |
| C111 | vendor branches of the sparse products, libraries by contract, with a count of live library objects (`VendorModel.v`) | contract unfolded and compared with C11/C12/C18; induction over the number of calls; concrete counterexamples |
| C112 | the product loops over pointers into one memory, so arguments may overlap; A.transpose(A) with the shared fields (`AliasModel.v`, `CooModel.v`, `DenseModel.v`) | race-freedom from the access sets when rows do not conflict; loop invariants for the in-place sweeps; concrete schedules for the counterexamples |
| C113 | MpiLifeModel: the library state (idle, running, over), the communicator member, the build flags, one transition per call | induction over the history (state of the library and of the communicator as a function of the calls made); counterexamples for every history in builds without assertions |
| C114 | SolverModel.sor_solve over the reals; EnergySpec: x^T M x | each sweep lowers the energy norm of the error by exactly (2/w-1) sum M_ii t_i^2; a sweep that does not stop lowers it by a fixed positive amount; induction over the loop |
| C115 | SolverModel.cg_solve and sor_solve over the reals; EnergySpec | CG invariant: r is the residual and p.r = z.r; each step lowers the energy by (z.r)^2/(p.Ap); directions without energy are orthogonal to the range; induction over both limits at once |
| C116 | SolverModel.v (jacobi_loop, jacobi_solve) | energy identity E(x') = E(x) - t^T(2D-A)t per iteration, uniform lower bound while the residual is above tol, archimedean bound on the number of iterations (EnergyProof4.v) |
| C117 | HistModel.v: the four solver loops of SolverModel.v with the list of printed lines | one generic loop (HistProof.v) that all four solvers are proved equal to; induction over the iterations; erasing the lines gives SolverModel.v |
| C118 | StreamModel.v: print_rhistory, rhistory_file, rhistory_stream, setters, destructor, implicit copies, a heap of streams | inductive invariant over histories (unique owner of every live stream), replay of the calls after the last setter |
| C119 | solver objects with their bound create and apply pointers, M and matrix pointer; matrices; histories of operations (BindModel.v) | create through p followed by apply through p equals the fresh preconditioner because diag overwrites M completely; invariant that untouched preconditioner data persist; concrete histories for the refutations |
| C120 | storage as reference-counted allocations; vector, tensor and view objects; histories of operations (LifeModel.v) | invariant: each count equals the number of living objects holding the allocation, and every object fits its allocation; storage of an object stays put under the in-place operations; concrete histories for the refutations |
