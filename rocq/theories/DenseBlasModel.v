(** * DenseBlasModel: BLAS-like operations on Dense matrices and view_Dense (model only).

    A matrix argument (matrix::Dense, view_Dense) is represented by what the operations use of it:
    data() (start of the buffer), get_offset() and the dimensions; begin() = data() + get_offset().
    All objects live in one memory, so arguments may alias.  Host memory, no MKL. *)
From Verif Require Import Base Scalar Mem VecModel.
Set Implicit Arguments.

(** monolish_dense.hpp:44-72, monolish_view_dense.hpp:51-60 *)
Record marg := mkMarg { g_data : ptr; g_first : nat; g_row : nat; g_col : nat }.
(** monolish_dense.hpp:689-697, monolish_view_dense.hpp:453-461 *)
Definition g_begin (A : marg) : ptr := padd (g_data A) (g_first A).
(** get_nnz(): monolish_dense.hpp:355 (val_nnz = row * col), monolish_view_dense.hpp:256 (range) *)
Definition g_nnz (A : marg) : nat := g_row A * g_col A.

Section DenseBlasModel.
Context {F : Type} {SF : Scalar F}.
Notation prog := (prog F).
Notation kernel := (@kernel F).

(** compare_dense.cpp:78-91 is_same_structure, monolish_common.hpp is_same_size for matrices *)
Definition msame (A B : marg) : bool := (g_row A =? g_row B) && (g_col A =? g_col B).

(** ** whole-matrix element-wise operations *)

(** times/dense_times.hpp:10-21 times(alpha, A, C); internal::vmul(nnz, A.begin(), alpha, C.begin()) *)
Definition k_mtimes (alpha : F) (A C : marg) : kernel :=
  mkKernel (msame A C) (g_nnz A) (map1 (fun x => fmul x alpha) (g_begin A) (g_begin C)).
(** adds/dense_adds.hpp:10-21 adds(alpha, A, C) *)
Definition k_madds (alpha : F) (A C : marg) : kernel :=
  mkKernel (msame A C) (g_nnz A) (map1 (fun x => fadd x alpha) (g_begin A) (g_begin C)).
(** mataddsub/dense_mataddsub.hpp:8-21, 23-36 *)
Definition k_matadd (A B C : marg) : kernel :=
  mkKernel (msame A B && msame A C) (g_nnz A) (map2 fadd (g_begin A) (g_begin B) (g_begin C)).
Definition k_matsub (A B C : marg) : kernel :=
  mkKernel (msame A B && msame A C) (g_nnz A) (map2 fsub (g_begin A) (g_begin B) (g_begin C)).
(** scal/dense_scal.hpp:8-16 mscal: internal::vmul(nnz, A.begin(), alpha, A.begin()) *)
Definition k_mscal (alpha : F) (A : marg) : kernel :=
  mkKernel true (g_nnz A) (map1 (fun x => fmul x alpha) (g_begin A) (g_begin A)).
(** copy/dense_copy.hpp:7-18; copy_dense.cpp:10-23 operator= *)
Definition k_mcopy (A C : marg) : kernel :=
  mkKernel (msame A C) (g_nnz A) (map1 (fun x => x) (g_begin A) (g_begin C)).
(** fill/fill_dense.cpp:9-31 *)
Definition k_mfill (value : F) (A : marg) : kernel :=
  mkKernel true (g_nnz A) (map0 value (g_begin A)).

(** ** row / column broadcast *)

(** Cd[c] = op(Ad[a], xd[x]) *)
Definition cell_op (op : F -> F -> F) (pa px pc : ptr) : prog unit :=
  a <-- pa ;; x <-- px ;; pc <== op a x ;; Ret tt.

(** times/dense_times.hpp:24-61 times_row, adds/dense_adds.hpp:24-61 adds_row (all rows) *)
Definition k_row (op : F -> F -> F) (A : marg) (x : arg) (C : marg) : kernel :=
  let m := g_row A in let n := g_col A in
  mkKernel (msame A C && (g_col A =? a_len x)) m (fun i =>
    pfor 0 n (fun j _ => cell_op op (padd (g_begin A) (i * n + j)) (padd (a_ptr x) j) (padd (g_begin C) (i * n + j))) tt).
(** times/dense_times.hpp:64-101 times_col, adds/dense_adds.hpp:64-101 adds_col (all columns) *)
Definition k_col (op : F -> F -> F) (A : marg) (x : arg) (C : marg) : kernel :=
  let m := g_row A in let n := g_col A in
  mkKernel (msame A C && (g_row A =? a_len x)) m (fun i =>
    pfor 0 n (fun j _ => cell_op op (padd (g_begin A) (i * n + j)) (padd (a_ptr x) i) (padd (g_begin C) (i * n + j))) tt).
(** times/dense_line_times.hpp:9-43, adds/dense_line_adds.hpp:9-43: one row; the assert is
    [A.get_row() >= num] *)
Definition k_row_line (op : F -> F -> F) (A : marg) (num : nat) (x : arg) (C : marg) : kernel :=
  let n := g_col A in
  mkKernel (msame A C && (g_col A =? a_len x) && (num <=? g_row A)) n (fun j =>
    cell_op op (padd (g_begin A) (num * n + j)) (padd (a_ptr x) j) (padd (g_begin C) (num * n + j))).
(** times/dense_line_times.hpp:46-81, adds/dense_line_adds.hpp:46-81: one column; the assert is
    [A.get_col() >= num] *)
Definition k_col_line (op : F -> F -> F) (A : marg) (num : nat) (x : arg) (C : marg) : kernel :=
  let n := g_col A in
  mkKernel (msame A C && (g_row A =? a_len x) && (num <=? g_col A)) (g_row A) (fun i =>
    cell_op op (padd (g_begin A) (i * n + num)) (padd (a_ptr x) i) (padd (g_begin C) (i * n + num))).

Definition k_times_row := k_row fmul.
Definition k_times_col := k_col fmul.
Definition k_adds_row := k_row fadd.
Definition k_adds_col := k_col fadd.
Definition k_times_row_line := k_row_line fmul.
Definition k_times_col_line := k_col_line fmul.
Definition k_adds_row_line := k_row_line fadd.
Definition k_adds_col_line := k_col_line fadd.

(** ** diagonal operations: diag_op/dense_diag_op.hpp.  They start from data(), not begin(): the
    offset of a view is ignored (lines 13, 43, 75, ...). *)
Definition diag_len (A : marg) : nat := if g_row A <? g_col A then g_row A else g_col A.

(** vald[N*i+i] op= alpha : lines 8-35 (add), 70-97 (sub), 132-159 (mul), 194-221 (div) *)
Definition k_diag_s (op : F -> F -> F) (A : marg) (alpha : F) : kernel :=
  mkKernel true (diag_len A) (fun i =>
    let p := padd (g_data A) (g_col A * i + i) in
    v <-- p ;; p <== op v alpha ;; Ret tt).
(** vald[N*i+i] op= vecd[i] : lines 38-67, 100-129, 162-191, 224-253 *)
Definition k_diag_v (op : F -> F -> F) (A : marg) (x : arg) : kernel :=
  mkKernel (diag_len A =? a_len x) (diag_len A) (fun i =>
    let p := padd (g_data A) (g_col A * i + i) in
    v <-- p ;; e <-- padd (a_ptr x) i ;; p <== op v e ;; Ret tt).
Definition k_diag_add := k_diag_s fadd.
Definition k_diag_sub := k_diag_s fsub.
Definition k_diag_mul := k_diag_s fmul.
Definition k_diag_div := k_diag_s fdiv.
Definition k_diag_add_v := k_diag_v fadd.
Definition k_diag_sub_v := k_diag_v fsub.
Definition k_diag_mul_v := k_diag_v fmul.
Definition k_diag_div_v := k_diag_v fdiv.

(** ** reading a diagonal, row or column: getvec/dense_getvec.cpp.  Both the matrix and the target
    are accessed through data(): the offsets of matrix and target view are ignored.  [xdata] is
    vec.data(), [xlen] is vec.size(). *)
(** lines 9-39 (vector), 44-144 (views) *)
Definition k_getdiag (A : marg) (xdata : ptr) (xlen : nat) : kernel :=
  mkKernel (Nat.min (g_row A) (g_col A) =? xlen) (Nat.min (g_row A) (g_col A)) (fun i =>
    v <-- padd (g_data A) (g_col A * i + i) ;; padd xdata i <== v ;; Ret tt).
(** lines 153-287; no assert on r *)
Definition k_getrow (A : marg) (r : nat) (xdata : ptr) (xlen : nat) : kernel :=
  mkKernel (g_col A =? xlen) (g_col A) (fun i =>
    v <-- padd (g_data A) (r * g_col A + i) ;; padd xdata i <== v ;; Ret tt).
(** lines 292-430; no assert on c *)
Definition k_getcol (A : marg) (c : nat) (xdata : ptr) (xlen : nat) : kernel :=
  mkKernel (g_row A =? xlen) (g_row A) (fun i =>
    v <-- padd (g_data A) (i * g_col A + c) ;; padd xdata i <== v ;; Ret tt).

(** ** matrix-vector and matrix-matrix product through CBLAS.

    cblas_?gemv / cblas_?gemm are external; they are modelled by what the BLAS standard says they
    compute (row-major): y[i] = alpha * sum_j op(A)[i][j] * x[j] + beta * y[i], with op(A)[i][j] at
    A[i*lda+j] (NoTrans) or A[j*lda+i] (Trans); C[i][j] at C[i*ldc+j], etc.  The order of the additions
    is fixed here; the theorems about these calls are in exact arithmetic only. *)
Definition cblas_gemv (trans : bool) (m n : nat) (alpha : F) (A : ptr) (lda : nat) (x : ptr) (beta : F) (y : ptr)
  : nat * (nat -> prog unit) :=
  let rows := if trans then n else m in
  let cols := if trans then m else n in
  (rows, fun i =>
    s <~ pfor 0 cols (fun j s =>
           a <-- padd A (if trans then j * lda + i else i * lda + j) ;;
           e <-- padd x j ;; Ret (fadd s (fmul a e))) f0 ;;
    v <-- padd y i ;; padd y i <== fadd (fmul alpha s) (fmul beta v) ;; Ret tt).

Definition cblas_gemm (m n k : nat) (alpha : F) (A : ptr) (lda : nat) (B : ptr) (ldb : nat) (beta : F) (C : ptr) (ldc : nat)
  : nat * (nat -> prog unit) :=
  (m, fun i => pfor 0 n (fun j _ =>
    s <~ pfor 0 k (fun l s =>
           a <-- padd A (i * lda + l) ;; b <-- padd B (l * ldb + j) ;; Ret (fadd s (fmul a b))) f0 ;;
    v <-- padd C (i * ldc + j) ;; padd C (i * ldc + j) <== fadd (fmul alpha s) (fmul beta v) ;; Ret tt) tt).

(** matvec/dense_matvec.hpp:13-56 (double; float 59-102 is the same with m and n renamed) *)
Definition k_matvec_ab (alpha : F) (A : marg) (x : arg) (beta : F) (y : arg) (transA : bool) : kernel :=
  let asserts := if transA then (g_row A =? a_len x) && (g_col A =? a_len y)
                 else (g_row A =? a_len y) && (g_col A =? a_len x) in
  let '(n, body) := cblas_gemv transA (g_row A) (g_col A) alpha (g_begin A) (g_col A) (a_ptr x) beta (a_ptr y) in
  mkKernel asserts n body.
(** matvec_blas.cpp: matvec(A,x,y) = core(1.0, A, x, 0.0, y, false); matvec_T: true *)
Definition k_matvec (A : marg) (x y : arg) : kernel := k_matvec_ab f1 A x f0 y false.
Definition k_matvec_T (A : marg) (x y : arg) : kernel := k_matvec_ab f1 A x f0 y true.

(** matmul/dense-dense_matmul.hpp:24-67 (double; float 70-114) *)
Definition k_matmul_ab (a : F) (A B : marg) (b : F) (C : marg) : kernel :=
  let asserts := (g_col A =? g_row B) && (g_row A =? g_row C) && (g_col B =? g_col C) in
  let '(n, body) := cblas_gemm (g_row A) (g_col B) (g_col A) a (g_begin A) (g_col A) (g_begin B) (g_col B) b
                      (g_begin C) (g_col B) in
  mkKernel asserts n body.
(** matmul_blas.cpp: matmul(A,B,C) = core(1.0, A, B, 0.0, C) *)
Definition k_matmul (A B C : marg) : kernel := k_matmul_ab f1 A B f0 C.

(** ** in-place transpose of a square matrix: transpose_dense.cpp:15-21; for each i one parallel loop
    over j *)
Definition swap_body (d : ptr) (M i : nat) (k : nat) : prog unit :=
  let j := i + 1 + k in
  x <-- padd d (i * M + j) ;; y <-- padd d (j * M + i) ;;
  padd d (i * M + j) <== y ;; padd d (j * M + i) <== x ;; Ret tt.

(** transpose_dense.cpp:24-29 (target = the temporary B, source = this, M and N its dimensions) and
    53-58 (target = this, source = B): one parallel loop over the M*N elements of the target *)
Definition transpose_body (target source : ptr) (M N : nat) (n : nat) : prog unit :=
  v <-- padd source (N * (n mod M) + n / M) ;; padd target n <== v ;; Ret tt.

End DenseBlasModel.
